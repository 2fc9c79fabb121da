(** Number systems over which the numerical kernels are modelled.

    Phoebus computes with [Real], which is [double] (parthenon basic_types.hpp,
    not in this repository).  Every scalar kernel is written once, over the
    operations of the class [Num], and instantiated twice:

    - at [R], the real numbers of the Coq standard library, where algebraic
      claims are stated;
    - at [B64], IEEE-754 binary64 with round-to-nearest-even (Flocq), where
      claims about NaN, infinities and rounding are stated.

    [nlt a b] models [a < b]; [a > b] is [nlt b a]; [a >= b] is [nle b a].
    A comparison with NaN is false in [B64].  [nlit n d] models the C++
    literal n/d, converted to the nearest double when n and d are integers
    of at most 53 bits (all literals modelled at [B64] are, except 1e-100 and
    1e-12's power-of-ten denominators above 2^53, which incur one more
    rounding). *)
From Coq Require Import ZArith Reals Bool.
From Flocq Require Import Core BinarySingleNaN.

Class Num (T : Type) := {
  nadd : T -> T -> T;
  nsub : T -> T -> T;
  nmul : T -> T -> T;
  ndiv : T -> T -> T;
  nfma : T -> T -> T -> T;
  nopp : T -> T;
  nabs : T -> T;
  nsqrt : T -> T;
  nlt : T -> T -> bool;
  nle : T -> T -> bool;
  neqb : T -> T -> bool;
  nlit : Z -> positive -> T
}.

Declare Scope num_scope.
Delimit Scope num_scope with num.
Infix "+" := nadd : num_scope.
Infix "-" := nsub : num_scope.
Infix "*" := nmul : num_scope.
Infix "/" := ndiv : num_scope.
Notation "- x" := (nopp x) : num_scope.
Infix "<?" := nlt : num_scope.
Infix "<=?" := nle : num_scope.
Infix "=?" := neqb : num_scope.
Notation "a >? b" := (nlt b a) (at level 70, only parsing) : num_scope.
Notation "a >=? b" := (nle b a) (at level 70, only parsing) : num_scope.

(** Real numbers. *)
#[global] Instance Num_R : Num R := {
  nadd := Rplus; nsub := Rminus; nmul := Rmult; ndiv := Rdiv;
  nfma := fun x y z => (x * y + z)%R;
  nopp := Ropp; nabs := Rabs; nsqrt := R_sqrt.sqrt;
  nlt := Rlt_bool; nle := Rle_bool; neqb := Req_bool;
  nlit := fun n d => (IZR n / IZR (Zpos d))%R
}.

(** IEEE-754 binary64, round to nearest even. *)
Definition prec64 : Z := 53.
Definition emax64 : Z := 1024.
Definition B64 : Type := binary_float prec64 emax64.
#[global] Instance prec64_gt_0 : Prec_gt_0 prec64 := eq_refl.
#[global] Instance prec64_lt_emax64 : Prec_lt_emax prec64 emax64 := eq_refl.

(** (double) n *)
Definition b64_of_Z (n : Z) : B64 :=
  binary_normalize prec64 emax64 prec64_gt_0 prec64_lt_emax64 mode_NE n 0 false.

#[global] Instance Num_B64 : Num B64 := {
  nadd := Bplus mode_NE; nsub := Bminus mode_NE;
  nmul := Bmult mode_NE; ndiv := Bdiv mode_NE;
  nfma := Bfma mode_NE;
  nopp := Bopp; nabs := Babs; nsqrt := Bsqrt mode_NE;
  nlt := Bltb; nle := Bleb; neqb := Beqb;
  nlit := fun n d => Bdiv mode_NE (b64_of_Z n) (b64_of_Z (Zpos d))
}.

Section Std.
  Context {T : Type} `{Num T}.
  Local Open Scope num_scope.

  Definition nzero : T := nlit 0 1.
  Definition none : T := nlit 1 1.

  (** std::max(a,b): C++ standard [alg.min.max], "(a < b) ? b : a". *)
  Definition std_max (a b : T) : T := if a <? b then b else a.
  (** std::min(a,b): C++ standard [alg.min.max], "(b < a) ? b : a". *)
  Definition std_min (a b : T) : T := if b <? a then b else a.
  (** SQR / square helpers: x*x *)
  Definition nsqr (x : T) : T := x * x.
End Std.
