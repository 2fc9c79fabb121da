(** Model of the two self-checking problem generators: src/pgen/check_cached_geom.cpp (does the
    cached geometry agree with the analytic one?) and src/pgen/p2c2p.cpp (are primitives recovered
    from conserved variables?). *)
From Coq Require Import ZArith List Reals.
From Verif.Model Require Import Num Robust.
Import ListNotations.

Section SelfCheck.
  Context {T : Type} `{Num T}.
  Local Open Scope num_scope.

  (** check_cached_geom.cpp:39-42  RelErr:
      std::min(2 * robust::ratio(std::abs(a - b), a + b), std::abs(a - b)) *)
  Definition RelErr (a b : T) : T := std_min (nlit 2 1 * ratio (nabs (a - b)) (a + b)) (nabs (a - b)).

  (** check_cached_geom.cpp:72-79, 103-180  the body of the par_reduce: for every compared component
      "diff = RelErr(analytic, cached); le = std::max(le, diff)" *)
  Definition check_components (le : T) (l : list (T * T)) : T :=
    fold_left (fun le p => std_max le (RelErr (fst p) (snd p))) l le.

  (** check_cached_geom.cpp:60-81, 91-184  pmb->par_reduce(..., Kokkos::Max<Real>(max_err)): Kokkos
      deals the zones out to threads, each starts from reduction_identity<double>::max(), the lowest
      double, and the partial results are joined two by two ("if (dest < src) dest = src") in an
      order of its choosing.  A [Plan] is one such execution; the final value overwrites max_err. *)
  Inductive Plan := Thread (zones : list (T * T)) | Join (dest src : Plan).
  Definition lowest : T := - (nlit (2 ^ 53 - 1) 1 * nlit (2 ^ 971) 1).
  Fixpoint par_reduce_max (p : Plan) : T :=
    match p with
    | Thread zones => check_components lowest zones
    | Join dest src => std_max (par_reduce_max dest) (par_reduce_max src)
    end.
  (** the components a plan visits *)
  Fixpoint visited (p : Plan) : list (T * T) :=
    match p with Thread zones => zones | Join dest src => visited dest ++ visited src end.

  (** p2c2p.cpp:45-72  ReportError: over the zones i = 0 .. GetDim(1)-1 of the row k = 0, j = 0,
      "err = std::abs(val - v) / val; if (err > max_error) max_error = err".  The position and the
      values it also prints are left out (they are uninitialised when max_error stays 0). *)
  Definition ReportError (f : T -> T) (x : nat -> T) (v : nat -> nat -> nat -> T) (n : nat) : T :=
    fold_left (fun max_error i =>
      let val := f (x i) in
      let err := nabs (val - v O O i) / val in
      if max_error <? err then err else max_error) (seq 0 n) (nlit 0 1).
End SelfCheck.
Arguments Plan : clear implicits.

(** p2c2p.cpp:21-43  the profiles of density, internal energy, velocity and magnetic field *)
Local Open Scope R_scope.
Definition p2c2p_profiles (x : R) : list R :=
  [ 1 + 3 / 10 * sin x; 1 + 3 / 10 * cos x;
    5 / 10 + 2 / 10 * sin (x - 3 / 10); 3 / 10 + 2 / 10 * cos (x - 2 / 10); 4 / 10 + 3 / 10 * sin (x + 1 / 10);
    3 / 10 + 1 / 10 * sin x; 4 / 10 + 2 / 10 * cos x; 5 / 10 + 3 / 10 * sin (x - 1 / 10) ].
