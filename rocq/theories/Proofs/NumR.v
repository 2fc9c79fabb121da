(** Reasoning about the real instance of [Num]. *)
From Coq Require Import ZArith Reals Lra Bool.
From Flocq Require Import Core.
From Verif.Model Require Import Num.
Local Open Scope R_scope.

Lemma std_max_R a b : std_max a b = Rmax a b.
Proof.
  unfold std_max; cbn. unfold Rmax.
  destruct (Rlt_bool_spec a b), (Rle_dec a b); lra.
Qed.
Lemma std_min_R a b : std_min a b = Rmin a b.
Proof.
  unfold std_min; cbn. unfold Rmin.
  destruct (Rlt_bool_spec b a), (Rle_dec a b); lra.
Qed.

Lemma div1 (x : R) : x / 1 = x.
Proof. field. Qed.

Ltac num_R :=
  rewrite ?std_max_R, ?std_min_R in *;
  unfold nzero, none, nsqr in *;
  cbn [nadd nsub nmul ndiv nfma nopp nabs nsqrt nlt nle neqb nlit Num_R] in *;
  rewrite ?div1 in *.

(** one case split on the first real comparison in the goal *)
Ltac rcase :=
  match goal with
  | |- context [Rlt_bool ?x ?y] => destruct (Rlt_bool_spec x y)
  | |- context [Rle_bool ?x ?y] => destruct (Rle_bool_spec x y)
  | |- context [Req_bool ?x ?y] => destruct (Req_bool_spec x y)
  end.
Ltac rcase_in H :=
  match type of H with
  | context [Rlt_bool ?x ?y] => destruct (Rlt_bool_spec x y)
  | context [Rle_bool ?x ?y] => destruct (Rle_bool_spec x y)
  | context [Req_bool ?x ?y] => destruct (Req_bool_spec x y)
  end.
Ltac mmcase :=
  match goal with
  | |- context [Rmax ?x ?y] => unfold Rmax at 1; destruct (Rle_dec x y)
  | |- context [Rmin ?x ?y] => unfold Rmin at 1; destruct (Rle_dec x y)
  end.
