(** Counting the owners of a direction, and those that own it the wrong way round. *)
From Coq Require Import Reals Arith.
Local Open Scope R_scope.

(** how many k < n satisfy a decidable condition *)
Fixpoint how_many {P : nat -> Prop} (dec : forall k, {P k} + {~ P k}) (n : nat) : nat :=
  match n with O => O | S k => (how_many dec k + if dec k then 1 else 0)%nat end.
(** x in the half-open interval (lo, hi] *)
Definition between (lo x hi : R) : Prop := lo < x <= hi.
