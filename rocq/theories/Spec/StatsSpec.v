(** A histogram of non-negative integers. *)
From Coq Require Import ZArith List.
Import ListNotations.
Local Open Scope Z_scope.

Definition occurrences (v : Z) (l : list Z) : Z := Z.of_nat (count_occ Z.eq_dec l v).
(** lines "i n": one for every i from 0 to the largest value, n the number of occurrences of i *)
Definition histogram_of (vals : list Z) (lines : list (Z * Z)) : Prop :=
  (forall i n, In (i, n) lines -> 0 <= i /\ n = occurrences i vals) /\
  (forall v, In v vals -> 0 <= v -> exists n, In (v, n) lines) /\
  NoDup (map fst lines).
Definition total_count (lines : list (Z * Z)) : Z := fold_right (fun p s => snd p + s) 0 lines.
