(** Vocabulary for the flux controller's schedules and histories. *)
From Coq Require Import Reals List Arith ZArith.
From Verif.Model Require Import ParFor FluxFix.
Import ListNotations.
Local Open Scope R_scope.

(** every one of N partitions runs its three tasks, in some interleaving *)
Definition interleaving (N : nat) (sched : list nat) : Prop :=
  forall n, count_occ Nat.eq_dec sched n = (if Nat.ltb n N then 3 else 0)%nat.
(** every partition has run its first task before any runs its second *)
Definition removal_first (N : nat) (sched : list nat) : Prop :=
  exists a b, sched = a ++ b /\ (forall n, count_occ Nat.eq_dec a n = (if Nat.ltb n N then 1 else 0)%nat) /\ interleaving N sched.
(** one partition after the other, as when each task list is run as far as it goes *)
Definition list_by_list (N : nat) : list nat := concat (map (fun n => [n; n; n]) (seq 0 N)).

(** primitive and conserved field agree in the zones of o *)
Definition coherent (gd : Cell -> R) (o : list Cell) (m : BField R * BField R) : Prop :=
  forall n c, (n < 3)%nat -> In c o -> snd m n c = fst m n c * gd c.
