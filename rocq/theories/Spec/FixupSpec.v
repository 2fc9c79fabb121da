(** Vocabulary for the repair of failed zones. *)
From Coq Require Import ZArith Reals List Bool.
From Verif.Model Require Import Fixup.
Import ListNotations.
Local Open Scope R_scope.

(** face neighbours of a zone in the active directions *)
Definition neighbours (ndim : nat) (c : Zone) : list Zone :=
  let '(b, k, j, i) := c in
  [(b, k, j, i - 1); (b, k, j, i + 1)]%Z ++
  (if (1 <? ndim)%nat then [(b, k, j - 1, i); (b, k, j + 1, i)]%Z else nil) ++
  (if (ndim =? 3)%nat then [(b, k - 1, j, i); (b, k + 1, j, i)]%Z else nil).
Definition sum_list (l : list R) : R := fold_right Rplus 0 l.
Definition mean (l : list R) : R := sum_list l / INR (length l).
(** every thread is scheduled often enough to finish *)
Definition complete {A} (sched : list Zone) (active : Zone -> bool) (prog : Zone -> list A) : Prop :=
  forall c, active c = true -> (length (prog c) <= count_occ Zone_dec sched c)%nat.
