(** What a reader concludes from an error report. *)
From Coq Require Import Reals List.
Local Open Scope R_scope.

(** two numbers agree to the tolerance, absolutely or relative to their mean (the mean is padded by
    [pad], a number far below any physical quantity) *)
Definition agree (pad t a b : R) : Prop := Rabs (a - b) <= t \/ Rabs (a - b) <= t * ((a + b + pad) / 2).
(** [m] is an upper bound of the set of errors, and the least one *)
Definition largest (m : R) (errs : list R) : Prop := In m errs /\ forall e, In e errs -> e <= m.
