(** Vocabulary for C64. *)
From Coq Require Import List Bool ZArith.
From Verif.Model Require Import Decomposition.
Import ListNotations.

Section Spec.
Context {Cell Block A B : Type}.
(** A function of the mesh that looks only at the zones [near] a zone *)
Definition looks_at {X} (near : Cell -> Cell -> Prop) (f : BlockMem Cell A B -> Cell -> X) : Prop :=
  forall c m m', (forall d, near c d -> m d = m' d) -> f m c = f m' c.

(** A way to cut the mesh: every zone has one owner, and a block sees its own zones *)
Record cut (mine : Block -> Cell -> bool) (owner : Cell -> Block) (sees : Block -> Cell -> Prop) : Prop := {
  cut_mine : forall b c, mine b c = true <-> owner c = b;
  cut_sees : forall c, sees (owner c) c }.

(** The ghost zones are wide enough for the update [reach] and the repair [near] *)
Definition wide (owner : Cell -> Block) (sees : Block -> Cell -> Prop) (reach near : Cell -> Cell -> Prop) : Prop :=
  forall c d, reach c d \/ near c d -> sees (owner c) d.

(** The whole-mesh run: states before each of the stages *)
Fixpoint history (os : list (Ops Cell A B)) (w : BlockMem Cell A B) : list (Ops Cell A B * BlockMem Cell A B) :=
  match os with [] => [] | o :: t => (o, w) :: history t (whole_stage o w) end.

(** States of a stage of the whole-mesh run in which the inversion may fail: after the update, and
    after the exchange *)
Definition after_update (o : Ops Cell A B) (w : BlockMem Cell A B) (c : Cell) : B := c2p o c (adv o w c).
Definition after_exchange (o : Ops Cell A B) (w : BlockMem Cell A B) (c : Cell) : B :=
  c2p o c (fst (first_pass (fun (_ : unit) _ => true) o tt w c)).
End Spec.
