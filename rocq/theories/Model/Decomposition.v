(** One stage of the step on a mesh cut into blocks: who holds which zones, what is exchanged and
    when.  src/phoebus_driver.cpp:567-577 (update), 579-599 (inversion, repair, floors), 641-649
    (exchange), 658-676 (inversion, repair, floors again).

    A zone's state is a pair: what is exchanged (A: the independent variables of all stages) and
    what is derived (B: primitives and failure flag).  Every block has its own copy of the zones it
    sees: its interior ("mine") and its ghost zones.  The physics is left open: it is the argument
    [Ops].  Physical boundary conditions and mesh refinement are not part of this model (every zone
    has an owner), nor the radiation source step between the floors and the exchange. *)
From Coq Require Import List Bool.
Import ListNotations.

Section Stage.
Context {Cell Block A B : Type}.
Definition BlockMem : Type := Cell -> A * B.
Definition MeshMem : Type := Block -> BlockMem.

Record Ops := mkOps {
  (** flux divergence, sources, averaging and update of an interior zone (567-577) *)
  adv : BlockMem -> Cell -> A;
  (** what the same tasks leave in a ghost zone, where dUdt is zero *)
  keep : Cell -> A * B -> A;
  (** inversion of one zone (FillDerived: fluid and radiation) *)
  c2p : Cell -> A -> B;
  (** its failure flag *)
  bad : B -> bool;
  (** repair of a failed zone from its neighbours (fixup_c2p.cpp:165-350); that the concurrent
      kernel reads the state before the repair is C23_schedule_independent *)
  repair : BlockMem -> Cell -> A * B;
  (** ApplyFloors of one zone, over IndexDomain::entire (fixup.cpp:286) *)
  floors : Cell -> A * B -> A * B }.

Variables (mine : Block -> Cell -> bool) (owner : Cell -> Block).

(** 567-577 *)
Definition advance (o : Ops) (b : Block) (m : BlockMem) : BlockMem :=
  fun c => ((if mine b c then adv o m c else keep o c (m c)), snd (m c)).
(** 587-588, 665-666: FillDerived over the entire block *)
Definition fill (o : Ops) (m : BlockMem) : BlockMem := fun c => (fst (m c), c2p o c (fst (m c))).
(** 590-594, 668-672: repair over the interior *)
Definition fix_interior (o : Ops) (b : Block) (m : BlockMem) : BlockMem :=
  fun c => if mine b c && bad o (snd (m c)) then repair o m c else m c.
(** 596, 674 *)
Definition floor_all (o : Ops) (m : BlockMem) : BlockMem := fun c => floors o c (m c).
(** 641-649: ghost zones receive the owner's values *)
Definition exchange (M : MeshMem) : MeshMem :=
  fun b c => if mine b c then M b c else (fst (M (owner c) c), snd (M b c)).

Definition first_pass (o : Ops) (b : Block) (m : BlockMem) : BlockMem := floor_all o (fix_interior o b (fill o (advance o b m))).
Definition second_pass (o : Ops) (b : Block) (m : BlockMem) : BlockMem := floor_all o (fix_interior o b (fill o m)).
Definition stage (o : Ops) (M : MeshMem) : MeshMem :=
  let M1 := fun b => first_pass o b (M b) in
  let M2 := exchange M1 in
  fun b => second_pass o b (M2 b).
(** any number of stages; each has its own coefficients, sources, time *)
Definition run_stages (os : list Ops) (M : MeshMem) : MeshMem := fold_left (fun M o => stage o M) os M.
End Stage.
Arguments Ops : clear implicits.
Arguments BlockMem : clear implicits.
Arguments MeshMem : clear implicits.

(** the same run on a single block that owns every zone *)
Definition whole_stage {Cell A B} (o : Ops Cell A B) (w : BlockMem Cell A B) : BlockMem Cell A B :=
  stage (Block := unit) (fun _ _ => true) (fun _ => tt) o (fun _ => w) tt.
