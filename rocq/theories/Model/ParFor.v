(** parthenon::par_for over a rectangular index range (parthenon kokkos_abstraction.hpp,
    not in this repository).  The iterations run in an unspecified order.  A memory is a
    function from locations; one iteration maps a memory to a memory.  Iterations are taken
    to be atomic here; every loop modelled this way writes only locations that no other
    iteration reads or writes (Proofs/ParForProofs.v proves that the order is then
    immaterial), so finer interleavings give the same result.  *)
From Coq Require Import ZArith List.
Import ListNotations.
Notation Cell := (Z * Z * Z)%type.   (* k, j, i *)
Definition Cell_dec (x y : Cell) : {x = y} + {x <> y}.
Proof. repeat decide equality. Defined.
(** an inclusive box of indices: kb.s .. kb.e, jb.s .. jb.e, ib.s .. ib.e *)
Record Box := { ks : Z; ke : Z; js : Z; je : Z; is_ : Z; ie : Z }.
Definition in_box (B : Box) (c : Cell) : Prop :=
  let '(k, j, i) := c in (ks B <= k <= ke B /\ js B <= j <= je B /\ is_ B <= i <= ie B)%Z.
(** an order of execution of the loop over [B] *)
Definition order_of (B : Box) (o : list Cell) : Prop := NoDup o /\ forall c, In c o <-> in_box B c.
Definition par_for {M : Type} (o : list Cell) (body : Cell -> M -> M) (m : M) : M :=
  fold_left (fun m c => body c m) o m.
