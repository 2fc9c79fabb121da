(** What a user expects of a tracer population. *)
From Coq Require Import Reals ZArith List.
Import ListNotations.
Local Open Scope R_scope.

(** the requested number shared in proportion to volume: each block's count is the nearest
    integer to its share *)
Definition nearest (z : Z) (x : R) : Prop := Rabs (IZR z - x) <= / 2.
Definition share (total : Z) (vol all : R) : R := IZR total * vol / all.

(** no two tracers on the mesh carry the same name; block g has slots 0 .. cnt g - 1 *)
Definition distinct_ids (nblocks : nat) (cnt : nat -> Z) (id : nat -> Z -> Z) : Prop :=
  forall g h n m, (g < nblocks)%nat -> (h < nblocks)%nat ->
    (0 <= n < cnt g)%Z -> (0 <= m < cnt h)%Z -> id g n = id h m -> g = h /\ n = m.

(** inside the horizon of radius Rh, for the radial coordinate x1 = log r *)
Definition inside (Rh x1 : R) : Prop := exp x1 <= Rh.

(** mass carried by the tracers of one zone: particles are (zone, mass) pairs *)
Definition carried {C : Type} (dec : forall a b : C, {a = b} + {a <> b}) (ps : list (C * R)) (c : C) : R :=
  fold_right (fun p s => (if dec (fst p) c then snd p else 0) + s) 0 ps.
