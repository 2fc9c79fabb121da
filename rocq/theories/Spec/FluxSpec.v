(** Vocabulary for boundary fluxes, mass budgets and the discrete divergence of B. *)
From Coq Require Import ZArith Reals List.
From Verif.Model Require Import ParFor FluxFix.
Import ListNotations.

(** face c (the lower face of zone c in direction d) lies on the inner/outer boundary of B *)
Definition on_face (B : Box) (d : Dir) (inner : bool) (c : Cell) : Prop :=
  let '(k, j, i) := c in
  match d with
  | D1 => (ks B <= k <= ke B /\ js B <= j <= je B)%Z /\ i = (if inner then is_ B else ie B + 1)%Z
  | D2 => (ks B <= k <= ke B /\ is_ B <= i <= ie B)%Z /\ j = (if inner then js B else je B + 1)%Z
  | D3 => (js B <= j <= je B /\ is_ B <= i <= ie B)%Z /\ k = (if inner then ks B else ke B + 1)%Z
  end.
(** direction d exists in an ndim-dimensional run *)
Definition live (ndim : nat) (d : Dir) : Prop := match d with D1 => True | D2 => (ndim = 2 \/ ndim = 3)%nat | D3 => (ndim = 3)%nat end.
Definition nonempty (B : Box) : Prop := (ks B <= ke B /\ js B <= je B /\ is_ B <= ie B)%Z.

(** sum over an integer range, and over the zones of a block *)
Fixpoint sum_from (a : Z) (n : nat) (f : Z -> R) : R := match n with O => 0%R | S n => (f a + sum_from (a + 1) n f)%R end.
Definition sum_range (a b : Z) (f : Z -> R) : R := sum_from a (Z.to_nat (b - a + 1)) f.
Definition total (B : Box) (f : Cell -> R) : R :=
  sum_range (ks B) (ke B) (fun k => sum_range (js B) (je B) (fun j => sum_range (is_ B) (ie B) (fun i => f (k, j, i)))).
(** the zone on the other side of the upper face *)
Definition next (d : Dir) (c : Cell) : Cell :=
  let '(k, j, i) := c in match d with D1 => (k, j, (i + 1)%Z) | D2 => (k, (j + 1)%Z, i) | D3 => ((k + 1)%Z, j, i) end.
(** what flows into zone c per unit time (mesh widths dx) minus what flows out *)
Definition gain (ndim : nat) (dx : Dir -> R) (F : Dir -> Cell -> R) (c : Cell) : R :=
  ((F D1 c - F D1 (next D1 c)) / dx D1 +
  (if Nat.ltb 1 ndim then (F D2 c - F D2 (next D2 c)) / dx D2 else 0) +
  (if Nat.ltb 2 ndim then (F D3 c - F D3 (next D3 c)) / dx D3 else 0))%R.
