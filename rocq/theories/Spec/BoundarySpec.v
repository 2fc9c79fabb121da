(** Ghost zones at physical boundaries: which zone supplies the data, and with what sign. *)
From Coq Require Import ZArith Reals List.
From Verif.Model Require Import ParFor FluxFix Boundary.
Import ListNotations.
Local Open Scope Z_scope.

Definition coord (d : Dir) (c : Cell) : Z := let '(k, j, i) := c in match d with D1 => i | D2 => j | D3 => k end.
Definition lo (B : Box) (d : Dir) : Z := match d with D1 => is_ B | D2 => js B | D3 => ks B end.
Definition hi (B : Box) (d : Dir) : Z := match d with D1 => ie B | D2 => je B | D3 => ke B end.

(** In direction d, zone c takes its data from zone c0: itself inside the interior or across a
    face that is no physical boundary; the zone next to the boundary for outflow; the mirror
    image for a wall or axis (the face between x and x0 at lo - 1/2, resp. hi + 1/2, is in
    the middle of them). *)
Definition supplies (I : Box) (face : Dir -> bool -> option BKind) (d : Dir) (c c0 : Cell) : Prop :=
  let x := coord d c in let x0 := coord d c0 in
  (lo I d <= x <= hi I d /\ x0 = x) \/
  (x < lo I d /\ match face d true with None => x0 = x | Some BOutflow => x0 = lo I d | Some _ => x + x0 = 2 * lo I d - 1 end) \/
  (hi I d < x /\ match face d false with None => x0 = x | Some BOutflow => x0 = hi I d | Some _ => x + x0 = 2 * hi I d + 1 end).

(** component l changes sign in direction d: the zone lies behind a wall normal to the
    component, or behind the axis for components that are odd there *)
Definition behind (I : Box) (face : Dir -> bool -> option BKind) (b : BKind) (d : Dir) (c : Cell) : Prop :=
  (coord d c < lo I d /\ face d true = Some b) \/ (hi I d < coord d c /\ face d false = Some b).
Definition flips (cf : BConf) (I : Box) (face : Dir -> bool -> option BKind) (d : Dir) (l : nat) (c : Cell) : Prop :=
  (vcomp cf l = Some d /\ behind I face BReflect d c) \/ (polar_odd cf l = true /\ behind I face BPolar d c).
(** s is the product of the signs of the three directions *)
Definition signed (cf : BConf) (I : Box) (face : Dir -> bool -> option BKind) (l : nat) (c : Cell) (s : R) : Prop :=
  exists s1 s2 s3 : R, s = (s1 * s2 * s3)%R /\
    (forall d s, (d, s) = (D1, s1) \/ (d, s) = (D2, s2) \/ (d, s) = (D3, s3) ->
       (flips cf I face d l c -> s = (-1)%R) /\ (~ flips cf I face d l c -> s = 1%R)).
