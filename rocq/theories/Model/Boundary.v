(** src/phoebus_boundaries/phoebus_boundaries.cpp: ghost zones at physical boundaries. *)
From Coq Require Import ZArith Reals List Bool.
From Verif.Model Require Import Num ParFor FluxFix Geometry.
From Verif.Spec Require Import Tensor.
Import ListNotations.

(** the three conditions that can be registered for a face (phoebus_boundaries.cpp:450-545) *)
Inductive BKind := BOutflow | BReflect | BPolar.
(** location: component l of the pack of FillGhost variables, and zone *)
Notation BLoc := (nat * Cell)%type.
Notation BMem := (BLoc -> R).
Definition BLoc_dec (x y : BLoc) : {x = y} + {x <> y}.
Proof. repeat decide equality. Defined.
Definition bput (l : BLoc) (x : R) (m : BMem) : BMem := fun l' => if BLoc_dec l' l then x else m l'.

(** IndexDomain::inner_x1 etc.: ghost zones beyond one face, over the whole extent of the
    other directions (parthenon's domain.hpp, not in this repository).  [I] is the interior,
    [E] the interior and the ghost zones *)
Definition ghost_box (I E : Box) (d : Dir) (inner : bool) : Box :=
  match d, inner with
  | D1, true => {| ks := ks E; ke := ke E; js := js E; je := je E; is_ := is_ E; ie := is_ I - 1 |}
  | D1, false => {| ks := ks E; ke := ke E; js := js E; je := je E; is_ := ie I + 1; ie := ie E |}
  | D2, true => {| ks := ks E; ke := ke E; js := js E; je := js I - 1; is_ := is_ E; ie := ie E |}
  | D2, false => {| ks := ks E; ke := ke E; js := je I + 1; je := je E; is_ := is_ E; ie := ie E |}
  | D3, true => {| ks := ks E; ke := ks I - 1; js := js E; je := je E; is_ := is_ E; ie := ie E |}
  | D3, false => {| ks := ke I + 1; ke := ke E; js := js E; je := je E; is_ := is_ E; ie := ie E |}
  end.

(** What the run provides: q.VectorComponent(l) (None for scalars), whether l is component 1
    of the primitive velocity or magnetic field (idx_pvel(1), idx_pb(1)), DetGamma at cell
    centres, and bc_vars == "conserved".  The coarse buffers (coarse = true) use the same
    code with the coarse index ranges and are covered by taking those ranges for I and E,
    with [det] what geom.DetGamma returns for these indices. *)
Record BConf := { vcomp : nat -> option Dir; polar_odd : nat -> bool; det : Cell -> R; conserved : bool }.

(** phoebus_boundaries.cpp:90-116 (GenericBC): the zone read *)
Definition ref_cell (I : Box) (d : Dir) (inner : bool) (reflect : bool) (c : Cell) : Cell :=
  let '(k, j, i) := c in
  let s := match d with D1 => is_ I | D2 => js I | D3 => ks I end in
  let e := match d with D1 => ie I | D2 => je I | D3 => ke I end in
  let ref := if inner then s else e in
  let offset := (2 * ref + (if inner then -1 else 1))%Z in
  match d with
  | D1 => (k, j, if reflect then (offset - i)%Z else ref)
  | D2 => (k, if reflect then (offset - j)%Z else ref, i)
  | D3 => (if reflect then (offset - k)%Z else ref, j, i)
  end.
Local Open Scope R_scope.
Definition generic_body (cf : BConf) (I : Box) (d : Dir) (inner reflect : bool) (lc : BLoc) (m : BMem) : BMem :=
  let '(l, c) := lc in
  let cref := ref_cell I d inner reflect c in
  let sgn := if reflect then (match vcomp cf l with Some d' => if Dir_dec d' d then -1 else 1 | None => 1 end) else 1 in
  let gr := gratio (det cf c) (det cf cref) in
  bput (l, c) (if conserved cf then sgn * gr * m (l, cref) else sgn * m (l, cref)) m.
(** phoebus_boundaries.cpp:119-155 and 233-275 (OutflowInnerX1, OutflowOuterX1) *)
Definition outflow_x1_body (cf : BConf) (I : Box) (inner : bool) (lc : BLoc) (m : BMem) : BMem :=
  let '(l, (k, j, i)) := lc in
  let ref := if inner then is_ I else ie I in
  if conserved cf then bput (l, (k, j, i)) (gratio (det cf (k, j, i)) (det cf (k, j, ref)) * m (l, (k, j, ref))) m
  else bput (l, (k, j, i)) (m (l, (k, j, ref))) m.
(** phoebus_boundaries.cpp:157-231 (PolarInnerX2, PolarOuterX2); these abort unless
    bc_vars == "primitive" *)
Definition polar_body (cf : BConf) (I : Box) (inner : bool) (lc : BLoc) (m : BMem) : BMem :=
  let '(l, (k, j, i)) := lc in
  let jref := if inner then (- j + 2 * js I - 1)%Z else (- j + 2 * (je I + 1) - 1)%Z in
  bput (l, (k, j, i)) (if polar_odd cf l then - m (l, (k, jref, i)) else m (l, (k, jref, i))) m.
(** the function registered for a face (phoebus_boundaries.cpp:436-500): the polar condition
    exists only for x2, elsewhere its slot is an empty function, taken to do nothing *)
Definition bnd_body (cf : BConf) (I : Box) (b : BKind) (d : Dir) (inner : bool) : BLoc -> BMem -> BMem :=
  match b, d with
  | BOutflow, D1 => outflow_x1_body cf I inner
  | BOutflow, _ => generic_body cf I d inner false
  | BReflect, _ => generic_body cf I d inner true
  | BPolar, D2 => polar_body cf I inner
  | BPolar, _ => fun _ m => m
  end.
(** par_for_bndry over the components 0..nvar-1 and the ghost zones of a face, in an
    arbitrary order *)
Definition bnd_order (nvar : nat) (B : Box) (o : list BLoc) : Prop :=
  NoDup o /\ forall l c, In (l, c) o <-> (l < nvar)%nat /\ in_box B c.
Definition par_for_bndry (o : list BLoc) (body : BLoc -> BMem -> BMem) (m : BMem) : BMem :=
  fold_left (fun m lc => body lc m) o m.
(** parthenon's ApplyBoundaryConditions (not in this repository): the faces that are
    physical boundaries, in the order inner x1, outer x1, inner x2, ...; [face d inner] is
    None for a face shared with another block or a periodic one *)
Definition faces_of (ndim : nat) : list (Dir * bool) :=
  [(D1, true); (D1, false)] ++ (if Nat.ltb 1 ndim then [(D2, true); (D2, false)] else []) ++ (if Nat.ltb 2 ndim then [(D3, true); (D3, false)] else []).
Definition ApplyBoundaryConditions (cf : BConf) (I : Box) (ndim : nat) (face : Dir -> bool -> option BKind)
    (ord : Dir -> bool -> list BLoc) (m : BMem) : BMem :=
  fold_left (fun m f => match face (fst f) (snd f) with
    | Some b => par_for_bndry (ord (fst f) (snd f)) (bnd_body cf I b (fst f) (snd f)) m
    | None => m end) (faces_of ndim) m.

(** phoebus_boundaries.cpp:366-391: the velocity at the outer x1 boundary, "Enforce u^1 >= 0" *)
Section Inflow.
Context {T : Type} `{Num T}.
Local Open Scope num_scope.
Definition s3 (f : nat -> T) : T := nlit 0 1 + f 0%nat + f 1%nat + f 2%nat.
Definition s33 (f : nat -> nat -> T) : T :=
  nlit 0 1 + f 0%nat 0%nat + f 0%nat 1%nat + f 0%nat 2%nat + f 1%nat 0%nat + f 1%nat 1%nat + f 1%nat 2%nat + f 2%nat 0%nat + f 2%nat 1%nat + f 2%nat 2%nat.
Definition lorentz (v : nat -> T) (g : nat -> nat -> T) : T := nsqrt (nlit 1 1 + s33 (fun i j => g i j * v i * v j)).
Definition ox1_velocity (q : nat -> T) (gammacov : nat -> nat -> T) (alpha : T) (beta : nat -> T) : nat -> T :=
  let W := lorentz q gammacov in
  let ucon1 := q 0%nat - W * beta 0%nat / alpha in
  if ucon1 <? nlit 0 1 then
    let vcon i := match i with O => beta 0%nat / alpha | _ => q i / W end in
    let vsq := s33 (fun i j => gammacov i j * vcon i * vcon j) in
    let W := nlit 1 1 / nsqrt (nlit 1 1 - vsq) in
    fun ii => W * vcon ii
  else q.
(** 393-424: radiation flux of one species *)
Definition ox1_flux (qH : nat -> T) (gammacov gammacon : nat -> nat -> T) : nat -> T :=
  let Hcon ii := s3 (fun jj => gammacon ii jj * qH jj) in
  if Hcon 0%nat <? nlit 0 1 then
    let Hcon ii := match ii with O => nlit 0 1 | _ => Hcon ii end in
    let xi := nsqrt (s33 (fun i j => gammacov i j * Hcon i * Hcon j)) in
    let Hcon := if xi >? nlit 99 100 then (fun ii => Hcon ii * (nlit 99 100 / xi)) else Hcon in
    fun ii => s3 (fun jj => gammacov ii jj * Hcon jj)
  else qH.
End Inflow.
