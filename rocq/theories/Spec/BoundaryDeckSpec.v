(** C67: what a user means by naming a boundary condition in the deck. *)
From Coq Require Import String List Bool.
From Verif.Model Require Import Config FluxFix Boundary BoundaryDeck.
From Verif.Spec Require Import ConfigSpec.
Import ListNotations.
Local Open Scope string_scope.

(** the entry of a face: inner or outer x1, x2, x3 *)
Definition entry (dir : Dir) (inner : bool) : string :=
  match dir, inner with
  | D1, true => "ix1_bc" | D1, false => "ox1_bc" | D2, true => "ix2_bc" | D2, false => "ox2_bc"
  | D3, true => "ix3_bc" | D3, false => "ox3_bc" end.
(** the condition the deck names for the mesh, <parthenon/mesh> ix1_bc etc. *)
Definition wants (d : deck) (dir : Dir) (inner : bool) (name : string) : Prop :=
  d ("parthenon/mesh", entry dir inner) = Some (VStr name).
(** the name in the second block, <phoebus> ix1_bc etc.; outflow where there is none *)
Definition second_name (d : deck) (dir : Dir) (inner : bool) : string := word d "phoebus" (entry dir inner) "gr_outflow".
(** the conditions phoebus offers; the axis exists in x2 only *)
Definition offered (dir : Dir) (name : string) : option BKind :=
  match name, dir with
  | "reflect", _ => Some BReflect | "gr_outflow", _ => Some BOutflow | "polar", D2 => Some BPolar | _, _ => None end.
(** the flux condition that belongs to a ghost-zone condition *)
Definition matching (k : BKind) : BC := match k with BReflect => Reflect | BOutflow => GrOutflow | BPolar => Polar end.
(** entries whose types the start-up relies on *)
Definition boundary_entries : list (key * ty) :=
  [ (("radiation", "method"), TStr); (("coordinates", "derefine_poles"), TBool);
    (("phoebus", "ix1_temp"), TReal); (("phoebus", "ox1_temp"), TReal) ]
  ++ map (fun n => (("phoebus", n), TStr)) ["ix1_bc"; "ox1_bc"; "ix2_bc"; "ox2_bc"; "ix3_bc"; "ox3_bc"].
