(** How the input deck chooses boundary conditions: ProcessBoundaryConditions
    (src/phoebus_boundaries/phoebus_boundaries.cpp:450-543), called by main
    (src/main.cpp:57-59) before ParthenonInitPackagesAndMesh; the names kept by
    fluid::Initialize (src/fluid/fluid.cpp:178-189) for FixFluxes (src/fixup/fixup.cpp:736-741);
    the sample boundaries of radiation::Initialize (src/radiation/radiation.cpp:169-197).
    Not modelled: the swarm boundary registrations; a condition Parthenon itself provides
    ("periodic", "outflow", "reflecting") is [None]; that a registered name gives
    boundary_flag user and the registered function is Parthenon's, assumed here. *)
From Coq Require Import Reals String List Bool.
From Verif.Model Require Import Num Config FluxFix Boundary.
Import ListNotations.
Local Open Scope string_scope.
Local Open Scope R_scope.
Local Open Scope prog_scope.

(** phoebus_boundaries.cpp:452,495: face + "x" + d + "_bc" *)
Definition face_entry (d : Dir) (inner : bool) : string :=
  match d, inner with
  | D1, true => "ix1_bc" | D1, false => "ox1_bc" | D2, true => "ix2_bc" | D2, false => "ox2_bc"
  | D3, true => "ix3_bc" | D3, false => "ox3_bc" end.
(** phoebus_boundaries.cpp:491-493: the loops over d and outer *)
Definition face_order : list (Dir * bool) :=
  [(D1, true); (D1, false); (D2, true); (D2, false); (D3, true); (D3, false)].
(** phoebus_boundaries.cpp:474-487; [is_fmks]: typeid(PHOEBUS_GEOMETRY) == typeid(FMKS) *)
Definition pole_guard (is_fmks : bool) : prog unit :=
  if is_fmks then
    derefine_poles <- GetOrAddBoolean "coordinates" "derefine_poles" true ;;
    if derefine_poles then
      ix2_bc <- GetOrAddString "phoebus" "ix2_bc" "gr_outflow" ;;
      ox2_bc <- GetOrAddString "phoebus" "ox2_bc" "gr_outflow" ;;
      Require (negb (String.eqb ix2_bc "reflect") && negb (String.eqb ix2_bc "polar") &&
               negb (String.eqb ox2_bc "reflect") && negb (String.eqb ox2_bc "polar"))
    else Ret tt
  else Ret tt.
(** phoebus_boundaries.cpp:491-498: what one face reads; neither value is used there *)
Definition face_reads (f : Dir * bool) : prog unit :=
  _ <- GetString "parthenon/mesh" (face_entry (fst f) (snd f)) ;;
  _ <- GetOrAddString "phoebus" (face_entry (fst f) (snd f)) "gr_outflow" ;;
  Ret tt.
Fixpoint all_faces (l : list (Dir * bool)) : prog unit :=
  match l with [] => Ret tt | f :: t => _ <- face_reads f ;; all_faces t end.
(** phoebus_boundaries.cpp:450-498 *)
Definition ProcessBoundaryConditions (is_fmks : bool) : prog unit :=
  _ <- GetOrAddString "radiation" "method" "None" ;;
  _ <- pole_guard is_fmks ;;
  all_faces face_order.
(** phoebus_boundaries.cpp:499-506: the functions registered for a face, by name *)
Definition registered (d : Dir) (name : string) : option BKind :=
  if String.eqb name "reflect" then Some BReflect
  else if (match d with D2 => true | _ => false end) && String.eqb name "polar" then Some BPolar
  else if String.eqb name "gr_outflow" then Some BOutflow else None.
(** fixup.cpp:761-1064: the comparisons of FixFluxes with the names *)
Definition flux_condition (name : string) : BC :=
  if String.eqb name "gr_outflow" then GrOutflow else if String.eqb name "reflect" then Reflect
  else if String.eqb name "polar" then Polar else OtherBC.

Definition by_face {A} (a b c d e f : A) : Dir -> bool -> A := fun dir inner =>
  match dir, inner with D1, true => a | D1, false => b | D2, true => c | D2, false => d | D3, true => e | D3, false => f end.
(** fluid.cpp:178-189 *)
Definition fluid_bcs : prog (Dir -> bool -> string) :=
  ix1 <- GetString "phoebus" "ix1_bc" ;; ox1 <- GetString "phoebus" "ox1_bc" ;;
  ix2 <- GetString "phoebus" "ix2_bc" ;; ox2 <- GetString "phoebus" "ox2_bc" ;;
  ix3 <- GetString "phoebus" "ix3_bc" ;; ox3 <- GetString "phoebus" "ox3_bc" ;;
  Ret (by_face ix1 ox1 ix2 ox2 ix3 ox3).
(** the names Parthenon looks up in the registry when it builds the mesh *)
Definition mesh_bcs : prog (Dir -> bool -> string) :=
  ix1 <- GetString "parthenon/mesh" "ix1_bc" ;; ox1 <- GetString "parthenon/mesh" "ox1_bc" ;;
  ix2 <- GetString "parthenon/mesh" "ix2_bc" ;; ox2 <- GetString "parthenon/mesh" "ox2_bc" ;;
  ix3 <- GetString "parthenon/mesh" "ix3_bc" ;; ox3 <- GetString "parthenon/mesh" "ox3_bc" ;;
  Ret (by_face ix1 ox1 ix2 ox2 ix3 ox3).
(** radiation.hpp: MOCMCBoundaries *)
Inductive MOCMCBoundaries := mo_outflow | mo_fixed_temp | mo_periodic.
(** radiation.cpp:170-176 *)
Definition mocmc_boundary (name : string) : MOCMCBoundaries :=
  if String.eqb name "outflow" then mo_outflow else if String.eqb name "fixed_temp" then mo_fixed_temp else mo_periodic.
(** radiation.cpp:169-197, with the temperature (0 where none is set: mocmc.cpp:278) in the units
    of the deck; the conversion to code units is left out *)
Definition mocmc_side (bc temp : string) : prog (MOCMCBoundaries * R) :=
  n <- GetOrAddString "phoebus" bc "None" ;;
  if String.eqb n "fixed_temp" then t <- GetOrAddReal "phoebus" temp 0 ;; Ret (mocmc_boundary n, t)
  else Ret (mocmc_boundary n, 0).

Record Boundaries := mkBoundaries {
  mesh_name : Dir -> bool -> string; flux_name : Dir -> bool -> string;
  sample_inner : MOCMCBoundaries * R; sample_outer : MOCMCBoundaries * R }.
(** start-up in the order of main.cpp:57-63 and ProcessPackages (phoebus_driver.cpp:802-816) *)
Definition boundary_startup (is_fmks : bool) : prog Boundaries :=
  _ <- ProcessBoundaryConditions is_fmks ;;
  fl <- fluid_bcs ;;
  si <- mocmc_side "ix1_bc" "ix1_temp" ;;
  so <- mocmc_side "ox1_bc" "ox1_temp" ;;
  me <- mesh_bcs ;;
  Ret (mkBoundaries me fl si so).

(** what the ghost zones of a face at the edge of the mesh get: the face argument of
    ApplyBoundaryConditions *)
Definition ghost_condition (b : Boundaries) (d : Dir) (inner : bool) : option BKind := registered d (mesh_name b d inner).
(** what FixFluxes works with on a block that touches all the physical boundaries [edge] *)
Definition flux_conf (b : Boundaries) (edge : Dir -> bool -> bool) (ndim nspec : nat) (hasE moments hasB : bool) : FixConf :=
  {| enabled := true; fndim := ndim; num_species := nspec; has_E := hasE; moments_active := moments; has_B := hasB;
     user := fun d inner => edge d inner && match ghost_condition b d inner with Some _ => true | None => false end;
     bc := fun d inner => flux_condition (flux_name b d inner) |}.
