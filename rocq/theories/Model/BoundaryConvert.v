(** src/phoebus_boundaries/phoebus_boundaries.cpp:303-450 ConvertBoundaryConditions: the
    conversions between primitive and conserved variables in the ghost zones, around the
    check of the outer x1 boundary (Model/Boundary.v: ox1_velocity, ox1_flux). *)
From Coq Require Import ZArith Reals List Bool.
From Verif.Model Require Import Num ParFor FluxFix Prim2Con Boundary.
From Verif.Spec Require Import Tensor.
Import ListNotations.
Local Open Scope R_scope.

(** the fluid variables of one zone and, for each radiation species, the comoving moments
    (J, H) and the conserved moments (E, F); cons.csig is the cell signal speed *)
Record PZone := mkPZ {
  z_rho : R; z_vel : vec; z_B : vec; z_eng : R; z_ye : R; z_prs : R; z_gm1 : R;
  z_cons : Cons;
  z_J : nat -> R; z_H : nat -> vec; z_rad : nat -> R * vec }.
Notation PMem := (Cell -> PZone).

(** geometry of the zones, compile-time and run-time switches.  [c2p] is the inversion
    selected by the parameter c2p_method, any function of the zone; [rp2c] is what
    MomentPrim2Con computes for a species from the zone's fluid velocity and moments
    (its closure is the subject of C28 and C42) *)
Record CConf := mkCC {
  gcov : Cell -> mat; gcon3 : Cell -> mat; gamma3 : Cell -> mat; shift : Cell -> vec; lapse : Cell -> R; gdet3 : Cell -> R;
  use_valencia : bool; has_b : bool; has_ye : bool; ndim_ : nat;
  fmks_check : bool;      (** geometry is FMKS and enable_ox1_fmks_inflow_check *)
  bc_conserved : bool;    (** bc_vars == "conserved" (otherwise "primitive") *)
  fluid_active : bool; rad_active : bool; moments_active : bool; num_species : nat;
  c2p : Cell -> PZone -> PZone;
  rp2c : Cell -> PZone -> nat -> R * vec }.

(** fluid.cpp:396-448, one zone of PrimitiveToConservedRegion *)
Definition p2c_zone (cf : CConf) (c : Cell) (z : PZone) : PZone :=
  let bp := if has_b cf then z_B z else fun _ => 0 in
  let ye := if has_ye cf then z_ye z else 0 in
  let C := p2c (use_valencia cf) (z_rho z) (z_vel z) bp (z_eng z) ye (z_prs z) (z_gm1 z)
             (gcov cf c) (gcon3 cf c) (shift cf c) (lapse cf c) (gdet3 cf c) in
  mkPZ (z_rho z) (z_vel z) (z_B z) (z_eng z) (z_ye z) (z_prs z) (z_gm1 z)
    {| cD := cD C; cS := cS C; cB := if has_b cf then cB C else cB (z_cons z); ctau := ctau C;
       cye := if has_ye cf then cye C else cye (z_cons z);
       csig := fun d => if Nat.ltb d (ndim_ cf) then csig C d else csig (z_cons z) d |}
    (z_J z) (z_H z) (z_rad z).
(** moments.cpp MomentPrim2Con, one zone *)
Definition rp2c_zone (cf : CConf) (c : Cell) (z : PZone) : PZone :=
  mkPZ (z_rho z) (z_vel z) (z_B z) (z_eng z) (z_ye z) (z_prs z) (z_gm1 z) (z_cons z) (z_J z) (z_H z)
    (fun s => if Nat.ltb s (num_species cf) then rp2c cf c z s else z_rad z s).
(** phoebus_boundaries.cpp:366-424, one zone of the check; num_species is 0 unless the
    radiation package is active *)
Definition check_zone (cf : CConf) (c : Cell) (z : PZone) : PZone :=
  mkPZ (z_rho z) (ox1_velocity (z_vel z) (gamma3 cf c) (lapse cf c) (shift cf c)) (z_B z) (z_eng z) (z_ye z) (z_prs z) (z_gm1 z) (z_cons z)
    (z_J z) (fun s => if Nat.ltb s (if rad_active cf then num_species cf else 0) then ox1_flux (z_H z s) (gamma3 cf c) (gcon3 cf c) else z_H z s) (z_rad z).

(** a parallel loop that changes each zone of its range by a function of that zone alone *)
Definition each (o : list Cell) (f : Cell -> PZone -> PZone) (m : PMem) : PMem :=
  par_for o (fun c m c' => if Cell_dec c' c then f c (m c') else m c') m.

(** phoebus_boundaries.cpp:303-450.  [flagged d inner]: boundary_flag of that face is not
    "block"; [ord d inner]: the order in which the zones of that ghost region are visited
    (the loops of one region may use different orders: [ord] also takes the number of the
    loop, 0 = c2p, 1 = check, 2 = p2c after the check, 3 = p2c, 4 = radiation) *)
Definition ConvertBoundaryConditions (cf : CConf) (flagged : Dir -> bool -> bool) (ord : nat -> Dir -> bool -> list Cell) (m : PMem) : PMem :=
  let m1 :=
    if fmks_check cf && flagged D1 false then
      let ma := if bc_conserved cf then each (ord 0%nat D1 false) (c2p cf) m else m in
      let mb := each (ord 1%nat D1 false) (check_zone cf) ma in
      each (ord 2%nat D1 false) (p2c_zone cf) mb
    else m in
  let m2 :=
    if fluid_active cf && negb (bc_conserved cf) then
      fold_left (fun m f => if flagged (fst f) (snd f) then each (ord 3%nat (fst f) (snd f)) (p2c_zone cf) m else m) (faces_of (ndim_ cf)) m1
    else m1 in
  if rad_active cf && moments_active cf && negb (bc_conserved cf) then
    fold_left (fun m f => if flagged (fst f) (snd f) then each (ord 4%nat (fst f) (snd f)) (rp2c_zone cf) m else m) (faces_of (ndim_ cf)) m2
  else m2.
