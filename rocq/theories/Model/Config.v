(** Reading of the input deck by fixup::Initialize (src/fixup/fixup.cpp:48-281), by
    fluid::Initialize (src/fluid/fluid.cpp:43-130,155-200) and by radiation::Initialize
    (src/radiation/radiation.cpp:27-36,46-66, 79-124,344-546), in the order of
    ProcessPackages (src/phoebus_driver.cpp:802-816). *)
From Coq Require Import Reals String ZArith List Bool.
From Flocq Require Import Core.
From Verif.Model Require Import Num Robust Floors.
Import ListNotations.
Local Open Scope string_scope.
Local Open Scope R_scope.

(** An entry of the deck, already parsed.  Parthenon keeps the text and parses it at every
    read; here a read with the wrong type fails, as a parse error does. *)
Inductive val := VBool (b : bool) | VReal (r : R) | VInt (z : Z) | VStr (s : string).
(** (block, name) *)
Definition key : Type := (string * string)%type.
Definition key_eqb (a b : key) : bool := String.eqb (fst a) (fst b) && String.eqb (snd a) (snd b).
Definition deck := key -> option val.
Definition put (d : deck) (k : key) (v : val) : deck := fun k' => if key_eqb k' k then Some v else d k'.

(** Code that reads the deck.  [Get] is ParameterInput::GetX (it throws when the entry is
    missing), [GetOrAdd] is ParameterInput::GetOrAddX (it stores the default when the entry is
    missing), [Fail] is PARTHENON_FAIL, PARTHENON_THROW or a failed PARTHENON_REQUIRE. *)
Inductive prog (A : Type) :=
| Ret (a : A) | Fail | Get (k : key) (c : val -> prog A) | GetOrAdd (k : key) (v : val) (c : val -> prog A).
Arguments Ret {A}. Arguments Fail {A}. Arguments Get {A}. Arguments GetOrAdd {A}.

Fixpoint run {A} (p : prog A) (d : deck) : option (A * deck) :=
  match p with
  | Ret a => Some (a, d)
  | Fail => None
  | Get k c => match d k with Some v => run (c v) d | None => None end
  | GetOrAdd k v c => match d k with Some w => run (c w) d | None => run (c v) (put d k v) end
  end.
Fixpoint bind {A B} (p : prog A) (f : A -> prog B) : prog B :=
  match p with
  | Ret a => f a
  | Fail => Fail
  | Get k c => Get k (fun v => bind (c v) f)
  | GetOrAdd k v c => GetOrAdd k v (fun w => bind (c w) f)
  end.
Declare Scope prog_scope.
Notation "x <- p ;; q" := (bind p (fun x => q)) (at level 61, p at next level, right associativity) : prog_scope.
Local Open Scope prog_scope.

Definition as_bool (v : val) : prog bool := match v with VBool b => Ret b | _ => Fail end.
Definition as_real (v : val) : prog R := match v with VReal b => Ret b | _ => Fail end.
Definition as_int (v : val) : prog Z := match v with VInt b => Ret b | _ => Fail end.
Definition as_str (v : val) : prog string := match v with VStr b => Ret b | _ => Fail end.
Definition GetBoolean b n : prog bool := Get (b, n) as_bool.
Definition GetReal b n : prog R := Get (b, n) as_real.
Definition GetInteger b n : prog Z := Get (b, n) as_int.
Definition GetString b n : prog string := Get (b, n) as_str.
Definition GetOrAddBoolean b n d : prog bool := GetOrAdd (b, n) (VBool d) as_bool.
Definition GetOrAddReal b n d : prog R := GetOrAdd (b, n) (VReal d) as_real.
Definition GetOrAddInteger b n d : prog Z := GetOrAdd (b, n) (VInt d) as_int.
Definition GetOrAddString b n d : prog string := GetOrAdd (b, n) (VStr d) as_str.
Definition Require (b : bool) : prog unit := if b then Ret tt else Fail.

(** std::numeric_limits<Real>::max() *)
Definition real_max : R := bpow radix2 1024 - bpow radix2 971.

(** fixup.hpp:72-84 (the constructors).  rho_min_eos_ and sie_min_eos_ are set later by
    SetEOSBnds: they are the arguments [rm] and [sm].  The exponents, uninitialised and unread
    for constant floors, are 0. *)
Definition ConstantFloor (rho0 sie0 rm sm : R) : Floors := mkFloors rho0 sie0 0 0 rm sm ConstantRhoSie.
Definition NoFloor (rm sm : R) : Floors := ConstantFloor (- real_max) (- real_max) rm sm.
Definition PowerFloor (fl : FloorFlag) (rho0 sie0 rp sp rm sm : R) : Floors := mkFloors rho0 sie0 rp sp rm sm fl.

(** fixup.hpp:27-31 *)
Inductive FAILURE_STRATEGY := interpolate | floors.

(** Params of the fixup package (fixup.cpp:57-279); the report_* switches are left out. *)
Record FixupParams := mkFixupParams {
  p_enable_flux_fixup : bool; p_enable_ox1_fmks_inflow_check : bool; p_enable_fixup : bool;
  p_enable_c2p_fixup : bool; p_enable_source_fixup : bool; p_enable_ceilings : bool;
  p_enable_phi_enforcement : bool; p_phi : option (R * R * R * R);
  p_enable_mhd_floors : bool; p_enable_rad_floors : bool; p_enable_rad_ceilings : bool;
  p_enable_floors : bool;
  p_floor : R -> R -> Floors; p_ceiling : Ceilings; p_mhd_ceiling : MHDCeilings;
  p_rad_floor : RadiationFloors; p_rad_ceiling : RadiationCeilings;
  p_fluid_c2p_failure : FAILURE_STRATEGY; p_rad_c2p_failure : FAILURE_STRATEGY; p_src_failure : FAILURE_STRATEGY;
  p_force_fixup_both : bool }.

(** fixup.cpp:86-106: enforced phi, timescale, cadence, start time *)
Definition read_phi (is_fmks : bool) : prog (R * R * R * R) :=
  _ <- Require is_fmks ;;
  phi <- GetReal "fixup" "enforced_phi" ;;
  ts <- GetOrAddReal "fixup" "enforced_phi_timescale" 1000 ;;
  cad <- GetOrAddReal "fixup" "enforced_phi_cadence" 10 ;;
  st <- GetOrAddReal "fixup" "enforced_phi_start_time" 175 ;;
  _ <- Require (Rle_bool 0 st) ;;
  Ret (phi, ts, cad, st).

(** fixup.cpp:140-178 *)
Definition read_floor (enable_floors : bool) : prog (R -> R -> Floors) :=
  if enable_floors then
    ty <- GetString "fixup" "floor_type" ;;
    if String.eqb ty "ConstantRhoSie" then
      rho0 <- GetOrAddReal "fixup" "rho0_floor" 0 ;;
      sie0 <- GetOrAddReal "fixup" "sie0_floor" 0 ;;
      Ret (ConstantFloor rho0 sie0)
    else if String.eqb ty "ExpX1RhoSie" then
      rho0 <- GetOrAddReal "fixup" "rho0_floor" 0 ;;
      sie0 <- GetOrAddReal "fixup" "sie0_floor" 0 ;;
      rp <- GetOrAddReal "fixup" "rho_exp_floor" (-2) ;;
      sp <- GetOrAddReal "fixup" "sie_exp_floor" (-1) ;;
      Ret (PowerFloor ExpX1RhoSie rho0 sie0 rp sp)
    else if String.eqb ty "ExpX1RhoU" then
      rho0 <- GetOrAddReal "fixup" "rho0_floor" 0 ;;
      sie0 <- GetOrAddReal "fixup" "u0_floor" 0 ;;
      rp <- GetOrAddReal "fixup" "rho_exp_floor" (-2) ;;
      sp <- GetOrAddReal "fixup" "u_exp_floor" (-3) ;;
      Ret (PowerFloor ExpX1RhoU rho0 sie0 rp sp)
    else if String.eqb ty "X1RhoSie" then
      rho0 <- GetOrAddReal "fixup" "rho0_floor" 0 ;;
      sie0 <- GetOrAddReal "fixup" "u0_floor" 0 ;;
      rp <- GetOrAddReal "fixup" "rho_exp_floor" (-2) ;;
      sp <- GetOrAddReal "fixup" "u_exp_floor" (-3) ;;
      Ret (PowerFloor X1RhoSie rho0 sie0 rp sp)
    else if String.eqb ty "RRhoSie" then
      rho0 <- GetOrAddReal "fixup" "rho0_floor" 0 ;;
      sie0 <- GetOrAddReal "fixup" "u0_floor" 0 ;;
      rp <- GetOrAddReal "fixup" "rho_exp_floor" (-2) ;;
      sp <- GetOrAddReal "fixup" "u_exp_floor" (-3) ;;
      Ret (PowerFloor RRhoSie rho0 sie0 rp sp)
    else Fail
  else Ret NoFloor.

(** fixup.cpp:180-193 *)
Definition read_ceiling (enable_ceilings : bool) : prog Ceilings :=
  if enable_ceilings then
    ty <- GetOrAddString "fixup" "ceiling_type" "ConstantGamSie" ;;
    if String.eqb ty "ConstantGamSie" then
      gam0 <- GetOrAddReal "fixup" "gam0_ceiling" 1000 ;;
      sie0 <- GetOrAddReal "fixup" "sie0_ceiling" 100 ;;
      Ret (mkCeilings gam0 sie0)
    else Fail
  else Ret (mkCeilings real_max real_max).

(** fixup.cpp:195-209 *)
Definition read_rad_floor (enable_rad_floors : bool) : prog RadiationFloors :=
  if enable_rad_floors then
    ty <- GetString "fixup" "rad_floor_type" ;;
    if String.eqb ty "ConstantJ" then
      J0 <- GetOrAddReal "fixup" "J0_floor" 0 ;;
      Ret (mkRadiationFloors J0 0 ConstantJ)
    else if String.eqb ty "ExpX1J" then
      J0 <- GetOrAddReal "fixup" "J0_floor" 0 ;;
      Jp <- GetOrAddReal "fixup" "J_exp_floor" (-2) ;;
      Ret (mkRadiationFloors J0 Jp ExpX1J)
    else Fail
  else Ret (mkRadiationFloors (- real_max) 0 ConstantJ).

(** fixup.cpp:211-222.  There is no branch for an unknown type: no "rad_ceiling" is stored. *)
Definition read_rad_ceiling (enable_rad_ceilings : bool) : prog (option RadiationCeilings) :=
  if enable_rad_ceilings then
    ty <- GetOrAddString "fixup" "radiation_ceiling_type" "ConstantXi0" ;;
    if String.eqb ty "ConstantXi0" then
      xi0 <- GetOrAddReal "fixup" "xi0_ceiling" (99 / 100) ;;
      tau0 <- GetOrAddReal "fixup" "tau0_ceiling" 100000 ;;
      Ret (Some (mkRadiationCeilings xi0 tau0))
    else Ret None
  else Ret (Some (mkRadiationCeilings real_max real_max)).

(** fixup.cpp:224-237 *)
Definition read_mhd_ceiling (enable_mhd_floors : bool) : prog MHDCeilings :=
  if enable_mhd_floors then
    ty <- GetOrAddString "fixup" "mhd_ceiling_type" "ConstantBsqRat" ;;
    if String.eqb ty "ConstantBsqRat" then
      r <- GetOrAddReal "fixup" "bsqorho0_ceiling" 50 ;;
      u <- GetOrAddReal "fixup" "bsqou0_ceiling" 2500 ;;
      Ret (mkMHDCeilings r u)
    else Fail
  else Ret (mkMHDCeilings real_max real_max).

(** fixup.cpp:239-266 *)
Definition read_strategy (name : string) : prog FAILURE_STRATEGY :=
  s <- GetOrAddString "fixup" name "interpolate" ;;
  if String.eqb s "interpolate" then Ret interpolate
  else if String.eqb s "floors" then Ret floors else Fail.

(** fixup.cpp:48-281.  [is_fmks]: the code was compiled for the FMKS geometry. *)
Definition fixup_Initialize (is_fmks : bool) : prog FixupParams :=
  enable_mhd <- GetOrAddBoolean "fluid" "mhd" false ;;
  enable_rad <- GetOrAddBoolean "physics" "rad" false ;;
  flux_fixup <- GetOrAddBoolean "fixup" "enable_flux_fixup" false ;;
  inflow <- GetOrAddBoolean "fixup" "enable_ox1_fmks_inflow_check" false ;;
  fixup <- GetOrAddBoolean "fixup" "enable_fixup" false ;;
  enable_floors <- GetOrAddBoolean "fixup" "enable_floors" false ;;
  c2p_fixup <- GetOrAddBoolean "fixup" "enable_c2p_fixup" false ;;
  source_fixup <- GetOrAddBoolean "fixup" "enable_source_fixup" false ;;
  ceilings <- GetOrAddBoolean "fixup" "enable_ceilings" false ;;
  report_c2p <- GetOrAddBoolean "fixup" "report_c2p_fails" false ;;
  report_source <- GetOrAddBoolean "fixup" "report_source_fails" false ;;
  mhd_floors <- GetOrAddBoolean "fixup" "enable_mhd_floors" false ;;
  rad_floors <- GetOrAddBoolean "fixup" "enable_rad_floors" false ;;
  rad_ceilings <- GetOrAddBoolean "fixup" "enable_rad_ceilings" false ;;
  phi_enf <- GetOrAddBoolean "fixup" "enable_phi_enforcement" false ;;
  phi <- (if phi_enf then x <- read_phi is_fmks ;; Ret (Some x) else Ret None) ;;
  let mhd_floors := if mhd_floors && negb enable_mhd then false else mhd_floors in
  let rad_floors := if rad_floors && negb enable_rad then false else rad_floors in
  let rad_ceilings := if rad_ceilings && negb enable_rad then false else rad_ceilings in
  let enable_floors := if c2p_fixup && negb enable_floors then true else enable_floors in
  let enable_floors := if mhd_floors && negb enable_floors then true else enable_floors in
  let enable_floors := if rad_floors && negb enable_floors then true else enable_floors in
  fl <- read_floor enable_floors ;;
  ce <- read_ceiling ceilings ;;
  rfl <- read_rad_floor rad_floors ;;
  rce <- read_rad_ceiling rad_ceilings ;;
  mce <- read_mhd_ceiling mhd_floors ;;
  fs <- read_strategy "fluid_c2p_failure_strategy" ;;
  rs <- read_strategy "rad_c2p_failure_strategy" ;;
  ss <- read_strategy "src_failure_strategy" ;;
  both <- GetOrAddBoolean "fixup" "c2p_failure_force_fixup_both" false ;;
  match rce with
  | None => Fail (* params.Get<RadiationCeilings>("rad_ceiling") throws *)
  | Some rce =>
    Ret (mkFixupParams flux_fixup inflow fixup c2p_fixup source_fixup ceilings phi_enf phi
           mhd_floors rad_floors rad_ceilings enable_floors fl ce mce rfl rce fs rs ss both)
  end.

(** reconstruction.hpp: ReconType; riemann.hpp: solver *)
Inductive ReconType := rt_weno5z | rt_mp5 | rt_linear | rt_constant.
Inductive solver := LLF | HLL.
Inductive C2PMethod := c2p_robust | c2p_classic.

(** fluid.cpp:97-119 and radiation.cpp:367-389 *)
Definition read_recon (block : string) (nghost : Z) : prog ReconType :=
  recon <- GetOrAddString block "recon" "linear" ;;
  if String.eqb recon "weno5" || String.eqb recon "weno5z" then
    _ <- Require (4 <=? nghost)%Z ;; Ret rt_weno5z
  else if String.eqb recon "mp5" then
    _ <- Require (4 <=? nghost)%Z ;; Ret rt_mp5
  else if String.eqb recon "linear" then Ret rt_linear
  else if String.eqb recon "constant" then Ret rt_constant
  else Fail.

(** Params of an evolved fluid (fluid.cpp:57-133) *)
Record FluidActive := mkFluidActive {
  f_zero_fluxes : bool; f_zero_sources : bool; f_cfl : R; f_c2p_method : C2PMethod; f_c2p_tol : R;
  f_c2p_max_iter : Z; f_c2p_floor_scale_fac : R; f_fail_on_floors : bool; f_fail_on_ceilings : bool;
  f_Recon : ReconType; f_RiemannSolver : solver }.
(** Params of the fluid package (fluid.cpp:54-191): activity, Ye, mhd, sigma cutoff, ghost
    variables are primitives, boundary conditions (ix1, ox1, ix2, ox2, ix3, ox3), dimensions *)
Record FluidParams := mkFluidParams {
  f_active : option FluidActive; f_Ye : bool; f_mhd : bool; f_sigma_cutoff : R; f_bc_primitive : bool;
  f_bcs : list string; f_ndim : nat }.

Definition read_active (nghost : Z) : prog FluidActive :=
  zf <- GetOrAddBoolean "fluid" "zero_fluxes" false ;;
  zs <- GetOrAddBoolean "fluid" "zero_sources" false ;;
  cfl <- GetOrAddReal "fluid" "cfl" (8 / 10) ;;
  m <- GetOrAddString "fluid" "c2p_method" "robust" ;;
  c2p <- (if String.eqb m "robust" then Ret c2p_robust
          else if String.eqb m "classic" then Ret c2p_classic else Fail) ;;
  tol <- GetOrAddReal "fluid" "c2p_tol" (1 / 100000000) ;;
  it <- GetOrAddInteger "fluid" "c2p_max_iter" 20 ;;
  fac <- GetOrAddReal "fluid" "c2p_floor_scale_fac" 1 ;;
  _ <- Require (Rle_bool fac 1 && Rlt_bool 0 fac) ;;
  ff <- GetOrAddBoolean "fluid" "c2p_fail_on_floors" false ;;
  fc <- GetOrAddBoolean "fluid" "c2p_fail_on_ceilings" false ;;
  rt <- read_recon "fluid" nghost ;;
  s <- GetOrAddString "fluid" "riemann" "hll" ;;
  rs <- (if String.eqb s "llf" then Ret LLF else if String.eqb s "hll" then Ret HLL else Fail) ;;
  Ret (mkFluidActive zf zs cfl c2p tol it fac ff fc rt rs).

(** fluid.cpp:43-200 *)
Definition fluid_Initialize (nghost : Z) : prog FluidParams :=
  active <- GetBoolean "physics" "hydro" ;;
  ap <- (if active then x <- read_active nghost ;; Ret (Some x) else Ret None) ;;
  ye <- GetOrAddBoolean "fluid" "Ye" false ;;
  mhd <- GetOrAddBoolean "fluid" "mhd" false ;;
  sc <- GetOrAddReal "fluid" "sigma_cutoff" 1 ;;
  bc_vars <- GetOrAddString "phoebus/mesh" "bc_vars" "conserved" ;;
  prim <- (if String.eqb bc_vars "conserved" then Ret false
           else if String.eqb bc_vars "primitive" then Ret true else Fail) ;;
  ix1 <- GetString "phoebus" "ix1_bc" ;;
  ox1 <- GetString "phoebus" "ox1_bc" ;;
  ix2 <- GetString "phoebus" "ix2_bc" ;;
  ox2 <- GetString "phoebus" "ox2_bc" ;;
  ix3 <- GetString "phoebus" "ix3_bc" ;;
  ox3 <- GetString "phoebus" "ox3_bc" ;;
  nx3 <- GetInteger "parthenon/mesh" "nx3" ;;
  ndim <- (if (1 <? nx3)%Z then Ret 3%nat
           else nx2 <- GetInteger "parthenon/mesh" "nx2" ;;
                Ret (if (1 <? nx2)%Z then 2%nat else 1%nat)) ;;
  _ <- GetOrAddString "fluid" "c2p_method" "robust" ;;
  Ret (mkFluidParams ap ye mhd sc prim [ix1; ox1; ix2; ox2; ix3; ox3] ndim).

(** The part of radiation::Initialize that decides which time step the radiation package
    imposes (radiation.cpp:33-41,53-66,78-80,114-128,543-546).  The outer do_lightbulb
    (line 116) is shadowed by the one read from the deck (line 120) and is never assigned.
    The stellar-collapse requirement (130-139) is [sc_eos]; the frequency grid and the options
    of the other methods are left out. *)
Record RadParams := mkRadParams { r_active : bool; r_method : string; r_cfl : R; r_limits_dt : bool }.
Definition known_methods : list string := ["cooling_function"; "moment_m1"; "moment_eddington"; "monte_carlo"; "mocmc"].
Definition radiation_Initialize (sc_eos : bool) : prog RadParams :=
  active <- GetBoolean "physics" "rad" ;;
  if negb active then Ret (mkRadParams false "" 0 false) else
  method <- GetString "radiation" "method" ;;
  _ <- Require (existsb (String.eqb method) known_methods) ;;
  bc <- GetOrAddString "phoebus/mesh" "bc_vars" "conserved" ;;
  cfl <- GetOrAddReal "radiation" "cfl" (8 / 10) ;;
  let do_lightbulb := false in
  _ <- (if String.eqb method "cooling_function" then
          lie <- GetOrAddBoolean "radiation" "do_liebendorfer" false ;;
          do_lightbulb' <- GetOrAddBoolean "radiation" "do_lightbulb" false ;;
          lum <- GetOrAddReal "radiation" "lum" 4 ;;
          (if do_lightbulb' then
             _ <- Require sc_eos ;;
             ag <- GetOrAddBoolean "radiation" "always_gain" false ;; Ret tt
           else Ret tt)
        else Ret tt) ;;
  Ret (mkRadParams true method cfl (if negb do_lightbulb then true else false)).

(** phoebus_driver.cpp:809-811 *)
Definition packages (is_fmks sc_eos : bool) (nghost : Z) : prog (FluidParams * RadParams * FixupParams) :=
  f <- fluid_Initialize nghost ;;
  r <- radiation_Initialize sc_eos ;;
  x <- fixup_Initialize is_fmks ;;
  Ret (f, r, x).
