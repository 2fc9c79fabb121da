(** What an input deck asks for: vocabulary for C58. *)
From Coq Require Import Reals String ZArith List Bool.
From Verif.Model Require Import Config.
Import ListNotations.
Local Open Scope string_scope.
Local Open Scope R_scope.

(** What the user wrote for <block>/name, or the documented default [e] *)
Definition flag (d : deck) (b n : string) (e : bool) : bool := match d (b, n) with Some (VBool x) => x | _ => e end.
Definition number (d : deck) (b n : string) (e : R) : R := match d (b, n) with Some (VReal x) => x | _ => e end.
Definition count (d : deck) (b n : string) (e : Z) : Z := match d (b, n) with Some (VInt x) => x | _ => e end.
Definition word (d : deck) (b n : string) (e : string) : string := match d (b, n) with Some (VStr x) => x | _ => e end.
Definition fx (d : deck) (n : string) : bool := flag d "fixup" n false.

(** Which bounds the deck turns on.  MHD and radiation bounds need their physics; any fixup
    that writes floors needs the floors. *)
Definition mhd_wanted (d : deck) : bool := fx d "enable_mhd_floors" && flag d "fluid" "mhd" false.
Definition radf_wanted (d : deck) : bool := fx d "enable_rad_floors" && flag d "physics" "rad" false.
Definition radc_wanted (d : deck) : bool := fx d "enable_rad_ceilings" && flag d "physics" "rad" false.
Definition floors_wanted (d : deck) : bool :=
  fx d "enable_floors" || fx d "enable_c2p_fixup" || mhd_wanted d || radf_wanted d.

(** Types the entries must have when they are there *)
Inductive ty := TBool | TReal | TInt | TStr.
Definition has_ty (v : val) (t : ty) : bool :=
  match v, t with VBool _, TBool | VReal _, TReal | VInt _, TInt | VStr _, TStr => true | _, _ => false end.
Definition well_typed (l : list (key * ty)) (d : deck) : Prop :=
  forall k t v, In (k, t) l -> d k = Some v -> has_ty v t = true.

Definition fixup_entries : list (key * ty) :=
  [ (("fluid", "mhd"), TBool); (("physics", "rad"), TBool) ]
  ++ map (fun n => (("fixup", n), TBool))
     [ "enable_flux_fixup"; "enable_ox1_fmks_inflow_check"; "enable_fixup"; "enable_floors"; "enable_c2p_fixup";
       "enable_source_fixup"; "enable_ceilings"; "report_c2p_fails"; "report_source_fails"; "enable_mhd_floors";
       "enable_rad_floors"; "enable_rad_ceilings"; "enable_phi_enforcement"; "c2p_failure_force_fixup_both" ]
  ++ map (fun n => (("fixup", n), TReal))
     [ "rho0_floor"; "sie0_floor"; "rho_exp_floor"; "sie_exp_floor"; "u0_floor"; "u_exp_floor"; "gam0_ceiling";
       "sie0_ceiling"; "J0_floor"; "J_exp_floor"; "xi0_ceiling"; "tau0_ceiling"; "bsqorho0_ceiling"; "bsqou0_ceiling";
       "enforced_phi"; "enforced_phi_timescale"; "enforced_phi_cadence"; "enforced_phi_start_time" ]
  ++ map (fun n => (("fixup", n), TStr))
     [ "floor_type"; "ceiling_type"; "rad_floor_type"; "radiation_ceiling_type"; "mhd_ceiling_type";
       "fluid_c2p_failure_strategy"; "rad_c2p_failure_strategy"; "src_failure_strategy" ].

Definition is_one_of (o : option val) (l : list string) : Prop := exists s, o = Some (VStr s) /\ In s l.
