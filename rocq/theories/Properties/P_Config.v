(** C58: the bounds and methods in force are the ones the input deck asks for. *)
From Coq Require Import Reals String ZArith List Bool Lra Psatz.
From Flocq Require Import Core.
From Verif.Model Require Import Num Robust Floors Config.
From Verif.Spec Require Import ConfigSpec.
From Verif.Proofs Require Import NumR ConfigProofs.
Import ListNotations.
Local Open Scope string_scope.
Local Open Scope R_scope.

Ltac bs H x := apply bind_some in H; let E := fresh "E" x in destruct H as [x [E H]].
Ltac use := repeat match goal with
  | H : pure (GetOrAddBoolean _ _ _) _ = Some _ |- _ => apply gob in H
  | H : pure (GetOrAddReal _ _ _) _ = Some _ |- _ => apply gor in H
  | H : pure (GetOrAddInteger _ _ _) _ = Some _ |- _ => apply goi in H
  | H : pure (GetOrAddString _ _ _) _ = Some _ |- _ => apply gos in H
  | H : pure (GetBoolean _ _) _ = Some _ |- _ => apply gb in H
  | H : pure (GetReal _ _) _ = Some _ |- _ => apply gr in H
  | H : pure (GetInteger _ _) _ = Some _ |- _ => apply gi in H
  | H : pure (GetString _ _) _ = Some _ |- _ => apply gs in H
  | H : pure (Require _) _ = Some _ |- _ => apply rq in H
  end.

Lemma fixup_inv g d p d' : run (fixup_Initialize g) d = Some (p, d') ->
  (p_enable_flux_fixup p = fx d "enable_flux_fixup" /\
   p_enable_ox1_fmks_inflow_check p = fx d "enable_ox1_fmks_inflow_check" /\
   p_enable_fixup p = fx d "enable_fixup" /\
   p_enable_c2p_fixup p = fx d "enable_c2p_fixup" /\
   p_enable_source_fixup p = fx d "enable_source_fixup" /\
   p_enable_ceilings p = fx d "enable_ceilings" /\
   p_enable_phi_enforcement p = fx d "enable_phi_enforcement" /\
   p_force_fixup_both p = fx d "c2p_failure_force_fixup_both" /\
   p_enable_mhd_floors p = mhd_wanted d /\
   p_enable_rad_floors p = radf_wanted d /\
   p_enable_rad_ceilings p = radc_wanted d /\
   p_enable_floors p = floors_wanted d) /\
  ((if fx d "enable_phi_enforcement" then option_map Some (pure (read_phi g) d) else Some None) = Some (p_phi p) /\
   pure (read_floor (floors_wanted d)) d = Some (p_floor p) /\
   pure (read_ceiling (fx d "enable_ceilings")) d = Some (p_ceiling p) /\
   pure (read_rad_floor (radf_wanted d)) d = Some (p_rad_floor p) /\
   pure (read_rad_ceiling (radc_wanted d)) d = Some (Some (p_rad_ceiling p)) /\
   pure (read_mhd_ceiling (mhd_wanted d)) d = Some (p_mhd_ceiling p) /\
   pure (read_strategy "fluid_c2p_failure_strategy") d = Some (p_fluid_c2p_failure p) /\
   pure (read_strategy "rad_c2p_failure_strategy") d = Some (p_rad_c2p_failure p) /\
   pure (read_strategy "src_failure_strategy") d = Some (p_src_failure p)).
Proof.
  intros H. assert (P : pure (fixup_Initialize g) d = Some p).
  { rewrite <- (run_pure0 defaults _ d (wf_fixup g)), H; reflexivity. }
  clear H. unfold fixup_Initialize in P.
  bs P a1. bs P a2. bs P a3. bs P a4. bs P a5. bs P a6. bs P a7. bs P a8. bs P a9. bs P a10. bs P a11. bs P a12. bs P a13. bs P a14.
  bs P a15. bs P a16. cbv zeta in P. bs P f1. bs P f2. bs P f3. bs P f4. bs P f5. bs P f6. bs P f7. bs P f8. bs P f9.
  destruct f4 as [f4|]; [|discriminate P]. cbn [pure] in P. use. assert (Ep := f_equal (fun o => match o with Some x => x | None => p end) P). cbn in Ep. clear P. subst p.
  assert (Em : (if a12 && negb a1 then false else a12) = mhd_wanted d).
  { unfold mhd_wanted, fx. rewrite <- Ea12, <- Ea1. destruct a12, a1; reflexivity. }
  assert (Er : (if a13 && negb a2 then false else a13) = radf_wanted d).
  { unfold radf_wanted, fx. rewrite <- Ea13, <- Ea2. destruct a13, a2; reflexivity. }
  assert (Ec : (if a14 && negb a2 then false else a14) = radc_wanted d).
  { unfold radc_wanted, fx. rewrite <- Ea14, <- Ea2. destruct a14, a2; reflexivity. }
  rewrite Em in *. rewrite Er in *. rewrite Ec in *.
  assert (Ef : forall m r, (if r && negb (if m && negb (if a7 && negb a6 then true else a6) then true else if a7 && negb a6 then true else a6) then true
     else if m && negb (if a7 && negb a6 then true else a6) then true else if a7 && negb a6 then true else a6) = a6 || a7 || m || r).
  { intros m r; destruct a6, a7, m, r; reflexivity. }
  rewrite Ef in *. cbn [p_enable_flux_fixup p_enable_ox1_fmks_inflow_check p_enable_fixup p_enable_c2p_fixup p_enable_source_fixup p_enable_ceilings p_enable_phi_enforcement p_phi p_enable_mhd_floors p_enable_rad_floors p_enable_rad_ceilings p_enable_floors p_floor p_ceiling p_mhd_ceiling p_rad_floor p_rad_ceiling p_fluid_c2p_failure p_rad_c2p_failure p_src_failure p_force_fixup_both].
  unfold floors_wanted, fx in *. subst a6 a7. subst a3 a4 a5 a8 a9 a15 f9.
  split; [repeat split; reflexivity|]. split; [|repeat split; assumption].
  destruct (flag d "fixup" "enable_phi_enforcement" false); [|exact Ea16].
  bs Ea16 y. rewrite Ey. exact Ea16.
Qed.

(** The switches in force are those of the deck; MHD and radiation bounds are dropped without
    their physics, and every fixup that writes floors turns the floors on *)
Theorem C58_switches : forall g d p d', run (fixup_Initialize g) d = Some (p, d') ->
  p_enable_flux_fixup p = fx d "enable_flux_fixup" /\
  p_enable_ox1_fmks_inflow_check p = fx d "enable_ox1_fmks_inflow_check" /\
  p_enable_fixup p = fx d "enable_fixup" /\
  p_enable_c2p_fixup p = fx d "enable_c2p_fixup" /\
  p_enable_source_fixup p = fx d "enable_source_fixup" /\
  p_enable_ceilings p = fx d "enable_ceilings" /\
  p_enable_phi_enforcement p = fx d "enable_phi_enforcement" /\
  p_force_fixup_both p = fx d "c2p_failure_force_fixup_both" /\
  p_enable_mhd_floors p = (fx d "enable_mhd_floors" && flag d "fluid" "mhd" false)%bool /\
  p_enable_rad_floors p = (fx d "enable_rad_floors" && flag d "physics" "rad" false)%bool /\
  p_enable_rad_ceilings p = (fx d "enable_rad_ceilings" && flag d "physics" "rad" false)%bool /\
  p_enable_floors p = (fx d "enable_floors" || fx d "enable_c2p_fixup" || p_enable_mhd_floors p || p_enable_rad_floors p)%bool.
Proof.
  intros g d p d' H. destruct (fixup_inv _ _ _ _ H) as [(A1 & A2 & A3 & A4 & A5 & A6 & A7 & A8 & A9 & A10 & A11 & A12) _].
  rewrite A9, A10. repeat (split; [first [assumption|reflexivity]|]); exact A12.
Qed.
Print Assumptions C58_switches.

Lemma std_max_r a b : a <= b -> std_max a b = b.
Proof. intros H. unfold std_max; num_R. destruct (Rlt_bool_spec a b) as [?|?]; lra. Qed.

(** The density and specific-energy floors in force at every point, by the type the deck names:
    nothing but the EOS minimum when no floor is asked for *)
Theorem C58_floors : forall g d p d', run (fixup_Initialize g) d = Some (p, d') ->
  forall rm sm x1 x2 x3 rin,
  let F := GetFloors (p_floor p rm sm) x1 x2 x3 rin in
  let N := fun n e => number d "fixup" n e in
  (floors_wanted d = false -> - real_max <= rm -> - real_max <= sm -> F = (rm, sm)) /\
  (floors_wanted d = true ->
   is_one_of (d ("fixup", "floor_type")) ["ConstantRhoSie"; "ExpX1RhoSie"; "ExpX1RhoU"; "X1RhoSie"; "RRhoSie"] /\
   (d ("fixup", "floor_type") = Some (VStr "ConstantRhoSie") ->
    F = (std_max (N "rho0_floor" 0) rm, std_max (N "sie0_floor" 0) sm)) /\
   (d ("fixup", "floor_type") = Some (VStr "ExpX1RhoSie") ->
    F = (std_max (N "rho0_floor" 0 * exp (N "rho_exp_floor" (-2) * x1)) rm,
         std_max (N "sie0_floor" 0 * exp (N "sie_exp_floor" (-1) * x1)) sm)) /\
   (d ("fixup", "floor_type") = Some (VStr "ExpX1RhoU") ->
    let r := N "rho0_floor" 0 * exp (N "rho_exp_floor" (-2) * x1) in
    F = (std_max r rm, std_max (N "u0_floor" 0 * exp (N "u_exp_floor" (-3) * x1) / std_max rin r) sm)) /\
   (d ("fixup", "floor_type") = Some (VStr "X1RhoSie") ->
    fst F = std_max (N "rho0_floor" 0 * std_min 1 (Rpower x1 (N "rho_exp_floor" (-2)))) rm) /\
   (d ("fixup", "floor_type") = Some (VStr "RRhoSie") ->
    fst F = std_max (N "rho0_floor" 0 * std_min 1 (Rpower (sqrt (x1 * x1 + x2 * x2 + x3 * x3)) (N "rho_exp_floor" (-2)))) rm)).
Proof.
  intros g d p d' H rm sm x1 x2 x3 rin F N. destruct (fixup_inv _ _ _ _ H) as [_ (_ & A & _)]. subst F.
  split.
  - intros W Hr Hs. rewrite W in A. cbn in A. injection A as <-. cbn. rewrite !std_max_r by assumption. reflexivity.
  - intros W. rewrite W in A. unfold read_floor in A. bs A t. use. rewrite Et.
    destruct (String.eqb_spec t "ConstantRhoSie") as [->|N1];
    [|destruct (String.eqb_spec t "ExpX1RhoSie") as [->|N2];
     [|destruct (String.eqb_spec t "ExpX1RhoU") as [->|N3];
      [|destruct (String.eqb_spec t "X1RhoSie") as [->|N4];
       [|destruct (String.eqb_spec t "RRhoSie") as [->|N5]; [|discriminate A]]]]];
    bs A a; bs A b; try (bs A c; bs A e); use; cbn [pure] in A; apply (f_equal (fun o => match o with Some x => x | None => NoFloor end)) in A;
    rewrite <- A; subst;
    (split; [eexists; split; [reflexivity|cbn; tauto]|]); repeat split; intros Q; try discriminate Q; reflexivity.
Qed.
Print Assumptions C58_floors.

(** Full statement: the specific-energy floors "X1RhoSie" and "RRhoSie" use sie0_floor and
    sie_exp_floor, as "ConstantRhoSie" and "ExpX1RhoSie" do and as the shipped tov-static.pin and
    tov_cart.pin write.  They do not: the code reads u0_floor, the floor of another type, so a
    deck that only sets sie0_floor has no energy floor at all. *)
Theorem C58_sie_floor_refuted : forall g d p d', run (fixup_Initialize g) d = Some (p, d') ->
  floors_wanted d = true ->
  d ("fixup", "floor_type") = Some (VStr "X1RhoSie") \/ d ("fixup", "floor_type") = Some (VStr "RRhoSie") ->
  d ("fixup", "u0_floor") = None ->
  forall rm sm x1 x2 x3 rin, 0 <= sm -> snd (GetFloors (p_floor p rm sm) x1 x2 x3 rin) = sm.
Proof.
  intros g d p d' H W T U rm sm x1 x2 x3 rin Hs. destruct (fixup_inv _ _ _ _ H) as [_ (_ & A & _)].
  rewrite W in A. unfold read_floor in A. bs A t. use.
  assert (Tt : t = "X1RhoSie" \/ t = "RRhoSie") by (destruct T as [T|T]; rewrite T in Et; [left|right]; congruence).
  destruct Tt as [-> | ->]; cbn [String.eqb Ascii.eqb Bool.eqb] in A;
  bs A a; bs A b; bs A c; bs A e; use; cbn [pure] in A; apply (f_equal (fun o => match o with Some x => x | None => NoFloor end)) in A;
  rewrite <- A; unfold PowerFloor, GetFloors; cbn [floor_flag_ s0_ snd sie_min_eos_ salpha_];
  assert (Hb0 : b = 0) by (rewrite Eb; unfold number; rewrite U; reflexivity); apply std_max_r; num_R; rewrite Hb0, Rmult_0_l; assumption.
Qed.
Print Assumptions C58_sie_floor_refuted.

(** The ceilings in force *)
Theorem C58_ceilings : forall g d p d', run (fixup_Initialize g) d = Some (p, d') ->
  forall x1 x2 x3,
  let N := fun n e => number d "fixup" n e in
  GetCeilings (p_ceiling p) x1 x2 x3 =
    (if fx d "enable_ceilings" then (N "gam0_ceiling" 1000, N "sie0_ceiling" 100) else (real_max, real_max)) /\
  GetMHDCeilings (p_mhd_ceiling p) x1 x2 x3 =
    (if mhd_wanted d then (N "bsqorho0_ceiling" 50, N "bsqou0_ceiling" 2500) else (real_max, real_max)) /\
  GetRadiationCeilings (p_rad_ceiling p) x1 x2 x3 =
    (if radc_wanted d then (N "xi0_ceiling" (99 / 100), N "tau0_ceiling" 100000) else (real_max, real_max)) /\
  (radf_wanted d = false -> GetRadiationFloors (p_rad_floor p) x1 x2 x3 = - real_max) /\
  (radf_wanted d = true -> is_one_of (d ("fixup", "rad_floor_type")) ["ConstantJ"; "ExpX1J"] /\
   (d ("fixup", "rad_floor_type") = Some (VStr "ConstantJ") ->
    GetRadiationFloors (p_rad_floor p) x1 x2 x3 = N "J0_floor" 0) /\
   (d ("fixup", "rad_floor_type") = Some (VStr "ExpX1J") ->
    GetRadiationFloors (p_rad_floor p) x1 x2 x3 = N "J0_floor" 0 * exp (N "J_exp_floor" (-2) * x1))).
Proof.
  intros g d p d' H x1 x2 x3 N. destruct (fixup_inv _ _ _ _ H) as [_ (_ & _ & A & B & C & M & _)].
  split; [|split; [|split; [|split]]].
  - unfold read_ceiling in A. destruct (fx d "enable_ceilings"); [|cbn in A; injection A as <-; reflexivity].
    bs A t. destruct (String.eqb t "ConstantGamSie"); [|discriminate A]. bs A u. bs A v. use. cbn [pure] in A. injection A as <-. subst; reflexivity.
  - unfold read_mhd_ceiling in M. destruct (mhd_wanted d); [|cbn in M; injection M as <-; reflexivity].
    bs M t. destruct (String.eqb t "ConstantBsqRat"); [|discriminate M]. bs M u. bs M v. use. cbn [pure] in M. injection M as <-. subst; reflexivity.
  - unfold read_rad_ceiling in C. destruct (radc_wanted d); [|cbn in C; injection C as <-; reflexivity].
    bs C t. destruct (String.eqb t "ConstantXi0"); [|discriminate C]. bs C u. bs C v. use. cbn [pure] in C. injection C as <-. subst; reflexivity.
  - intros W; rewrite W in B. cbn in B. injection B as <-. reflexivity.
  - intros W; rewrite W in B. unfold read_rad_floor in B. bs B t. use. rewrite Et.
    destruct (String.eqb_spec t "ConstantJ") as [->|N1]; [|destruct (String.eqb_spec t "ExpX1J") as [->|N2]; [|discriminate B]];
    bs B a; try bs B b; use; cbn [pure] in B; injection B as <-; subst;
    (split; [eexists; split; [reflexivity|cbn; tauto]|]); split; intros Q; try discriminate Q; reflexivity.
Qed.
Print Assumptions C58_ceilings.

(** What happens to a cell whose inversion or source update fails, and the enforced flux *)
Theorem C58_strategies : forall g d p d', run (fixup_Initialize g) d = Some (p, d') ->
  let chosen n s := word d "fixup" n "interpolate" = match s with interpolate => "interpolate" | floors => "floors" end in
  chosen "fluid_c2p_failure_strategy" (p_fluid_c2p_failure p) /\
  chosen "rad_c2p_failure_strategy" (p_rad_c2p_failure p) /\
  chosen "src_failure_strategy" (p_src_failure p) /\
  (fx d "enable_phi_enforcement" = false -> p_phi p = None) /\
  (fx d "enable_phi_enforcement" = true -> g = true /\
   exists phi, d ("fixup", "enforced_phi") = Some (VReal phi) /\
   let st := number d "fixup" "enforced_phi_start_time" 175 in 0 <= st /\
   p_phi p = Some (phi, number d "fixup" "enforced_phi_timescale" 1000, number d "fixup" "enforced_phi_cadence" 10, st)).
Proof.
  intros g d p d' H chosen. destruct (fixup_inv _ _ _ _ H) as [_ (P & _ & _ & _ & _ & _ & A & B & C)].
  assert (S : forall n s, pure (read_strategy n) d = Some s -> chosen n s).
  { intros n s Q. unfold read_strategy in Q. bs Q t. use. unfold chosen. rewrite <- Et.
    destruct (String.eqb_spec t "interpolate") as [->|]; [cbn in Q; injection Q as <-; reflexivity|].
    destruct (String.eqb_spec t "floors") as [->|]; [cbn in Q; injection Q as <-; reflexivity|discriminate]. }
  split; [apply S, A|]. split; [apply S, B|]. split; [apply S, C|].
  split; intros W; rewrite W in P; [injection P; auto|].
  unfold read_phi in P. destruct (pure _ d) as [q|] eqn:Q; [|discriminate P]. cbn in P. injection P as <-.
  bs Q u. bs Q phi. bs Q a. bs Q b. bs Q c. bs Q v. use. cbn [pure] in Q. split; [exact Eu|].
  exists phi. split; [assumption|]. rewrite Ec in Ev. cbv zeta. split; [destruct (Rle_bool_spec 0 (number d "fixup" "enforced_phi_start_time" 175)); [assumption|discriminate]|].
  congruence.
Qed.
Print Assumptions C58_strategies.

(** Which decks the package accepts *)
Theorem C58_accepts : forall g d, well_typed fixup_entries d ->
  ((exists p d', run (fixup_Initialize g) d = Some (p, d')) <->
   (fx d "enable_phi_enforcement" = true -> g = true /\ d ("fixup", "enforced_phi") <> None /\
      0 <= number d "fixup" "enforced_phi_start_time" 175) /\
   (floors_wanted d = true ->
      is_one_of (d ("fixup", "floor_type")) ["ConstantRhoSie"; "ExpX1RhoSie"; "ExpX1RhoU"; "X1RhoSie"; "RRhoSie"]) /\
   (radf_wanted d = true -> is_one_of (d ("fixup", "rad_floor_type")) ["ConstantJ"; "ExpX1J"]) /\
   (fx d "enable_ceilings" = true -> word d "fixup" "ceiling_type" "ConstantGamSie" = "ConstantGamSie") /\
   (radc_wanted d = true -> word d "fixup" "radiation_ceiling_type" "ConstantXi0" = "ConstantXi0") /\
   (mhd_wanted d = true -> word d "fixup" "mhd_ceiling_type" "ConstantBsqRat" = "ConstantBsqRat") /\
   (forall n, In n ["fluid_c2p_failure_strategy"; "rad_c2p_failure_strategy"; "src_failure_strategy"] ->
      In (word d "fixup" n "interpolate") ["interpolate"; "floors"])).
Proof.
  intros g d T. split.
  - intros (p & d' & H). pose proof (C58_strategies _ _ _ _ H) as S. pose proof (C58_ceilings _ _ _ _ H 0 0 0) as C.
    pose proof (C58_floors _ _ _ _ H 0 0 0 0 0 0) as F. destruct (fixup_inv _ _ _ _ H) as [_ (_ & _ & A & _ & B & M & _)].
    cbv zeta in *. split; [|split; [|split; [|split; [|split; [|split]]]]].
    + intros W. destruct S as (_ & _ & _ & _ & S). destruct (S W) as (-> & phi & E & P & _). split; [reflexivity|]. split; [rewrite E; discriminate|exact P].
    + intros W. destruct F as [_ F]. apply (F W).
    + intros W. destruct C as (_ & _ & _ & _ & C). apply (C W).
    + intros W. rewrite W in A. unfold read_ceiling in A. bs A t. use. rewrite <- Et. destruct (String.eqb_spec t "ConstantGamSie"); [assumption|discriminate A].
    + intros W. rewrite W in B. unfold read_rad_ceiling in B. bs B t. use. rewrite <- Et. destruct (String.eqb_spec t "ConstantXi0"); [assumption|discriminate B].
    + intros W. rewrite W in M. unfold read_mhd_ceiling in M. bs M t. use. rewrite <- Et. destruct (String.eqb_spec t "ConstantBsqRat"); [assumption|discriminate M].
    + destruct S as (S1 & S2 & S3 & _).
      intros n [<-|[<-|[<-|[]]]]; [rewrite S1|rewrite S2|rewrite S3]; match goal with |- context [match ?s with interpolate => _ | _ => _ end] => destruct s end; cbn; tauto.
  - intros (HP & HF & HR & HC & HX & HM & HS).
    pose proof (run_pure0 defaults _ d (wf_fixup g)) as R0.
    assert (Q : pure (fixup_Initialize g) d <> None).
    2: { destruct (run (fixup_Initialize g) d) as [[p d']|]; [eauto|]. exfalso; apply Q; rewrite <- R0; reflexivity. }
    clear R0.
    assert (S : forall n, In n ["fluid_c2p_failure_strategy"; "rad_c2p_failure_strategy"; "src_failure_strategy"] -> exists s, pure (read_strategy n) d = Some s).
    { intros n I. specialize (HS n I). unfold read_strategy. rewrite pure_bind, (gos' fixup_entries) by (try exact T; destruct I as [<-|[<-|[<-|[]]]]; vm_compute; tauto).
      destruct HS as [<-|[<-|[]]]; cbn; eauto. }
    assert (RF : exists s, pure (read_floor (floors_wanted d)) d = Some s).
    { destruct (floors_wanted d); [|cbn; eauto]. destruct (HF eq_refl) as (s & E & I). unfold read_floor. rewrite pure_bind, (proj2 (gs _ _ _ s) E).
      destruct I as [<-|[<-|[<-|[<-|[<-|[]]]]]]; cbn [String.eqb Ascii.eqb Bool.eqb];
      repeat (rewrite pure_bind, (gor' fixup_entries) by (try exact T; vm_compute; tauto)); cbn [pure]; eauto. }
    assert (RR : exists s, pure (read_rad_floor (radf_wanted d)) d = Some s).
    { destruct (radf_wanted d); [|cbn; eauto]. destruct (HR eq_refl) as (s & E & I). unfold read_rad_floor. rewrite pure_bind, (proj2 (gs _ _ _ s) E).
      destruct I as [<-|[<-|[]]]; cbn [String.eqb Ascii.eqb Bool.eqb];
      repeat (rewrite pure_bind, (gor' fixup_entries) by (try exact T; vm_compute; tauto)); cbn [pure]; eauto. }
    assert (RC : exists s, pure (read_ceiling (fx d "enable_ceilings")) d = Some s).
    { destruct (fx d "enable_ceilings"); [|cbn; eauto]. unfold read_ceiling. rewrite pure_bind, (gos' fixup_entries), (HC eq_refl) by (try exact T; vm_compute; tauto).
      cbn [String.eqb Ascii.eqb Bool.eqb]. repeat (rewrite pure_bind, (gor' fixup_entries) by (try exact T; vm_compute; tauto)); cbn [pure]; eauto. }
    assert (RX : exists s, pure (read_rad_ceiling (radc_wanted d)) d = Some (Some s)).
    { destruct (radc_wanted d); [|cbn; eauto]. unfold read_rad_ceiling. rewrite pure_bind, (gos' fixup_entries), (HX eq_refl) by (try exact T; vm_compute; tauto).
      cbn [String.eqb Ascii.eqb Bool.eqb]. repeat (rewrite pure_bind, (gor' fixup_entries) by (try exact T; vm_compute; tauto)); cbn [pure]; eauto. }
    assert (RM : exists s, pure (read_mhd_ceiling (mhd_wanted d)) d = Some s).
    { destruct (mhd_wanted d); [|cbn; eauto]. unfold read_mhd_ceiling. rewrite pure_bind, (gos' fixup_entries), (HM eq_refl) by (try exact T; vm_compute; tauto).
      cbn [String.eqb Ascii.eqb Bool.eqb]. repeat (rewrite pure_bind, (gor' fixup_entries) by (try exact T; vm_compute; tauto)); cbn [pure]; eauto. }
    assert (RP : exists s, pure (if fx d "enable_phi_enforcement" then bind (read_phi g) (fun x => Ret (Some x)) else Ret None) d = Some s).
    { destruct (fx d "enable_phi_enforcement"); [|cbn; eauto]. destruct (HP eq_refl) as (-> & E & P). unfold read_phi.
      destruct (d ("fixup", "enforced_phi")) as [v|] eqn:Ev; [|congruence].
      assert (exists r, v = VReal r) as [r ->].
      { assert (Hv := T ("fixup", "enforced_phi") TReal v). assert (I : In (("fixup", "enforced_phi"), TReal) fixup_entries) by (vm_compute; tauto).
        specialize (Hv I Ev). destruct v; try discriminate Hv. eauto. }
      rewrite pure_bind. rewrite pure_bind. cbn [Require pure]. rewrite pure_bind, (proj2 (gr _ _ _ r) Ev).
      do 3 rewrite pure_bind, (gor' fixup_entries) by (try exact T; vm_compute; tauto).
      rewrite pure_bind, (Rle_bool_true _ _ P). cbn [Require pure]. eauto. }
    unfold fixup_Initialize.
    do 15 rewrite pure_bind, (gob' fixup_entries) by (try exact T; vm_compute; tauto).
    rewrite pure_bind. fold (fx d "enable_phi_enforcement"). destruct RP as [? ->]. cbv zeta.
    replace (if _ && negb (flag d "fluid" "mhd" false) then false else _)%bool with (mhd_wanted d)
      by (unfold mhd_wanted, fx; destruct (flag d "fixup" "enable_mhd_floors" false), (flag d "fluid" "mhd" false); reflexivity).
    replace (if flag d "fixup" "enable_rad_floors" false && negb (flag d "physics" "rad" false) then false else flag d "fixup" "enable_rad_floors" false)%bool with (radf_wanted d)
      by (unfold radf_wanted, fx; destruct (flag d "fixup" "enable_rad_floors" false), (flag d "physics" "rad" false); reflexivity).
    replace (if flag d "fixup" "enable_rad_ceilings" false && negb (flag d "physics" "rad" false) then false else flag d "fixup" "enable_rad_ceilings" false)%bool with (radc_wanted d)
      by (unfold radc_wanted, fx; destruct (flag d "fixup" "enable_rad_ceilings" false), (flag d "physics" "rad" false); reflexivity).
    match goal with |- context [read_floor ?b] => replace b with (floors_wanted d)
      by (unfold floors_wanted, fx; destruct (flag d "fixup" "enable_floors" false), (flag d "fixup" "enable_c2p_fixup" false), (mhd_wanted d), (radf_wanted d); reflexivity) end.
    rewrite pure_bind. destruct RF as [? ->]. fold (fx d "enable_ceilings"). rewrite pure_bind. destruct RC as [? ->].
    rewrite pure_bind. destruct RR as [? ->]. rewrite pure_bind. destruct RX as [? ->]. rewrite pure_bind. destruct RM as [? ->].
    rewrite pure_bind. destruct (S "fluid_c2p_failure_strategy") as [? ->]; [cbn; tauto|].
    rewrite pure_bind. destruct (S "rad_c2p_failure_strategy") as [? ->]; [cbn; tauto|].
    rewrite pure_bind. destruct (S "src_failure_strategy") as [? ->]; [cbn; tauto|].
    rewrite pure_bind, (gob' fixup_entries) by (try exact T; vm_compute; tauto). cbn [pure]. discriminate.
Qed.
Print Assumptions C58_accepts.
