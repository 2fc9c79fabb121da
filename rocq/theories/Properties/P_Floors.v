(** C21, C22: floors and ceilings. *)
From Coq Require Import Reals Arith Lia Lra Psatz Bool.
From Flocq Require Import Core.
From Verif.Spec Require Import Tensor GeomSpec SystemSpec Relativity GRMHD FloorSpec.
From Verif.Model Require Import Num Robust Geometry Relativity Prim2Con Riemann Floors Con2PrimRobust ApplyFloors.
From Verif.Proofs Require Import NumR RobustProofs TensorTac LinearAlgebraProofs GeomBase AdmProofs RelProofs
  RelativityProofs Prim2ConProofs RiemannProofs FaceProofs Con2PrimProofs FloorProofs FlatWitness.
From Verif.Properties Require Import P_GRMHD P_Con2Prim.
Import ApplyFloors.
Local Open Scope R_scope.

(** ** C21, face states (riemann.hpp) *)
(** The Lorentz factor used for the conserved densities and fluxes never exceeds the
    ceiling, and is that of the velocity if this is below the ceiling. *)
Theorem C21_face_ceiling : forall alpha beta g ginv gamma gi sg sgg gdd,
  adm_consistent alpha beta g ginv gamma gi sg sgg ->
  forall q gm, 1 <= gm ->
  let fg := mkFace alpha sgg sg g beta gdd in
  1 <= face_W q fg gm <= gm /\ (GetLorentzFactor (q_vp q) gamma <= gm -> face_W q fg gm = GetLorentzFactor (q_vp q) gamma).
Proof.
  intros alpha beta g ginv gamma gi sg sgg gdd H q gm Hg fg.
  pose proof (face_W_ge1 _ _ _ _ _ _ _ _ gdd H q gm Hg) as L.
  pose proof (face_W_sq _ _ _ _ _ _ _ _ gdd H q gm Hg) as S.
  pose proof (vsq0_max _ _ _ _ _ _ _ _ gdd H q gm Hg) as M.
  pose proof (vsq_val _ _ _ _ _ _ _ _ gdd H q gm Hg) as E.
  pose proof (vsq_range _ _ _ _ _ _ _ _ gdd H q gm Hg) as Rg.
  fold fg in L, S, M, E, Rg. rewrite E in S, Rg. split; [split; [exact L|]|].
  - assert (face_W q fg gm * face_W q fg gm <= gm * gm); [|nra]. rewrite S.
    replace (gm * gm) with (/ (1 / (gm * gm))) by (field; lra).
    apply Rinv_le_contravar; [apply Rdiv_lt_0_compat; nra|lra].
  - intros K. exact (f_W _ _ _ _ _ _ _ _ gdd H q gm K).
Qed.
Print Assumptions C21_face_ceiling.
(** ... but a velocity above the ceiling is not brought to the ceiling: the rescaled
    u-velocity is divided by the old Lorentz factor, W^2 = W0^2/(W0^2 - gm^2 + 1). *)
Theorem C21_face_ceiling_value_refuted : forall alpha beta g ginv gamma gi sg sgg gdd,
  adm_consistent alpha beta g ginv gamma gi sg sgg ->
  forall q gm, 1 < gm -> let W0 := GetLorentzFactor (q_vp q) gamma in gm < W0 ->
  let W := face_W q (mkFace alpha sgg sg g beta gdd) gm in
  W * W = W0 * W0 / (W0 * W0 - gm * gm + 1) /\ W < gm.
Proof.
  intros alpha beta g ginv gamma gi sg sgg gdd H q gm Hg W0 K W. assert (Hg' : 1 <= gm) by lra.
  pose proof (face_W_sq _ _ _ _ _ _ _ _ gdd H q gm Hg') as S. fold W in S.
  rewrite (vsq_val _ _ _ _ _ _ _ _ gdd H q gm Hg'), (vsq0_lim _ _ _ _ _ _ _ _ gdd H q gm Hg') in S. fold W0 in S.
  rewrite Rlt_bool_true in S by exact K.
  assert (P : 0 < W0 * W0 - gm * gm + 1) by nra.
  assert (E : W * W = W0 * W0 / (W0 * W0 - gm * gm + 1)) by (rewrite S; field; split; nra).
  split; [exact E|].
  pose proof (face_W_ge1 _ _ _ _ _ _ _ _ gdd H q gm Hg') as L. fold W in L.
  assert (Lt : W * W < gm * gm).
  { rewrite E. apply Rmult_lt_reg_r with (W0 * W0 - gm * gm + 1); [exact P|]. unfold Rdiv. rewrite Rmult_assoc, Rinv_l by lra.
    assert (0 < (gm * gm - 1) * (W0 * W0 - gm * gm)) by (apply Rmult_lt_0_compat; nra). lra. }
  nra.
Qed.
Print Assumptions C21_face_ceiling_value_refuted.

(** ** C21, con2prim_robust *)
(** Whenever the velocity ceiling did not act, the stored velocity respects it; the stored
    energy respects its ceiling in every case. *)
Theorem C21_c2p_ceilings : forall alpha beta g ginv gamma gi sg sgg,
  adm_consistent alpha beta g ginv gamma gi sg sgg ->
  forall valencia mhd hasye eos L c mu, 0 <= mu -> 1 <= l_gam_max L ->
  let out := solve_at valencia mhd hasye eos L (mkCell g gi beta sg alpha) c mu in
  (o_gamma_maxed out = false -> GetLorentzFactor (o_vel out) gamma <= l_gam_max L) /\
  (0 < o_rho out -> s_efl L (o_rho out) <= l_e_max L -> o_eng out / o_rho out <= l_e_max L).
Proof.
  intros alpha beta g ginv gamma gi sg sgg H val mhd hasye eos L c mu Hmu Hg out. split.
  - intros K. destruct (unclamped_LF _ _ _ _ _ _ _ _ H val mhd hasye eos L c mu Hmu Hg K) as [E V0]. fold out in E.
    set (V := Rmin _ _) in *. set (W := GetLorentzFactor (o_vel out) gamma) in *.
    assert (W1 : 1 <= W) by exact (lorentz_ge1 _ _ _ _ _ (adm_tpo _ _ _ _ _ _ _ _ H)).
    assert (V1 : V <= 1 - 1 / (l_gam_max L * l_gam_max L)).
    { eapply Rle_trans; [exact V0|]. unfold s_v0sq. rewrite std_min_R. apply Rmin_r. }
    set (gm := l_gam_max L) in *. assert (0 < 1 / (gm * gm)) by (apply Rdiv_lt_0_compat; nra).
    assert (W * W <= gm * gm); [|nra]. rewrite E. replace (gm * gm) with (/ (1 / (gm * gm))) by (field; lra).
    apply Rinv_le_contravar; lra.
  - intros Rp K. pose proof (solve_bounds _ _ _ _ _ _ _ _ H val mhd hasye eos L c mu Hmu Hg) as [_ B]. fold out in B.
    apply B; [|exact Rp].
    pose proof (solve_state _ _ _ _ _ _ _ _ H val mhd hasye eos L c mu Hmu Hg) as (E1 & _). fold out in E1. rewrite E1 in K. exact K.
Qed.
Print Assumptions C21_c2p_ceilings.
(** Where it acts, the stored velocity always exceeds the velocity it was limited to. *)
Theorem C21_c2p_clamped_velocity_refuted : forall alpha beta g ginv gamma gi sg sgg,
  adm_consistent alpha beta g ginv gamma gi sg sgg ->
  forall valencia mhd hasye eos L c mu, 0 <= mu -> 1 <= l_gam_max L ->
  let out := solve_at valencia mhd hasye eos L (mkCell g gi beta sg alpha) c mu in
  o_gamma_maxed out = true ->
  let W := GetLorentzFactor (o_vel out) gamma in
  s_v0sq L (mkCell g gi beta sg alpha) c < 1 - 1 / (W * W).
Proof.
  intros alpha beta g ginv gamma gi sg sgg H val mhd hasye eos L c mu Hmu Hg out K W.
  pose proof (clamped_LF _ _ _ _ _ _ _ _ H val mhd hasye eos L c mu Hmu Hg K) as C. fold out in C. fold W in C.
  set (v0 := s_v0sq L _ c) in *. assert (W1 : 1 <= W) by exact (lorentz_ge1 _ _ _ _ _ (adm_tpo _ _ _ _ _ _ _ _ H)).
  assert (V1 : v0 <= 1 - 1 / (l_gam_max L * l_gam_max L)) by (unfold v0, s_v0sq; rewrite std_min_R; apply Rmin_r).
  assert (0 < 1 / (l_gam_max L * l_gam_max L)) by (apply Rdiv_lt_0_compat; nra).
  assert (P : 0 < 1 - v0) by lra.
  assert (1 / (W * W) < 1 - v0); [|lra].
  apply Rmult_lt_reg_r with (W * W * / (1 - v0)); [apply Rmult_lt_0_compat; [nra|apply Rinv_0_lt_compat; lra]|].
  replace (1 / (W * W) * (W * W * / (1 - v0))) with (/ (1 - v0)) by (field; split; lra).
  replace ((1 - v0) * (W * W * / (1 - v0))) with (W * W) by (field; lra). exact C.
Qed.
Print Assumptions C21_c2p_clamped_velocity_refuted.
(** A conserved state of flat space, exact root of the residual, no magnetic field, ideal
    gas: with the ceiling 2 the stored velocity has Lorentz factor sqrt(106)/5 > 2. *)
Definition fast_cons : Cons := mkCons 1 (v3 10 0 0) zero3 (335/36) 0 zero3.
Theorem C21_c2p_ceiling_refuted :
  let L := lim (1/100) (1/100) 2 10 in let mu := 9/100 in
  let out := solve_at true false false gas2 L flat fast_cons mu in
  s_residual true false false gas2 L flat fast_cons mu = 0 /\
  o_status out = c2p_success /\ o_gamma_maxed out = true /\
  o_rho out = 1/2 /\ o_eng out = 29/36 /\ o_vel out 0%nat = 9/5 /\
  l_gam_max L < GetLorentzFactor (o_vel out) delta.
Proof.
  intros L mu out.
  assert (Rc : forall i, (i < 3)%nat -> s_rcon flat fast_cons i = v3 10 0 0 i).
  { intros i Hi. unfold s_rcon, s_rcov, sum3, fast_cons; cbn [cD cS]. rewrite !gratio_nz by lra.
    idx; unfold flat, delta, v3; cbn; field. }
  assert (R2 : dot3 delta (s_rcon flat fast_cons) (s_rcon flat fast_cons) = 100).
  { unfold dot3, sum3. rewrite !Rc by lia. unfold delta, v3; cbn; ring. }
  assert (V0 : s_v0sq L flat fast_cons = 3/4).
  { pose proof (v0_eq _ _ _ _ _ _ _ _ eta4_consistent L fast_cons) as Kv. fold flat in Kv. rewrite Kv, R2. cbn. rewrite Rmin_right; lra. }
  assert (Q : s_q true flat fast_cons = 335/36).
  { unfold s_q, s_tau, s_D; cbn. rewrite gratio_nz by lra. field. }
  assert (Dv : s_D flat fast_cons = 1) by (unfold s_D; cbn; field).
  pose proof (hydro_state _ _ _ _ _ _ _ _ eta4_consistent true false false gas2 L fast_cons mu ltac:(unfold mu; lra) ltac:(cbn; lra) eq_refl) as K.
  fold flat in K. cbv zeta in K. fold out in K. rewrite R2, V0, Q, Dv in K.
  unfold mu in K. rewrite (Rmin_right (9/100 * (9/100) * 100)) in K by lra.
  replace (1 - 3/4) with (1/2 * (1/2)) in K by field. rewrite (sqrt_square (1/2)) in K by lra.
  unfold s_rhoflr, s_efl in K. cbn [l_floors l_fac l_e_max L lim fst snd] in K.
  rewrite (Rmax_left (1 * (1/2))) in K by lra.
  match type of K with context [Rle_bool ?e (1/100 * 1)] => replace e with (29/18) in K by field end.
  rewrite !(Rle_bool_false (29/18)) in K by lra. rewrite !(Rlt_bool_false 10) in K by lra.
  destruct K as (K1 & K2 & K3 & _ & K5 & _ & _ & _ & K9).
  assert (Kv : forall i, (i < 3)%nat -> o_vel out i = v3 (9/5) 0 0 i).
  { intros i Hi. rewrite K3, Rc by exact Hi. idx; unfold v3; field. }
  split; [|split; [|split; [|split; [|split; [|split]]]]].
  - unfold mu. rewrite K9. cbn [eos_P gas2]. pose proof (proj2 EPS_pos) as Es. revert Es. generalize (EPS : R). intros e Es.
    rewrite (Rmax_left (1 * (1/2) * (1 + 29/18)) e) by lra. rewrite Rmax_left by (right; field). field.
  - unfold out, solve_at. destruct (vhatsq_mu _ _ _), (rhohat_mu _ _ _), (ehat_mu _ _ _ _ _ _ _ _) as [[? ?] ?]. reflexivity.
  - rewrite K5. apply Rlt_bool_true. lra.
  - rewrite K1. field.
  - rewrite K2. field.
  - rewrite (Kv 0%nat) by lia. reflexivity.
  - cbn. unfold GetLorentzFactor, sum3. rewrite !Kv by lia. unfold delta, v3; cbn [Nat.eqb].
    replace 2 with (sqrt (2 * 2)) by (apply sqrt_square; lra). apply sqrt_lt_1; lra.
Qed.
Print Assumptions C21_c2p_ceiling_refuted.

(** ** C21, the clamp of the fixup routines (fixup_c2p.cpp, fixup_src.cpp) *)
(** Below the ceiling nothing changes.  Above it, with a ceiling of at least sqrt 2, the
    clamped velocity respects it. *)
Theorem C21_clamp : forall alpha beta g ginv gamma gi sg sgg,
  adm_consistent alpha beta g ginv gamma gi sg sgg ->
  forall gmax vp, 1 <= gmax ->
  let r := clamp_velocity gmax g vp in
  (GetLorentzFactor vp gamma <= gmax -> r = (vp, GetLorentzFactor vp gamma)) /\
  (2 <= gmax * gmax -> GetLorentzFactor (fst r) gamma <= gmax /\ snd r <= gmax).
Proof.
  intros alpha beta g ginv gamma gi sg sgg H gmax vp G r.
  set (W := GetLorentzFactor vp gamma). destruct (Rle_or_lt W gmax) as [K|K].
  - pose proof (clamp_inside _ _ _ _ _ _ _ _ H gmax vp K) as E. fold r in E. fold W in E. rewrite E. cbn. split; [reflexivity|].
    intros _. fold W. split; lra.
  - split; [intros; lra|]. intros G2.
    pose proof (clamp_acts _ _ _ _ _ _ _ _ H gmax vp K) as E. fold r in E. fold W in E. rewrite E. cbn [fst snd]. split; [|lra].
    pose proof (rescaled_sq _ _ _ _ _ _ _ _ H gmax vp G ltac:(unfold W in K; lra)) as S. cbv zeta in S. fold W in S.
    set (W' := GetLorentzFactor (rescaled gmax W vp) gamma) in *.
    assert (W1 : 1 <= W') by exact (lorentz_ge1 _ _ _ _ _ (adm_tpo _ _ _ _ _ _ _ _ H)).
    assert (Lt : (gmax * gmax - 1) / (W * W - 1) < 1). { apply Rmult_lt_reg_r with (W * W - 1); [nra|]. unfold Rdiv. rewrite Rmult_assoc, Rinv_l by nra. nra. }
    nra.
Qed.
Print Assumptions C21_clamp.
(** Where the clamp acts the Lorentz factor becomes sqrt(1 + (gmax^2-1)/(W^2-1)) - never
    the ceiling, except for W^2 = 2 - while gmax is what is handed on as the new W; and
    for W^2 < 2 it is above the ceiling. *)
Theorem C21_clamp_refuted : forall alpha beta g ginv gamma gi sg sgg,
  adm_consistent alpha beta g ginv gamma gi sg sgg ->
  forall gmax vp, 1 < gmax -> let W := GetLorentzFactor vp gamma in gmax < W ->
  let r := clamp_velocity gmax g vp in
  let W' := GetLorentzFactor (fst r) gamma in
  snd r = gmax /\ W' * W' = 1 + (gmax * gmax - 1) / (W * W - 1) /\
  (W * W < 2 -> gmax < W') /\ (2 < W * W -> W' < gmax).
Proof.
  intros alpha beta g ginv gamma gi sg sgg H gmax vp G W K r W'.
  pose proof (clamp_acts _ _ _ _ _ _ _ _ H gmax vp K) as E. fold r in E. fold W in E. unfold W'. rewrite E. cbn [fst snd].
  pose proof (rescaled_sq _ _ _ _ _ _ _ _ H gmax vp (Rlt_le _ _ G) ltac:(unfold W in K; lra)) as S. cbv zeta in S. fold W in S.
  clear W'. set (W' := GetLorentzFactor (rescaled gmax W vp) gamma) in *.
  assert (W1 : 1 <= W') by exact (lorentz_ge1 _ _ _ _ _ (adm_tpo _ _ _ _ _ _ _ _ H)).
  assert (P : 0 < W * W - 1) by nra. assert (Q : 0 < gmax * gmax - 1) by nra.
  assert (T : (gmax * gmax - 1) / (W * W - 1) * (W * W - 1) = gmax * gmax - 1) by (field; lra).
  set (t := (gmax * gmax - 1) / (W * W - 1)) in *.
  assert (Tp : 0 < t) by (apply Rdiv_lt_0_compat; assumption). clearbody t.
  split; [reflexivity|]. split; [exact S|]. split; intros Hw.
  - assert (gmax * gmax - 1 < t) by nra. nra.
  - assert (t < gmax * gmax - 1) by nra. nra.
Qed.
Print Assumptions C21_clamp_refuted.

(** ** C21, C22, ApplyFloors *)
(** A cell inside all limits is left alone, derived quantities included. *)
Theorem C21_inside_unchanged : forall valencia hasye mhd eos bulk g gi beta alpha sg rf sf gmax emax b1 b2 yemin invert c,
  rf <= f_rho c -> rf * sf <= f_eng c -> GetLorentzFactor4 (f_vel c) g <= gmax -> f_eng c / f_rho c <= emax ->
  apply_floors valencia false mhd hasye eos bulk g gi beta alpha sg rf sf gmax emax b1 b2 yemin invert c = c.
Proof.
  intros. unfold apply_floors, af_floors, af_increment, af_floor_max, af_ceiling.
  rewrite !(Rlt_bool_false 0) by lra. cbn [orb]. rewrite !Rlt_bool_false by lra. reflexivity.
Qed.
Print Assumptions C21_inside_unchanged.
(** The energy ceiling changes neither density nor energy: it only changes the velocity,
    and a slow hot cell (W^2 < 2) ends up above the velocity ceiling as well. *)
Theorem C21_energy_ceiling_refuted : forall alpha beta g ginv gamma gi sg sgg,
  adm_consistent alpha beta g ginv gamma gi sg sgg ->
  forall valencia hasye mhd eos bulk rf sf gmax emax b1 b2 yemin invert c,
  rf <= f_rho c -> rf * sf <= f_eng c -> emax < f_eng c / f_rho c -> 1 < gmax ->
  let W := GetLorentzFactor (f_vel c) gamma in 1 < W ->
  let c' := apply_floors valencia false mhd hasye eos bulk g gi beta alpha sg rf sf gmax emax b1 b2 yemin invert c in
  f_rho c' = f_rho c /\ f_eng c' = f_eng c /\ emax < f_eng c' / f_rho c' /\
  (W * W < 2 -> gmax < GetLorentzFactor (f_vel c') gamma).
Proof.
  intros alpha beta g ginv gamma gi sg sgg H val hasye mhd eos bulk rf sf gmax emax b1 b2 yemin invert c K1 K2 K3 G W LW c'.
  assert (E : c' = af_derived hasye eos (snd (af_ceiling val mhd hasye g gi beta alpha sg gmax emax c))).
  { unfold c', apply_floors, af_floors, af_increment, af_floor_max. rewrite !(Rlt_bool_false 0) by lra. cbn [orb].
    unfold af_ceiling. rewrite (Rlt_bool_true emax) by lra. rewrite orb_true_r. reflexivity. }
  assert (WE : GetLorentzFactor4 (f_vel c) g = W) by exact (W_eq _ _ _ _ _ _ _ _ H (f_vel c)).
  rewrite E. unfold af_ceiling. rewrite (Rlt_bool_true emax) by lra. rewrite orb_true_r, WE. cbn. split; [reflexivity|]. split; [reflexivity|].
  split; [exact K3|]. intros L2.
  pose proof (rescaled_sq _ _ _ _ _ _ _ _ H gmax (f_vel c) (Rlt_le _ _ G) LW) as S. cbv zeta in S. fold W in S.
  set (W' := GetLorentzFactor (rescaled gmax W (f_vel c)) gamma) in *.
  assert (W1 : 1 <= W') by exact (lorentz_ge1 _ _ _ _ _ (adm_tpo _ _ _ _ _ _ _ _ H)).
  assert (P : 0 < W * W - 1) by nra. assert (Q : 0 < gmax * gmax - 1) by nra.
  assert (T : (gmax * gmax - 1) / (W * W - 1) * (W * W - 1) = gmax * gmax - 1) by (field; lra).
  set (t := (gmax * gmax - 1) / (W * W - 1)) in *.
  assert (Tp : 0 < t) by (apply Rdiv_lt_0_compat; assumption). clearbody t. assert (gmax * gmax - 1 < t) by nra. nra.
Qed.
Print Assumptions C21_energy_ceiling_refuted.

Definition cell0 (rho eng : R) (v : vec) : FCell := mkFCell rho v eng zero3 0 1 1 1 (mkCons 0 zero3 zero3 0 0 zero3).
Example C21_clamp_nonvacuous : (* ceiling 1.1, W = sqrt 1.25 *)
  1 < 11/10 /\ 11/10 < GetLorentzFactor (v3 (1/2) 0 0) delta /\
  GetLorentzFactor (v3 (1/2) 0 0) delta * GetLorentzFactor (v3 (1/2) 0 0) delta < 2.
Proof.
  rewrite lorentz_flat. rewrite sqrt_sqrt by lra. split; [lra|]. split; [|lra].
  replace (11/10) with (sqrt (11/10 * (11/10))) by (apply sqrt_square; lra). apply sqrt_lt_1; lra.
Qed.
Example C21_energy_ceiling_nonvacuous : let c := cell0 1 20 (v3 (3/4) 0 0) in
  1 <= f_rho c /\ 1 * (1/100) <= f_eng c /\ 10 < f_eng c / f_rho c /\ 1 < 10 /\
  1 < GetLorentzFactor (f_vel c) delta /\ GetLorentzFactor (f_vel c) delta * GetLorentzFactor (f_vel c) delta < 2.
Proof. intros c. unfold c, cell0; cbn [f_rho f_eng f_vel]. rewrite flat_W34. lra. Qed.
Example C21_inside_nonvacuous : let c := cell0 1 1 (v3 (3/4) 0 0) in
  1/10 <= f_rho c /\ 1/10 * (1/100) <= f_eng c /\ GetLorentzFactor4 (f_vel c) eta4 <= 10 /\ f_eng c / f_rho c <= 10.
Proof.
  intros c. unfold c, cell0; cbn [f_rho f_eng f_vel]. rewrite (W_eq _ _ _ _ _ _ _ _ eta4_consistent), flat_W34. lra.
Qed.

(** ** C22 *)
(** The floors are the prescribed profiles, never below the minima of the equation of state.
    In the option that prescribes an energy density (ExpX1RhoU), the specific energy floor
    times the density it was computed for is at least that energy density. *)
Theorem C22_floors : forall F x1 x2 x3 rin,
  let rf := fst (GetFloors F x1 x2 x3 rin) in let sf := snd (GetFloors F x1 x2 x3 rin) in
  rf = Rmax (profile (floor_flag_ F) (r0_ F) (ralpha_ F) x1 x2 x3) (rho_min_eos_ F) /\
  sie_min_eos_ F <= sf /\
  (floor_flag_ F <> ExpX1RhoU -> sf = Rmax (profile (floor_flag_ F) (s0_ F) (salpha_ F) x1 x2 x3) (sie_min_eos_ F)) /\
  (floor_flag_ F = ExpX1RhoU -> 0 < rin -> profile ExpX1RhoU (r0_ F) (ralpha_ F) x1 x2 x3 <= rin ->
   profile ExpX1RhoU (s0_ F) (salpha_ F) x1 x2 x3 <= sf * rin).
Proof.
  intros F x1 x2 x3 rin rf sf. unfold rf, sf, GetFloors, profile.
  destruct (floor_flag_ F); cbn [fst snd]; rewrite ?std_max_R, ?std_min_R.
  all: split; [reflexivity|]; split; [apply Rmax_r|]; split; [intros; congruence || reflexivity|]; try discriminate.
  intros _ P Q. rewrite (Rmax_left rin) by exact Q.
  replace (s0_ F * exp (salpha_ F * x1)) with (s0_ F * exp (salpha_ F * x1) / rin * rin) at 1 by (field; lra).
  apply Rmult_le_compat_r; [lra|apply Rmax_l].
Qed.
Print Assumptions C22_floors.
(** With ExpX1RhoU the floor depends on the value the caller's variable held before the
    call; fixup.cpp:379-381 (and others) pass an uninitialised variable. *)
Theorem C22_floors_input_refuted : exists F x1 x2 x3 r1 r2,
  floor_flag_ F = ExpX1RhoU /\ 0 < r0_ F /\ 0 < s0_ F /\ snd (GetFloors F x1 x2 x3 r1) <> snd (GetFloors F x1 x2 x3 r2).
Proof.
  exists (mkFloors 1 1 (-1) (-1) (1/100) (1/100) ExpX1RhoU), 0, 0, 0, 1, 2. cbn.
  rewrite !std_max_R, !Rmult_0_r, exp_0. repeat split; try lra. rewrite (Rmax_left 1), (Rmax_left 2), !Rmax_left by lra. lra.
Qed.
Print Assumptions C22_floors_input_refuted.

(** con2prim_robust never stores a density or specific energy below the (scaled) floors. *)
Theorem C22_c2p_floors : forall alpha beta g ginv gamma gi sg sgg,
  adm_consistent alpha beta g ginv gamma gi sg sgg ->
  forall valencia mhd hasye eos L c mu, 0 <= mu -> 1 <= l_gam_max L ->
  let out := solve_at valencia mhd hasye eos L (mkCell g gi beta sg alpha) c mu in
  fst (l_floors L 0) * l_fac L <= o_rho out /\
  (0 < o_rho out -> snd (l_floors L (o_rho out)) * l_fac L <= l_e_max L ->
   snd (l_floors L (o_rho out)) * l_fac L <= o_eng out / o_rho out).
Proof.
  intros alpha beta g ginv gamma gi sg sgg H val mhd hasye eos L c mu Hmu Hg out.
  pose proof (solve_bounds _ _ _ _ _ _ _ _ H val mhd hasye eos L c mu Hmu Hg) as [B1 B2]. fold out in B1, B2.
  split; [exact B1|]. intros Rp K.
  pose proof (solve_state _ _ _ _ _ _ _ _ H val mhd hasye eos L c mu Hmu Hg) as (E1 & _). fold out in E1.
  refine (proj1 (B2 _ Rp)). rewrite E1 in K. exact K.
Qed.
Print Assumptions C22_c2p_floors.

(** What ApplyFloors adds to a cell below the floors: a positive mass and energy, enough to
    lift density and energy density to the floors; the added gas is itself above the
    specific energy floor. *)
Theorem C22_increment : forall mhd_floors g alpha rf sf emax b1 b2 c, 0 < sf ->
  let '(applied, drho, du) := af_increment mhd_floors g alpha rf sf emax b1 b2 c in
  (applied = false -> rf <= f_rho c /\ rf * sf <= f_eng c) /\
  (applied = true -> 0 < drho /\ 0 < du /\ rf <= f_rho c + drho /\ rf * sf <= f_eng c + du /\ sf * drho <= du) /\
  (applied = true -> mhd_floors = false ->
     drho = Rmax (rf - f_rho c) ((rf * sf - f_eng c) / sf) /\ du = Rmax (rf * sf - f_eng c) (sf * (rf - f_rho c))).
Proof.
  intros mf g alpha rf sf emax b1 b2 c Hs. unfold af_increment.
  assert (M : rf <= fst (af_floor_max mf g alpha rf sf emax b1 b2 c) /\ rf * sf <= snd (af_floor_max mf g alpha rf sf emax b1 b2 c)).
  { unfold af_floor_max. destruct mf; cbn [fst snd]; rewrite ?std_max_R; [|lra]. split.
    - eapply Rle_trans; [apply Rmax_l|apply Rmax_l].
    - apply Rmax_l. }
  assert (E0 : mf = false -> af_floor_max mf g alpha rf sf emax b1 b2 c = (rf, rf * sf)) by (intros ->; reflexivity).
  destruct (af_floor_max mf g alpha rf sf emax b1 b2 c) as [rm um] eqn:E. cbn [fst snd] in M. destruct M as [M1 M2].
  destruct (Rlt_bool_spec 0 (rm - f_rho c)) as [K1|K1]; destruct (Rlt_bool_spec 0 (um - f_eng c)) as [K2|K2]; cbn [orb].
  4: { split; [intros _; lra|]. split; discriminate. }
  all: split; [discriminate|].
  all: rewrite !std_max_R; set (a := rm - f_rho c) in *; set (b := um - f_eng c) in *.
  all: assert (T : sf * (b / sf) = b) by (field; lra).
  all: assert (X : Rmax b (sf * Rmax a (b / sf)) = Rmax b (sf * a))
       by (unfold Rmax; destruct (Rle_dec a (b / sf)); rewrite ?T; destruct (Rle_dec b b); destruct (Rle_dec b (sf * a)); try lra; try nra).
  all: split; [|intros _ Mf; specialize (E0 Mf); injection E0 as -> ->; split; [reflexivity|exact X]].
  all: intros _; assert (A1 : a <= Rmax a (b / sf)) by apply Rmax_l; assert (A2 : b / sf <= Rmax a (b / sf)) by apply Rmax_r.
  all: assert (A3 : b <= Rmax b (sf * Rmax a (b / sf))) by apply Rmax_l; assert (A4 : sf * Rmax a (b / sf) <= Rmax b (sf * Rmax a (b / sf))) by apply Rmax_r.
  all: set (dr := Rmax a (b / sf)) in *; set (du := Rmax b (sf * dr)) in *.
  all: assert (0 < dr) by (first [lra | apply Rlt_le_trans with (b / sf); [apply Rdiv_lt_0_compat; lra|exact A2]]).
  all: assert (0 < sf * dr) by (apply Rmult_lt_0_compat; lra).
  all: unfold a, b in *; repeat split; lra.
Qed.
Print Assumptions C22_increment.
(** How it enters the conserved variables: mass sqrt(gamma) drho, no momentum, energy
    sqrt(gamma) du - and, with a magnetic field, sqrt(gamma) B^2/2 on top (refuted part). *)
Theorem C22_injection : forall alpha beta g ginv gamma gi sg sgg,
  adm_consistent alpha beta g ginv gamma gi sg sgg ->
  forall hasye mhd eos bulk c drho du,
  let c' := af_inject hasye c (af_added true mhd hasye eos bulk g gi beta alpha sg c drho du) in
  cD (f_cons c') = cD (f_cons c) + sg * drho /\ eq3 (cS (f_cons c')) (cS (f_cons c)) /\ cB (f_cons c') = cB (f_cons c) /\
  ctau (f_cons c') = ctau (f_cons c) + sg * (du + (if mhd then dot3 gamma (f_B c) (f_B c) else 0) / 2).
Proof.
  intros alpha beta g ginv gamma gi sg sgg H hasye mhd eos bulk c drho du c'. unfold c', af_inject, af_added; cbn [f_cons cD cS cB ctau].
  match goal with |- context [p2c true drho ?z ?B du ?y ?p ?q g gi beta alpha sg] =>
    pose proof (rest_cons _ _ _ _ _ _ _ _ H drho B du y p q true) as (K1 & K2 & _ & K4) end.
  cbv zeta in K1, K2, K4. rewrite K1, (K4 eq_refl). repeat split.
  - intros i Hi. rewrite (K2 i Hi). ring.
  - f_equal. f_equal. f_equal. f_equal. unfold af_bp. destruct mhd; [reflexivity|]. unfold dot3, sum3. ring.
Qed.
Print Assumptions C22_injection.
Theorem C22_injected_energy_refuted : forall alpha beta g ginv gamma gi sg sgg,
  adm_consistent alpha beta g ginv gamma gi sg sgg ->
  forall hasye eos bulk c drho du, (exists i, (i < 3)%nat /\ f_B c i <> 0) ->
  let c' := af_inject hasye c (af_added true true hasye eos bulk g gi beta alpha sg c drho du) in
  ctau (f_cons c) + sg * du < ctau (f_cons c').
Proof.
  intros alpha beta g ginv gamma gi sg sgg H hasye eos bulk c drho du NB c'.
  pose proof (C22_injection _ _ _ _ _ _ _ _ H hasye true eos bulk c drho du) as (_ & _ & _ & E). fold c' in E. rewrite E.
  pose proof (proj1 (adm_det3 _ _ _ _ _ _ _ _ H)) as sp.
  assert (P : 0 < dot3 gamma (f_B c) (f_B c)).
  { apply (adm_gamma_pd _ _ _ _ _ _ _ _ H). destruct NB as (i & Hi & Nz). exists i. split; assumption. }
  nra.
Qed.
Print Assumptions C22_injected_energy_refuted.

(** ApplyFloors as a whole, with con2prim_robust (any value mu >= 0 from its root finder)
    as the inversion: unless that inversion reports failure, the final density is at least
    the floor (the scaled one where the inversion ran). *)
Theorem C22_apply_floors_density : forall alpha beta g ginv gamma gi sg sgg,
  adm_consistent alpha beta g ginv gamma gi sg sgg ->
  forall valencia mhd_floors mhd hasye eos bulk rf sf gmax emax b1 b2 yemin L mu c,
  0 < sf -> (forall c, 0 <= mu c) -> 1 <= l_gam_max L ->
  l_fail_floors L = false -> l_fail_ceilings L = false ->
  let invert := c2p_invert valencia mhd hasye eos L (mkCell g gi beta sg alpha) mu in
  let c' := apply_floors valencia mhd_floors mhd hasye eos bulk g gi beta alpha sg rf sf gmax emax b1 b2 yemin invert c in
  Rmin rf (fst (l_floors L 0) * l_fac L) <= f_rho c'.
Proof.
  intros alpha beta g ginv gamma gi sg sgg H val mf mhd hasye eos bulk rf sf gmax emax b1 b2 yemin L mu c Hs Hmu Hg F1 F2 invert c'.
  assert (Cl : forall x, f_rho (snd (af_ceiling val mhd hasye g gi beta alpha sg gmax emax x)) = f_rho x).
  { intros x. unfold af_ceiling. destruct (_ || _); reflexivity. }
  assert (E : f_rho c' = f_rho (snd (af_floors val mf mhd hasye eos bulk g gi beta alpha sg rf sf emax b1 b2 yemin invert c))).
  { unfold c', apply_floors. destruct (af_floors _ _ _ _ _ _ _ _ _ _ _ _ _ _ _ _ _ _ _) as [fa x]. cbn [snd]. rewrite <- (Cl x).
    destruct (af_ceiling _ _ _ _ _ _ _ _ _ _ x) as [ca y]. cbn [snd]. destruct (fa || ca); reflexivity. }
  rewrite E. unfold af_floors. pose proof (C22_increment mf g alpha rf sf emax b1 b2 c Hs) as K.
  destruct (af_increment mf g alpha rf sf emax b1 b2 c) as [[ap dr] du]. destruct K as (K1 & _). destruct ap.
  - set (c1 := af_inject _ _ _). unfold invert, c2p_invert.
    assert (St : o_status (solve_at val mhd hasye eos L (mkCell g gi beta sg alpha) (f_cons c1) (mu c1)) = c2p_success).
    { apply (proj1 C18_unconverged_success_refuted); assumption. }
    rewrite St. cbn [snd f_rho].
    eapply Rle_trans; [apply Rmin_r|]. apply (proj1 (C22_c2p_floors _ _ _ _ _ _ _ _ H val mhd hasye eos L (f_cons c1) (mu c1) (Hmu c1) Hg)).
  - cbn [snd]. eapply Rle_trans; [apply Rmin_l|]. lra.
Qed.
Print Assumptions C22_apply_floors_density.

(** The specific energy floor is only enforced through the energy density rho_floor *
    sie_floor: every cell between the two is left below it. *)
Theorem C22_sie_floor_refuted : forall valencia hasye mhd eos bulk g gi beta alpha sg rf sf gmax emax b1 b2 yemin invert c,
  rf <= f_rho c -> 0 < f_rho c -> rf * sf <= f_eng c -> f_eng c < f_rho c * sf ->
  GetLorentzFactor4 (f_vel c) g <= gmax -> sf <= emax ->
  let c' := apply_floors valencia false mhd hasye eos bulk g gi beta alpha sg rf sf gmax emax b1 b2 yemin invert c in
  f_eng c' / f_rho c' < sf.
Proof.
  intros valencia hasye mhd eos bulk g gi beta alpha sg rf sf gmax emax b1 b2 yemin invert c H1 H0 H2 H3 H4 H5 c'.
  assert (K : f_eng c / f_rho c < sf).
  { apply Rmult_lt_reg_r with (f_rho c); [exact H0|]. unfold Rdiv. rewrite Rmult_assoc, Rinv_l by lra. lra. }
  unfold c'. rewrite C21_inside_unchanged; try assumption; lra.
Qed.
Print Assumptions C22_sie_floor_refuted.
(** With c2p_fail_on_floors the cell topped up exactly to the floor counts as a failed
    inversion, and is then set to the INCREMENT, losing the gas that was there: density 1/2
    with floor 1 stays at 1/2. *)
Definition lim_fail (rf ef gmax emax : R) : Limits := mkLimits (fun _ => (rf, ef)) gmax emax 1 true false.
Definition thin : FCell := mkFCell (1/2) zero3 (1/200) zero3 0 1 1 1 (mkCons (1/2) zero3 zero3 (1/200) 0 zero3).
Theorem C22_failed_inversion_refuted : forall mu, (forall c, 0 <= mu c) ->
  let invert := c2p_invert true false false gas2 (lim_fail 1 (1/100) 10 10) flat mu in
  let c' := apply_floors true false false false gas2 (fun r e _ => 2 * r * e) eta4 delta zero3 1 1 1 (1/100) 10 10 1 1 0 invert thin in
  f_rho c' = 1/2 /\ f_eng c' = 1/200 /\ cD (f_cons c') = 1/2.
Proof.
  intros mu Hmu invert c'. set (L := lim_fail 1 (1/100) 10 10) in *.
  set (bulk := fun r e _ : R => 2 * r * e) in *.
  assert (I : af_increment false eta4 1 1 (1/100) 10 1 1 thin = (true, 1/2, 1/200)).
  { unfold af_increment, af_floor_max, thin; cbn [f_rho f_eng]. rewrite (Rlt_bool_true 0 (1 - 1/2)) by lra. cbn [orb]. rewrite !std_max_R.
    rewrite (Rmax_left (1 - 1/2)) by lra. rewrite Rmax_left by lra. f_equal; [f_equal|]; lra. }
  set (d := af_added true false false gas2 bulk eta4 delta zero3 1 1 thin (1/2) (1/200)).
  pose proof (C22_injection _ _ _ _ _ _ _ _ eta4_consistent false false gas2 bulk thin (1/2) (1/200)) as (J1 & J2 & _ & J4).
  fold d in J1, J2, J4. set (c1 := af_inject false thin d) in *.
  assert (D1 : cD (f_cons c1) = 1) by (rewrite J1; unfold thin; cbn [f_cons cD]; lra).
  assert (S0 : forall i, (i < 3)%nat -> cS (f_cons c1) i = 0) by (intros i Hi; rewrite (J2 i Hi); reflexivity).
  assert (St : o_status (solve_at true false false gas2 L flat (f_cons c1) (mu c1)) = c2p_failure).
  { assert (Rf : o_rho_floored (solve_at true false false gas2 L flat (f_cons c1) (mu c1)) = true).
    { pose proof (hydro_state _ _ _ _ _ _ _ _ eta4_consistent true false false gas2 L (f_cons c1) (mu c1) (Hmu c1) ltac:(cbn; lra) eq_refl) as K.
      cbv zeta in K. fold flat in K. destruct K as (_ & _ & _ & _ & _ & K & _). rewrite K. clear K.
      assert (R0 : forall i, (i < 3)%nat -> s_rcon flat (f_cons c1) i = 0).
      { intros i Hi. unfold s_rcon, s_rcov, sum3. rewrite D1, !S0 by lia. rewrite !gratio_nz by lra. unfold flat; cbn. field. }
      assert (R2 : dot3 delta (s_rcon flat (f_cons c1)) (s_rcon flat (f_cons c1)) = 0).
      { unfold dot3, sum3. rewrite !R0 by lia. ring. }
      assert (V0 : s_v0sq L flat (f_cons c1) = 0).
      { pose proof (v0_eq _ _ _ _ _ _ _ _ eta4_consistent L (f_cons c1)) as Kv. fold flat in Kv. rewrite Kv, R2. cbn. rewrite Rmin_left; lra. }
      rewrite R2, V0, Rmin_right by lra. replace (1 - 0) with 1 by ring. rewrite sqrt_1.
      apply Rle_bool_true. unfold s_D, s_rhoflr, flat; cbn [c_gdet]. rewrite D1. unfold L; cbn. lra. }
    revert Rf. unfold solve_at. destruct (vhatsq_mu _ _ _), (rhohat_mu _ _ _) as [? ?], (ehat_mu _ _ _ _ _ _ _ _) as [[? ?] ?]. cbn.
    intros ->. reflexivity. }
  assert (Fl : snd (af_floors true false false false gas2 bulk eta4 delta zero3 1 1 1 (1/100) 10 1 1 0 invert thin)
             = af_fallback false gas2 0 (snd (invert c1)) d (1/2) (1/200)).
  { unfold af_floors. rewrite I. fold d. fold c1. unfold invert, c2p_invert. rewrite St. reflexivity. }
  assert (Fa : fst (af_floors true false false false gas2 bulk eta4 delta zero3 1 1 1 (1/100) 10 1 1 0 invert thin) = true).
  { unfold af_floors. rewrite I. fold d. fold c1. unfold invert, c2p_invert. rewrite St. reflexivity. }
  unfold c', apply_floors. destruct (af_floors _ _ _ _ _ _ _ _ _ _ _ _ _ _ _ _ _ _ _) as [fa x]. cbn [fst snd] in Fl, Fa. subst fa x.
  unfold af_ceiling. cbn [f_vel f_eng f_rho af_fallback].
  assert (Wz : GetLorentzFactor4 (fun _ => 0) eta4 = 1).
  { rewrite (W_eq _ _ _ _ _ _ _ _ eta4_consistent). apply rest_W. }
  rewrite Wz, !Rlt_bool_false by lra. cbn [orb af_derived af_fallback f_rho f_eng f_cons cD]. split; [reflexivity|]. split; [reflexivity|].
  unfold d, af_added.
  match goal with |- context [p2c true ?r ?z ?B ?u ?y ?p ?q _ _ _ _ _] =>
    pose proof (rest_cons _ _ _ _ _ _ _ _ eta4_consistent r B u y p q true) as (K1 & _) end.
  cbv zeta in K1. rewrite K1. lra.
Qed.
Print Assumptions C22_failed_inversion_refuted.

Example C22_sie_floor_nonvacuous : let c := cell0 10 (1/20) (v3 (3/4) 0 0) in
  1 <= f_rho c /\ 0 < f_rho c /\ 1 * (1/100) <= f_eng c /\ f_eng c < f_rho c * (1/100) /\
  GetLorentzFactor4 (f_vel c) eta4 <= 10 /\ 1/100 <= 10.
Proof.
  intros c. unfold c, cell0; cbn [f_rho f_eng f_vel]. rewrite (W_eq _ _ _ _ _ _ _ _ eta4_consistent), flat_W34. lra.
Qed.
Example C22_increment_nonvacuous :
  af_increment false eta4 1 1 (1/100) 10 1 1 (cell0 (1/2) (1/200) zero3) = (true, 1/2, 1/200).
Proof.
  unfold af_increment, af_floor_max, cell0; cbn [f_rho f_eng]. rewrite (Rlt_bool_true 0 (1 - 1/2)) by lra. cbn [orb]. rewrite !std_max_R.
  rewrite (Rmax_left (1 - 1/2)) by lra. rewrite Rmax_left by lra. f_equal; [f_equal|]; lra.
Qed.
