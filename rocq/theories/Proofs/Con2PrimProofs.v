From Coq Require Import Reals Arith ZArith Lia Lra Psatz Bool.
From Flocq Require Import Core.
From Verif.Spec Require Import Tensor GeomSpec Relativity GRMHD.
From Verif.Model Require Import Num Robust Geometry Relativity Prim2Con Con2PrimRobust.
From Verif.Proofs Require Import NumR RobustProofs TensorTac LinearAlgebraProofs GeomBase AdmProofs RelProofs RelativityProofs Prim2ConProofs P2CSimple.
Local Open Scope R_scope.

(** vectors in a positive definite space: w = x (r + mu (b.r) b), x = 1/(1 + mu b^2) *)
Section W.
Variables (gamma : mat) (b r : vec) (mu : R).
Hypothesis Sy : symmetric3 gamma.
Hypothesis Pd : positive_definite3 gamma.
Hypothesis Hmu : 0 <= mu.
Let b2 := dot3 gamma b b.
Let br := dot3 gamma b r.
Let r2 := dot3 gamma r r.
Let x := 1 / (1 + mu * b2).
Let w : vec := fun i => x * (r i + mu * br * b i).

Lemma b2_nonneg : 0 <= b2. Proof. apply pd_nonneg; exact Pd. Qed.
Lemma den_pos : 1 <= 1 + mu * b2. Proof. pose proof b2_nonneg. assert (0 <= mu * b2) by (apply Rmult_le_pos; assumption). lra. Qed.
Lemma x_pos : 0 < x <= 1.
Proof.
  pose proof den_pos. unfold x. split.
  - apply Rdiv_lt_0_compat; lra.
  - apply Rmult_le_reg_r with (1 + mu * b2); [lra|]. unfold Rdiv. rewrite Rmult_assoc, Rinv_l by lra. lra.
Qed.
Lemma w_dot u : dot3 gamma u w = x * (dot3 gamma u r + mu * br * dot3 gamma u b).
Proof. unfold w, dot3, sum3. ring. Qed.
Lemma bw : dot3 gamma b w = br.
Proof. rewrite w_dot. fold br b2. unfold x. pose proof den_pos. field. lra. Qed.
Lemma rw : dot3 gamma r w = x * (r2 + mu * br * br).
Proof. rewrite w_dot. fold r2. rewrite (dot3_sym gamma r b Sy). fold br. ring. Qed.
Lemma ww : dot3 gamma w w = x * (x * r2 + mu * (1 + x) * (br * br)).
Proof.
  rewrite w_dot. rewrite (dot3_sym gamma w r Sy), (dot3_sym gamma w b Sy), rw, bw.
  assert (E : x * (1 + mu * b2) = 1) by (unfold x; pose proof den_pos; field; lra). ring.
Qed.
Lemma r_from_w i : r i = w i + mu * (b2 * w i - br * b i).
Proof. unfold w, x. pose proof den_pos. field. lra. Qed.
(** |b x w|^2 = x^2 |b x r|^2 *)
Lemma cross_w : b2 * dot3 gamma w w - br * br = x * x * (b2 * r2 - br * br).
Proof.
  rewrite ww. unfold x. pose proof den_pos. field. lra.
Qed.
End W.

Section C.
Variables (alpha : R) (beta : vec) (g ginv gamma gi : mat) (sg sgg : R).
Hypothesis H : adm_consistent alpha beta g ginv gamma gi sg sgg.
Let T := adm_tpo _ _ _ _ _ _ _ _ H.
Let Sy := tpo_gsym _ _ _ _ T.
Let Pd := tpo_gpd _ _ _ _ T.
Let ap := tpo_lapse _ _ _ _ T.
Let sp : 0 < sg := proj1 (adm_det3 _ _ _ _ _ _ _ _ H).
Let cell := mkCell g gi beta sg alpha.

Variables (valencia mhd hasye : bool) (eos : EOS) (L : Limits) (c : Cons).

Let r := s_rcon cell c.
Let b := s_bu mhd L cell c.

Lemma lower_r i : (i < 3)%nat -> lower3 gamma r i = s_rcov c i.
Proof.
  intros Hi. unfold r, s_rcon. set (q := s_rcov c). clearbody q.
  assert (E : lower3 gamma (fun k => sum3 (fun j => gi k j * q j)) i
     = mul3 gamma gi i 0%nat * q 0%nat + mul3 gamma gi i 1%nat * q 1%nat + mul3 gamma gi i 2%nat * q 2%nat).
  { unfold lower3, mul3, sum3. ring. }
  change (c_gcon cell) with gi. rewrite E.
  rewrite !(fun j Hj => proj1 (adm_inv3 _ _ _ _ _ _ _ _ H i j Hi Hj)) by lia.
  idx; unfold delta; cbn; ring.
Qed.
Lemma dot_r u : sum3 (fun i => u i * s_rcov c i) = dot3 gamma u r.
Proof.
  rewrite (dot3_sym gamma u r Sy). transitivity (sum3 (fun i => u i * lower3 gamma r i)).
  - unfold sum3. rewrite !lower_r by lia. reflexivity.
  - unfold dot3, lower3, sum3. rewrite (Sy 1 0)%nat, (Sy 2 0)%nat, (Sy 2 1)%nat by lia. ring.
Qed.
Lemma F_rsq : s_rsq cell c = dot3 gamma r r.
Proof. unfold s_rsq. apply dot_r. Qed.
Lemma b_zero : mhd = false -> forall i, b i = 0.
Proof. intros E i. unfold b, s_bu. rewrite E. reflexivity. Qed.
Lemma F_bdotr : s_bdotr mhd L cell c = dot3 gamma b r.
Proof.
  unfold s_bdotr. fold b. destruct (bool_dec mhd true) as [E|E]; [|apply not_true_is_false in E]; rewrite E.
  - apply dot_r.
  - symmetry. apply dot3_zero. intros i _. apply b_zero; exact E.
Qed.
Lemma F_bsq : s_bsq mhd L cell c = dot3 gamma b b.
Proof.
  unfold s_bsq. fold b. destruct (bool_dec mhd true) as [E|E]; [|apply not_true_is_false in E]; rewrite E.
  - change (c_gcov4 cell) with g. rewrite (dot_block _ _ _ _ _ _ _ _ H). rewrite std_max_R. apply Rmax_right, pd_nonneg, Pd.
  - symmetry. apply dot3_zero. intros i _. apply b_zero; exact E.
Qed.
Lemma F_rbsq : s_rbsq mhd L cell c = dot3 gamma b r * dot3 gamma b r.
Proof.
  unfold s_rbsq. rewrite F_bdotr. destruct (bool_dec mhd true) as [E|E]; [|apply not_true_is_false in E]; rewrite E; [reflexivity|].
  rewrite (dot3_zero gamma b) by (intros i _; apply b_zero; exact E). ring.
Qed.
Lemma F_bsq_rpsq : s_bsq_rpsq mhd L cell c = dot3 gamma b b * dot3 gamma r r - dot3 gamma b r * dot3 gamma b r.
Proof.
  unfold s_bsq_rpsq. rewrite F_bsq, F_rsq, F_rbsq. destruct (bool_dec mhd true) as [E|E]; [|apply not_true_is_false in E]; rewrite E; [reflexivity|].
  rewrite !(dot3_zero gamma b) by (intros i _; apply b_zero; exact E). ring.
Qed.
Lemma B_of_b i : b i = s_B mhd cell c i * s_sD L cell c.
Proof. unfold b, s_bu. destruct mhd; [reflexivity|]. unfold s_B. ring. Qed.

Section AtMu.
Variable mu : R.
Hypothesis Hmu : 0 <= mu.
Let b2 := dot3 gamma b b.
Let br := dot3 gamma b r.
Let r2 := dot3 gamma r r.
Let x := 1 / (1 + mu * b2).
Let w : vec := fun i => x * (r i + mu * br * b i).

Lemma F_x : x_mu (s_bsq mhd L cell c) mu = x.
Proof.
  unfold x_mu. rewrite F_bsq. fold b2. apply gratio_nz. pose proof (den_pos gamma b mu Pd Hmu) as K. fold b2 in K. lra.
Qed.
Lemma F_rbar : rbarsq_mu (s_rsq cell c) (s_rbsq mhd L cell c) mu x = dot3 gamma w w.
Proof. unfold rbarsq_mu. rewrite F_rsq, F_rbsq. symmetry. apply (ww gamma b r mu Sy Pd Hmu). Qed.
Lemma F_qbar : qbar_mu (s_q valencia cell c) (s_bsq mhd L cell c) (s_bsq_rpsq mhd L cell c) mu x
  = s_q valencia cell c - / 2 * (b2 + mu * mu * (b2 * dot3 gamma w w - br * br)).
Proof.
  unfold qbar_mu. rewrite F_bsq, F_bsq_rpsq. pose proof (cross_w gamma b r mu Sy Pd Hmu) as K. fold b2 br r2 in K |- *.
  fold x in K. fold w in K. rewrite K. ring.
Qed.

Hypothesis Hg : 1 <= l_gam_max L.
Let rb := dot3 gamma w w.
Let v0 := s_v0sq L cell c.
Let V := Rmin (mu * mu * rb) v0.
Let iW := sqrt (1 - V).
Let W := 1 / iW.
Let D := s_D cell c.
Let flr := s_rhoflr L.
Let qbar := s_q valencia cell c - / 2 * (b2 + mu * mu * (b2 * rb - br * br)).
Let etrial := W * (qbar - mu * rb) + V * W * (W / (1 + W)).

Lemma r2_nonneg : 0 <= r2. Proof. apply pd_nonneg, Pd. Qed.
Lemma rb_nonneg : 0 <= rb. Proof. apply pd_nonneg, Pd. Qed.
Lemma v0_eq : v0 = Rmin (r2 / (1 + r2)) (1 - 1 / (l_gam_max L * l_gam_max L)).
Proof. unfold v0, s_v0sq. rewrite std_min_R, F_rsq. fold r2. rewrite div1. reflexivity. Qed.
Lemma v0_range : 0 <= v0 < 1.
Proof.
  rewrite v0_eq. pose proof r2_nonneg as R2. split.
  - apply Rmin_glb.
    + apply Rmult_le_pos; [lra|]. left; apply Rinv_0_lt_compat; lra.
    + assert (1 / (l_gam_max L * l_gam_max L) <= 1); [|lra].
      assert (1 <= l_gam_max L * l_gam_max L) by nra.
      apply Rmult_le_reg_r with (l_gam_max L * l_gam_max L); [lra|]. unfold Rdiv. rewrite Rmult_assoc, Rinv_l by lra. lra.
  - eapply Rle_lt_trans; [apply Rmin_l|]. apply Rmult_lt_reg_r with (1 + r2); [lra|].
    unfold Rdiv. rewrite Rmult_assoc, Rinv_l by lra. lra.
Qed.
Lemma V_range : 0 <= V < 1.
Proof.
  pose proof v0_range as K. pose proof rb_nonneg as K2. unfold V. split.
  - apply Rmin_glb; [|lra]. apply Rmult_le_pos; [apply Rmult_le_pos|]; assumption.
  - eapply Rle_lt_trans; [apply Rmin_r|]. lra.
Qed.
Lemma iW_range : 0 < iW <= 1.
Proof.
  pose proof V_range as K. unfold iW. split; [apply sqrt_lt_R0; lra|].
  pose proof (sqrt_le_1_alt (1 - V) 1 ltac:(lra)) as Q. rewrite sqrt_1 in Q. exact Q.
Qed.
Lemma iW_sq : iW * iW = 1 - V.
Proof. pose proof V_range as K. unfold iW. apply sqrt_sqrt. lra. Qed.
Lemma W_ge1 : 1 <= W.
Proof.
  pose proof iW_range as K. unfold W. apply Rmult_le_reg_r with iW; [lra|]. unfold Rdiv. rewrite Rmult_assoc, Rinv_l by lra. lra.
Qed.
Lemma gratio_W : gratio 1 W = iW.
Proof. pose proof iW_range as K. pose proof W_ge1. rewrite gratio_nz by lra. unfold W. field. lra. Qed.
Lemma F_vhat : vhatsq_mu v0 mu rb = (V, Rlt_bool v0 (mu * mu * rb)).
Proof.
  unfold vhatsq_mu, V. destruct (Rlt_bool_spec v0 (mu * mu * rb)) as [K|K].
  - rewrite Rmin_right by lra. reflexivity.
  - rewrite Rmin_left by lra. reflexivity.
Qed.
Lemma F_rhohat y : rhohat_mu D flr y = (Rmax (D * y) flr, Rle_bool (D * y) flr).
Proof.
  unfold rhohat_mu. destruct (Rle_bool_spec (D * y) flr) as [K|K].
  - rewrite Rmax_right by lra. reflexivity.
  - rewrite Rmax_left by lra. reflexivity.
Qed.
Let rho := Rmax (D * iW) flr.
Let efl := s_efl L rho.
Let sie := if Rle_bool etrial efl then efl else if Rlt_bool (l_e_max L) etrial then l_e_max L else etrial.
Lemma F_ehat : ehat_mu D flr (l_e_max L) (s_efl L) mu qbar rb V W =
  (sie, Rle_bool etrial efl, if Rle_bool etrial efl then false else Rlt_bool (l_e_max L) etrial).
Proof.
  unfold ehat_mu. rewrite gratio_W, F_rhohat. cbn [fst]. fold rho.
  pose proof W_ge1 as K. rewrite gratio_nz by lra. fold etrial efl. unfold sie.
  destruct (Rle_bool etrial efl); [reflexivity|]. destruct (Rlt_bool (l_e_max L) etrial); reflexivity.
Qed.

Let out := solve_at valencia mhd hasye eos L cell c mu.
Let ye := s_ye hasye c.

(** the stored state, for every conserved state and every mu >= 0 *)
Lemma solve_state :
  o_rho out = rho /\ o_eng out = sie * rho /\ (forall i, o_vel out i = W * mu * w i) /\
  o_B out = s_B mhd cell c /\ o_ye out = ye /\
  o_tmp out = eos_T eos rho sie ye /\ o_prs out = eos_PT eos rho (eos_T eos rho sie ye) ye /\
  o_gamma_maxed out = Rlt_bool v0 (mu * mu * rb) /\
  o_rho_floored out = Rle_bool (D * iW) flr /\
  o_e_floored out = Rle_bool etrial efl /\
  o_e_maxed out = (if Rle_bool etrial efl then false else Rlt_bool (l_e_max L) etrial).
Proof.
  unfold out, solve_at. rewrite F_x, F_rbar. fold rb v0. rewrite F_vhat, F_qbar. fold rb qbar. unfold iWhat_mu. fold iW D flr.
  rewrite F_rhohat. fold rho W. rewrite F_ehat, gratio_W, F_rhohat. cbn [snd o_rho o_eng o_vel o_B o_ye o_tmp o_prs o_gamma_maxed o_rho_floored o_e_floored o_e_maxed].
  fold ye. repeat split. intros i. rewrite F_bdotr. fold b r br. unfold w. ring.
Qed.
Lemma solve_cons :
  o_gamma_maxed out = false -> o_rho_floored out = false -> o_e_floored out = false -> o_e_maxed out = false ->
  cD (o_cons out) = cD c /\ cS (o_cons out) = cS c /\ cB (o_cons out) = cB c /\ ctau (o_cons out) = ctau c /\ cye (o_cons out) = cye c /\
  o_status out = c2p_success.
Proof.
  destruct solve_state as (_ & _ & _ & _ & _ & _ & _ & E1 & E2 & E3 & E4). rewrite E1, E2, E3, E4. intros N1 N2 N3 N4.
  unfold out, solve_at. rewrite F_x, F_rbar. fold rb v0. rewrite F_vhat, F_qbar. fold rb qbar. unfold iWhat_mu. fold iW D flr.
  rewrite F_rhohat. fold rho W. rewrite F_ehat, gratio_W, F_rhohat. cbn [snd]. rewrite N4, N1, N2, N3.
  cbn. rewrite !andb_false_r. repeat split.
Qed.

(** Lorentz factor of the stored velocity, clamped or not *)
Lemma stored_LF : GetLorentzFactor (o_vel out) gamma * GetLorentzFactor (o_vel out) gamma = 1 + W * W * (mu * mu * rb).
Proof.
  unfold GetLorentzFactor. destruct solve_state as (_ & _ & E & _).
  assert (K : sum3 (fun i => sum3 (fun j => gamma i j * o_vel out i * o_vel out j)) = W * W * (mu * mu * rb)).
  { unfold sum3. rewrite !E. unfold rb, dot3, sum3. ring. }
  rewrite K. apply sqrt_sqrt. pose proof rb_nonneg. assert (0 <= W * W) by apply Rle_0_sqr.
  assert (0 <= mu * mu) by apply Rle_0_sqr. assert (0 <= W * W * (mu * mu * rb)); [|lra].
  apply Rmult_le_pos; [assumption|]. apply Rmult_le_pos; assumption.
Qed.
Lemma W_sq : W * W = / (1 - V).
Proof. pose proof iW_sq as S2. pose proof iW_range. rewrite <- S2. unfold W. field. lra. Qed.
Lemma clamped_LF : o_gamma_maxed out = true ->
  / (1 - v0) < GetLorentzFactor (o_vel out) gamma * GetLorentzFactor (o_vel out) gamma.
Proof.
  rewrite stored_LF, W_sq. destruct solve_state as (_ & _ & _ & _ & _ & _ & _ & E & _). rewrite E.
  pose proof v0_range as R0. intros K. destruct (Rlt_bool_spec v0 (mu * mu * rb)) as [Q|Q]; [|discriminate].
  assert (EV : V = v0) by (unfold V; apply Rmin_right; lra). rewrite EV.
  assert (P : 0 < / (1 - v0)) by (apply Rinv_0_lt_compat; lra).
  assert (1 + / (1 - v0) * v0 = / (1 - v0)) by (field; lra). nra.
Qed.
Lemma unclamped_LF : o_gamma_maxed out = false -> GetLorentzFactor (o_vel out) gamma * GetLorentzFactor (o_vel out) gamma = / (1 - V) /\ V <= v0.
Proof.
  rewrite stored_LF, W_sq. destruct solve_state as (_ & _ & _ & _ & _ & _ & _ & E & _). rewrite E.
  pose proof V_range as R0. intros K. destruct (Rlt_bool_spec v0 (mu * mu * rb)) as [Q|Q]; [discriminate|].
  assert (EV : V = mu * mu * rb) by (unfold V; apply Rmin_left; lra). rewrite <- EV. split; [field; lra|]. unfold V. apply Rmin_r.
Qed.
(** floors and ceilings on density and energy, for every conserved state and mu *)
Lemma solve_bounds : flr <= o_rho out /\ (efl <= l_e_max L -> 0 < o_rho out ->
   s_efl L (o_rho out) <= o_eng out / o_rho out <= l_e_max L).
Proof.
  destruct solve_state as (E1 & E2 & _). rewrite E1, E2. split; [apply Rmax_r|]. intros K Kp.
  replace (sie * rho / rho) with sie by (field; lra). fold efl. unfold sie.
  destruct (Rle_bool_spec etrial efl) as [K1|K1]; [lra|]. destruct (Rlt_bool_spec (l_e_max L) etrial); lra.
Qed.

(** the residual *)
Let Ph := eos_P eos rho sie ye.
Let a := Ph / Rmax (rho * (1 + sie)) EPS.
Lemma F_res : s_residual valencia mhd hasye eos L cell c mu
  = mu - 1 / (Rmax ((1 + a) * (1 + sie) * iW) ((1 + a) * (1 + qbar - mu * rb)) + mu * rb).
Proof.
  unfold s_residual, residual. rewrite F_x, F_rbar. fold rb v0. rewrite F_vhat, F_qbar. cbn [fst]. fold rb qbar.
  unfold iWhat_mu. fold iW D flr. pose proof iW_range as K.
  rewrite (gratio_nz 1 iW) by lra. fold W. rewrite F_ehat, F_rhohat. cbn [fst]. fold rho ye.
  rewrite make_positive_R, std_max_R. fold Ph.
  replace (rho * (1 + sie) + Ph - Ph) with (rho * (1 + sie)) by ring. fold a. reflexivity.
Qed.

(** no magnetic field *)
Lemma hydro_b : mhd = false -> b2 = 0 /\ br = 0 /\ (forall i, w i = r i) /\ rb = r2.
Proof.
  intros E. assert (Z2 : b2 = 0) by (unfold b2; apply dot3_zero; intros i _; apply b_zero; exact E).
  assert (Zr : br = 0) by (unfold br; apply dot3_zero; intros i _; apply b_zero; exact E).
  assert (Ew : forall i, w i = r i) by (intros i; unfold w, x; rewrite Z2, Zr; field).
  repeat split; [exact Z2|exact Zr|exact Ew|]. unfold rb, r2. apply dot3_ext; intros i _; apply Ew.
Qed.
Lemma hydro_state : mhd = false ->
  let V := Rmin (mu * mu * r2) v0 in let iW := sqrt (1 - V) in let W := 1 / iW in
  let rho := Rmax (D * iW) flr in
  let et := W * (s_q valencia cell c - mu * r2) + V * W * (W / (1 + W)) in
  let sie := if Rle_bool et (s_efl L rho) then s_efl L rho else if Rlt_bool (l_e_max L) et then l_e_max L else et in
  o_rho out = rho /\ o_eng out = sie * rho /\ (forall i, o_vel out i = W * mu * r i) /\
  o_prs out = eos_PT eos rho (eos_T eos rho sie ye) ye /\
  o_gamma_maxed out = Rlt_bool v0 (mu * mu * r2) /\
  o_rho_floored out = Rle_bool (D * iW) flr /\
  o_e_floored out = Rle_bool et (s_efl L rho) /\
  o_e_maxed out = (if Rle_bool et (s_efl L rho) then false else Rlt_bool (l_e_max L) et) /\
  s_residual valencia mhd hasye eos L cell c mu
  = mu - 1 / (Rmax ((1 + eos_P eos rho sie ye / Rmax (rho * (1 + sie)) EPS) * (1 + sie) * iW)
                   ((1 + eos_P eos rho sie ye / Rmax (rho * (1 + sie)) EPS) * (1 + s_q valencia cell c - mu * r2)) + mu * r2).
Proof.
  intros E. destruct (hydro_b E) as (Z2 & Zr & Ew & Er). cbv zeta. rewrite F_res.
  assert (Q : s_q valencia cell c = qbar) by (unfold qbar; rewrite Z2, Zr; field).
  destruct solve_state as (E1 & E2 & E3 & _ & _ & _ & E6 & E7 & E8 & E9 & E10).
  rewrite <- Er, Q. repeat split; try assumption. intros i. rewrite E3, Ew. reflexivity.
Qed.

Section Signs.
Hypothesis He : 0 < l_e_max L.
Hypothesis Hfl : forall rho, s_rhoflr L <= rho -> 0 < s_efl L rho.
Hypothesis HP : forall rho e y, s_rhoflr L <= rho -> 0 < e -> 0 <= eos_P eos rho e y.
Lemma efl_pos : 0 < efl. Proof. unfold efl. apply Hfl. apply Rmax_r. Qed.
Lemma sie_pos : 0 < sie.
Proof.
  pose proof efl_pos as K. unfold sie. destruct (Rle_bool_spec etrial efl) as [K1|K1]; [exact K|].
  destruct (Rlt_bool_spec (l_e_max L) etrial); [exact He|lra].
Qed.
Lemma hh_gt1 : 1 < (1 + a) * (1 + sie).
Proof.
  pose proof sie_pos as K. assert (0 <= a); [|nra].
  unfold a, Rdiv. apply Rmult_le_pos; [apply HP; [apply Rmax_r|exact K]|].
  left; apply Rinv_0_lt_compat. pose proof EPS_pos. eapply Rlt_le_trans; [|apply Rmax_r]. lra.
Qed.
Lemma res_sign : (mu = 0 -> s_residual valencia mhd hasye eos L cell c mu < 0) /\
  (mu = 1 -> 0 < s_residual valencia mhd hasye eos L cell c mu) /\
  0 < Rmax ((1 + a) * (1 + sie) * iW) ((1 + a) * (1 + qbar - mu * rb)) + mu * rb.
Proof.
  rewrite F_res. pose proof hh_gt1 as K. pose proof iW_range as R1. pose proof iW_sq as R2. pose proof rb_nonneg as R3.
  assert (Vb : V <= mu * mu * rb) by apply Rmin_l.
  set (hh := (1 + a) * (1 + sie)) in *. set (nub := (1 + a) * _).
  pose proof (Rmax_l (hh * iW) nub) as M. assert (0 < hh * iW) by nra. assert (0 <= mu * rb) by nra.
  split; [|split]; [| |lra].
  - intros E. rewrite E in *. assert (0 < 1 / (Rmax (hh * iW) nub + 0 * rb)) by (apply Rdiv_lt_0_compat; lra). lra.
  - intros E. rewrite E in *. assert (1 < Rmax (hh * iW) nub + 1 * rb) by nra.
    assert (1 / (Rmax (hh * iW) nub + 1 * rb) < 1); [|lra].
    apply Rmult_lt_reg_r with (Rmax (hh * iW) nub + 1 * rb); [lra|]. unfold Rdiv. rewrite Rmult_assoc, Rinv_l by lra. lra.
Qed.
End Signs.

(** no limiter active *)
Section Free.
Hypothesis N1 : o_gamma_maxed out = false.
Hypothesis N2 : o_rho_floored out = false.
Hypothesis N3 : o_e_floored out = false.
Hypothesis N4 : o_e_maxed out = false.
Lemma free_V : V = mu * mu * rb.
Proof.
  destruct solve_state as (_ & _ & _ & _ & _ & _ & _ & E1 & _). rewrite E1 in N1.
  unfold V. apply Rmin_left. destruct (Rlt_bool_spec v0 (mu * mu * rb)); [discriminate|assumption].
Qed.
Lemma free_rho : rho = D * iW /\ flr < rho.
Proof.
  destruct solve_state as (_ & _ & _ & _ & _ & _ & _ & _ & E1 & _). rewrite E1 in N2.
  unfold rho. destruct (Rle_bool_spec (D * iW) flr) as [K|K]; [discriminate|]. rewrite Rmax_left by lra. split; [reflexivity|exact K].
Qed.
Lemma free_sie : sie = etrial.
Proof.
  destruct solve_state as (_ & _ & _ & _ & _ & _ & _ & _ & _ & E1 & E2). rewrite E1 in N3. rewrite E2 in N4.
  rewrite N3 in N4. unfold sie. rewrite N3, N4. reflexivity.
Qed.
Lemma free_e : (1 + sie) * iW = 1 + qbar - mu * rb.
Proof.
  rewrite free_sie. unfold etrial. pose proof iW_range as K. pose proof iW_sq as S2.
  unfold W. assert (E : V = 1 - iW * iW) by lra. rewrite E. field. lra.
Qed.
Lemma free_LF : GetLorentzFactor (o_vel out) gamma = W.
Proof.
  unfold GetLorentzFactor. destruct solve_state as (_ & _ & E & _).
  assert (K : sum3 (fun i => sum3 (fun j => gamma i j * o_vel out i * o_vel out j)) = W * W * (mu * mu * rb)).
  { unfold sum3. rewrite !E. unfold rb, dot3, sum3. ring. }
  rewrite K. rewrite <- free_V. pose proof iW_range as R1. pose proof iW_sq as S2.
  replace (1 + W * W * V) with (W * W); [apply sqrt_square; pose proof W_ge1; lra|].
  assert (Q : V = 1 - iW * iW) by lra. rewrite Q. unfold W. field. lra.
Qed.

Section Root.
Hypothesis Mp : 0 < mu.
Hypothesis Z : s_residual valencia mhd hasye eos L cell c mu = 0.
Hypothesis Gd : EPS <= rho * (1 + sie).
Let hh := (1 + a) * (1 + sie).
Lemma root_mu : mu * hh = iW.
Proof.
  rewrite F_res in Z.
  replace ((1 + a) * (1 + qbar - mu * rb)) with ((1 + a) * (1 + sie) * iW) in Z
    by (rewrite Rmult_assoc, free_e; reflexivity).
  rewrite Rmax_left in Z by lra. fold hh in Z.
  assert (Nz : hh * iW + mu * rb <> 0).
  { intros Q. rewrite Q in Z. unfold Rdiv in Z. rewrite Rinv_0 in Z. lra. }
  assert (E : mu * (hh * iW + mu * rb) = 1).
  { replace mu with (1 / (hh * iW + mu * rb)) at 1 by lra. field. exact Nz. }
  pose proof iW_range as R1. pose proof iW_sq as S2. rewrite free_V in S2.
  apply Rmult_eq_reg_r with iW; [|lra]. rewrite S2. lra.
Qed.
Lemma root_h : rho * hh = rho + sie * rho + Ph.
Proof.
  unfold hh, a. rewrite Rmax_left by exact Gd. pose proof EPS_pos. field. split; [|]; intros Q.
  all: rewrite Q in Gd; lra.
Qed.

Hypothesis Dp : 0 < D.
Variables (yep gm1 : R).
Let B := s_B mhd cell c.
Let N val := p2c val rho (o_vel out) B (sie * rho) yep Ph gm1 g gi beta alpha sg.

Lemma D_cons : cD c = sg * D. Proof. unfold D, s_D. cbn [c_gdet cell]. field. lra. Qed.
Lemma sD_val : s_sD L cell c = 1 / sqrt D.
Proof.
  unfold s_sD. fold D flr. rewrite std_max_R, Rmax_left; [reflexivity|].
  destruct free_rho as [E K]. pose proof iW_range. rewrite E in K. nra.
Qed.
Lemma B_scaled i : B i = sqrt D * b i.
Proof. unfold b. rewrite B_of_b. fold B. rewrite sD_val. pose proof (sqrt_lt_R0 D Dp). field. lra. Qed.
Lemma vel_w : forall i, o_vel out i * (1 / W) = mu * w i.
Proof. intros i. destruct solve_state as (_ & _ & E & _). rewrite E. pose proof W_ge1. field. lra. Qed.
Lemma W_iW : W * iW = 1. Proof. unfold W. pose proof iW_range. field. lra. Qed.
Lemma hWmu : hh * W * mu = 1.
Proof. pose proof root_mu as E. pose proof W_iW. nra. Qed.
Lemma rhoW : rho * W = D.
Proof. destruct free_rho as [E _]. rewrite E. pose proof W_iW. rewrite Rmult_assoc, (Rmult_comm iW), H0. ring. Qed.
Lemma dot_BB : dot3 gamma B B = D * b2.
Proof.
  transitivity (sqrt D * sqrt D * dot3 gamma b b); [|rewrite sqrt_sqrt by lra; reflexivity].
  unfold dot3, sum3. rewrite !B_scaled. ring.
Qed.
Lemma dot_Bv : dot3 gamma B (fun i => o_vel out i * (1 / W)) = sqrt D * mu * br.
Proof.
  assert (E : dot3 gamma b w = br) by exact (bw gamma b r mu Pd Hmu).
  rewrite <- E. unfold dot3, sum3. rewrite !B_scaled, !vel_w. ring.
Qed.

Lemma inv_D val : cD (N val) = cD c.
Proof. unfold N. rewrite (C_D _ _ _ _ _ _ _ _ H), free_LF, D_cons, <- rhoW. ring. Qed.
Lemma rWsq : (rho + sie * rho + Ph) * (W * W) * mu = D.
Proof.
  rewrite <- root_h. pose proof hWmu as E1. pose proof rhoW as E2.
  replace (rho * hh * (W * W) * mu) with (rho * W * (hh * W * mu)) by ring. rewrite E1, E2. ring.
Qed.
Lemma inv_S val m : (m < 3)%nat -> cS (N val) m = cS c m.
Proof.
  intros Hm. unfold N. rewrite (s_C_S _ _ _ _ _ _ _ _ H) by exact Hm. rewrite free_LF, dot_Bv, dot_BB.
  rewrite (lower3_ext gamma (fun i => o_vel out i * (1 / W)) (fun i => mu * w i + 0 * w i)) by (intros i Hi; rewrite vel_w; ring).
  rewrite (lower3_ext gamma B (fun i => sqrt D * b i + 0 * b i)) by (intros i Hi; rewrite B_scaled; ring).
  rewrite !lower3_lin.
  assert (E : cS c m = sg * D * lower3 gamma r m).
  { rewrite lower_r by exact Hm. unfold s_rcov. rewrite D_cons. assert (sg * D <> 0) by nra. rewrite gratio_nz by assumption. field. nra. }
  assert (Er : lower3 gamma r m = lower3 gamma w m + mu * (b2 * lower3 gamma w m - br * lower3 gamma b m)).
  { assert (K : forall i, r i = w i + mu * (b2 * w i - br * b i)) by (intros i; exact (r_from_w gamma b r mu Pd Hmu i)).
    transitivity (lower3 gamma (fun i => (1 + mu * b2) * w i + (- (mu * br)) * b i) m).
    - apply lower3_ext. intros i Hi. rewrite (K i). ring.
    - rewrite lower3_lin. ring. }
  rewrite E, Er. pose proof rWsq as K. pose proof (sqrt_sqrt D ltac:(lra)) as Sd.
  transitivity (sg * (((rho + sie * rho + Ph) * (W * W) * mu + mu * (D * b2)) * lower3 gamma w m - sqrt D * sqrt D * (mu * br) * lower3 gamma b m)); [ring|].
  rewrite K, Sd. ring.
Qed.
Lemma inv_tau_v : ctau (N true) / sg = s_tau valencia cell c.
Proof.
  unfold N. rewrite (s_C_tau _ _ _ _ _ _ _ _ H), free_LF, dot_Bv, dot_BB.
  assert (Eq : s_tau valencia cell c = D * s_q valencia cell c).
  { unfold s_q. fold D. rewrite gratio_nz by lra. field. lra. }
  assert (Q : s_q valencia cell c = qbar + / 2 * (b2 + mu * mu * (b2 * rb - br * br))) by (unfold qbar; ring).
  assert (Qb : qbar = (1 + sie) * iW - 1 + mu * rb) by (pose proof free_e; lra).
  pose proof iW_sq as S2. rewrite free_V in S2.
  pose proof rWsq as K1. pose proof rhoW as K2. pose proof W_iW as K3. pose proof root_mu as K4. pose proof root_h as K5.
  pose proof (sqrt_sqrt D ltac:(lra)) as Sd. pose proof iW_range as Ri.
  assert (E1 : (rho + sie * rho + Ph) * (W * W) = D / mu) by (rewrite <- K1; field; lra).
  assert (E2 : D * b2 / (2 * (W * W)) = D * b2 * (iW * iW) / 2) by (unfold W; field; lra).
  assert (E3 : sqrt D * mu * br * (sqrt D * mu * br) = D * (mu * mu * (br * br))) by (rewrite <- Sd at 3; ring).
  assert (E4 : sg * rho * W = sg * D) by (rewrite <- K2; ring).
  rewrite E1, E2, E3, E4, S2.
  assert (R0 : rho <> 0) by (intros Q0; rewrite Q0 in K2; lra).
  assert (E5 : Ph = rho * hh - rho - sie * rho) by lra.
  assert (E6 : rho = D * iW) by (apply (proj1 free_rho)).
  assert (E7 : mu * rb * mu = 1 - iW * iW) by lra.
  rewrite Eq, Q, Qb.
  transitivity (D * (/ mu - iW * hh + (1 + sie) * iW + b2 - b2 * (1 - mu * mu * rb) / 2 - mu * mu * (br * br) / 2 - 1)).
  - rewrite E5, E6. field. split; lra.
  - assert (E8 : hh = iW / mu) by (rewrite <- K4; field; lra).
    assert (E9 : mu * rb = (1 - iW * iW) / mu) by (rewrite <- E7; field; lra).
    assert (E10 : / mu - iW * hh = mu * rb) by (rewrite E8, E9; field; lra).
    rewrite E10. field.
Qed.
Lemma tau_affine : forall c1 c2 : Cons, cD c1 = cD c2 -> (forall m, (m < 3)%nat -> cS c1 m = cS c2 m) ->
  s_tau valencia cell c1 = s_tau valencia cell c2 -> ctau c1 = ctau c2.
Proof.
  intros c1 c2 ED ES Et. unfold s_tau in Et. destruct valencia.
  - cbn [c_gdet cell] in Et. apply Rmult_eq_reg_r with (1 / sg); [exact Et|].
    unfold Rdiv. rewrite Rmult_1_l. apply Rinv_neq_0_compat. lra.
  - unfold s_D, sum4 in Et. cbn [c_gdet c_lapse c_beta cell] in Et. rewrite !ES, ED in Et by lia.
    assert (K : (ctau c1 - ctau c2) * (1 / sg * (1 / alpha)) = 0) by lra.
    apply Rmult_integral in K. destruct K as [K|K]; [lra|].
    exfalso. assert (0 < 1 / sg * (1 / alpha)); [|lra]. apply Rmult_lt_0_compat; apply Rdiv_lt_0_compat; lra.
Qed.
Lemma inv_tau : ctau (N valencia) = ctau c.
Proof.
  apply tau_affine; [apply inv_D|intros; apply inv_S; assumption|].
  unfold N. unfold cell at 1. rewrite (s_tau_p2c _ _ _ _ _ _ _ _ H). apply inv_tau_v.
Qed.
Lemma root_stored : eos_PT eos rho (eos_T eos rho sie ye) ye = Ph ->
  let n := p2c valencia (o_rho out) (o_vel out) (o_B out) (o_eng out) yep (o_prs out) gm1 g gi beta alpha sg in
  cD n = cD c /\ (forall m, (m < 3)%nat -> cS n m = cS c m) /\ ctau n = ctau c /\
  (mhd = true -> forall m, (m < 3)%nat -> cB n m = cB c m) /\ (yep = ye -> hasye = true -> cye n = cye c).
Proof.
  intros Ec n. destruct solve_state as (E1 & E2 & _ & E3 & _ & _ & E4 & _).
  assert (En : n = N valencia) by (unfold n, N; rewrite E1, E2, E3, E4, Ec; reflexivity).
  rewrite En. split; [apply inv_D|]. split; [intros; apply inv_S; assumption|]. split; [apply inv_tau|]. split.
  - intros M m Hm. change (cB (N valencia) m) with (sg * B m). unfold B, s_B. rewrite M. cbn [c_gdet cell]. field. lra.
  - intros Ey Hy. change (cye (N valencia)) with (cD (N valencia) * yep). rewrite inv_D, Ey. unfold ye, s_ye. rewrite Hy.
    assert (cD c <> 0) by (rewrite D_cons; nra). rewrite gratio_nz by assumption. field. assumption.
Qed.
End Root.
End Free.

(** the conserved state of a physical primitive state, at mu = 1/(hW) *)
Section Fwd.
Variables (rho0 : R) (vp Bp : vec) (u0 ye0 p0 gm0 : R).
Hypothesis Hc : c = p2c valencia rho0 vp Bp u0 ye0 p0 gm0 g gi beta alpha sg.
Hypothesis HB : mhd = true \/ (forall i, (i < 3)%nat -> Bp i = 0).
Hypothesis Rp : 0 < rho0.
Hypothesis Up : 0 <= u0 + p0.
Let W0 := GetLorentzFactor vp gamma.
Let h := (rho0 + u0 + p0) / rho0.
Hypothesis Hm : mu = 1 / (h * W0).
Hypothesis HW : W0 <= l_gam_max L.
Hypothesis Hf : s_rhoflr L < rho0.

Let vv : vec := fun i => vp i * (1 / W0).
Let W01 : 1 <= W0 := lorentz_ge1 _ _ _ _ vp T.
Let D0 := rho0 * W0.
Let bb : vec := fun i => Bp i / sqrt D0.
Let c2 := dot3 gamma bb bb.
Let cv := dot3 gamma bb vv.
Let v2 := dot3 gamma vv vv.

Lemma h_ge1 : 1 <= h.
Proof. unfold h. apply Rmult_le_reg_r with rho0; [lra|]. unfold Rdiv. rewrite Rmult_assoc, Rinv_l by lra. lra. Qed.
Lemma D0p : 0 < D0. Proof. unfold D0. nra. Qed.
Lemma w_D : D = D0.
Proof. unfold D, s_D. rewrite Hc. rewrite (C_D _ _ _ _ _ _ _ _ H). fold W0. unfold D0. cbn [c_gdet cell]. field. lra. Qed.
Lemma w_B i : (i < 3)%nat -> s_B mhd cell c i = Bp i.
Proof.
  intros Hi. unfold s_B. destruct HB as [E|E].
  - rewrite E, Hc. change (cB (p2c _ _ _ _ _ _ _ _ _ _ _ _ _) i) with (sg * Bp i). cbn [c_gdet cell]. field. lra.
  - rewrite (E i Hi). destruct (bool_dec mhd true) as [Q|Q]; [|apply not_true_is_false in Q; rewrite Q; reflexivity].
    rewrite Q, Hc. change (cB (p2c _ _ _ _ _ _ _ _ _ _ _ _ _) i) with (sg * Bp i). rewrite (E i Hi). ring.
Qed.
Lemma w_sD : s_sD L cell c = 1 / sqrt D0.
Proof.
  unfold s_sD. fold D flr. rewrite w_D, std_max_R, Rmax_left; [reflexivity|]. unfold flr, D0. nra.
Qed.
Lemma w_b : eq3 b bb.
Proof. intros i Hi. unfold b. rewrite B_of_b, w_B, w_sD by exact Hi. unfold bb. unfold Rdiv. ring. Qed.
Lemma sDp : 0 < sqrt D0. Proof. apply sqrt_lt_R0, D0p. Qed.
Lemma B_bb i : Bp i = sqrt D0 * bb i. Proof. unfold bb. pose proof sDp. field. lra. Qed.
Lemma w_rcov i : (i < 3)%nat -> s_rcov c i = lower3 gamma (fun j => (h * W0 + c2) * vv j + (- cv) * bb j) i.
Proof.
  intros Hi. unfold s_rcov. assert (Dc : cD c = sg * D0) by (rewrite Hc, (C_D _ _ _ _ _ _ _ _ H); fold W0; unfold D0; ring).
  rewrite Dc. pose proof D0p as Dp0. assert (Nz : sg * D0 <> 0) by nra. rewrite gratio_nz by exact Nz.
  rewrite Hc, (s_C_S _ _ _ _ _ _ _ _ H) by exact Hi. fold W0. fold vv.
  assert (E1 : dot3 gamma Bp Bp = D0 * c2).
  { transitivity (sqrt D0 * sqrt D0 * c2); [|rewrite sqrt_sqrt by lra; reflexivity].
    unfold c2, dot3, sum3. rewrite !B_bb. ring. }
  assert (E2 : dot3 gamma Bp vv = sqrt D0 * cv) by (unfold cv, dot3, sum3; rewrite !B_bb; ring).
  assert (E3 : lower3 gamma Bp i = sqrt D0 * lower3 gamma bb i) by (unfold lower3, sum3; rewrite !B_bb; ring).
  rewrite E1, E2, E3, lower3_lin.
  assert (E4 : rho0 + u0 + p0 = rho0 * h) by (unfold h; field; lra). rewrite E4.
  transitivity (((rho0 * h * (W0 * W0) + D0 * c2) * lower3 gamma vv i - sqrt D0 * sqrt D0 * (cv * lower3 gamma bb i)) / D0).
  - field. split; [lra|lra].
  - rewrite sqrt_sqrt by lra. unfold D0. field. split; lra.
Qed.
Lemma w_r : eq3 r (fun j => (h * W0 + c2) * vv j + (- cv) * bb j).
Proof.
  intros i Hi. unfold r, s_rcon. change (c_gcon cell) with gi. set (z := fun j : nat => (h * W0 + c2) * vv j + (- cv) * bb j). change (sum3 (fun j => gi i j * s_rcov c j) = z i).
  transitivity (sum3 (fun j => gi i j * lower3 gamma z j)).
  - unfold sum3. rewrite !w_rcov by lia. reflexivity.
  - assert (E : sum3 (fun j => gi i j * lower3 gamma z j) = mul3 gi gamma i 0%nat * z 0%nat + mul3 gi gamma i 1%nat * z 1%nat + mul3 gi gamma i 2%nat * z 2%nat).
    { unfold lower3, mul3, sum3. ring. }
    rewrite E, !(fun j Hj => proj2 (adm_inv3 _ _ _ _ _ _ _ _ H i j Hi Hj)) by lia.
    clearbody z. idx; unfold delta; cbn; ring.
Qed.
Lemma w_b2 : b2 = c2. Proof. unfold b2, c2. apply dot3_ext; apply w_b. Qed.
Lemma w_br : br = h * W0 * cv.
Proof.
  unfold br. rewrite (dot3_ext gamma _ _ _ _ w_b w_r), dot3_linr. fold cv c2. ring.
Qed.
Lemma hWp : 1 <= h * W0. Proof. pose proof h_ge1. nra. Qed.
Lemma w_w : eq3 w (fun i => h * W0 * vv i).
Proof.
  intros i Hi. unfold w, x. rewrite (w_r i Hi), (w_b i Hi), w_b2, w_br, Hm. pose proof hWp as K.
  assert (0 <= c2) by (apply pd_nonneg, Pd). field. split; nra.
Qed.
Lemma w_v2 : v2 = 1 - 1 / (W0 * W0).
Proof.
  unfold v2. assert (E : dot3 gamma vv vv = dot3 gamma vp vp / (W0 * W0)) by (unfold vv, dot3, sum3; field; lra).
  pose proof (lorentz_sq _ _ _ _ vp T) as K. fold W0 in K. rewrite E. replace (dot3 gamma vp vp) with (W0 * W0 - 1) by lra. field. lra.
Qed.
Lemma w_rb : rb = h * W0 * (h * W0) * v2.
Proof. unfold rb. rewrite (dot3_ext gamma _ _ _ _ w_w w_w). unfold v2, dot3, sum3. ring. Qed.
Lemma w_trial : mu * mu * rb = v2.
Proof. rewrite w_rb, Hm. pose proof hWp. field. nra. Qed.
Lemma w_r2 : W0 * W0 - 1 <= r2.
Proof.
  assert (E : r2 = h * W0 * (h * W0) * v2 + (2 * (h * W0) + c2) * (c2 * v2 - cv * cv)).
  { unfold r2. rewrite (dot3_ext gamma _ _ _ _ w_r w_r), dot3_lin, !dot3_linr. rewrite (dot3_sym gamma vv bb Sy). fold cv c2 v2. ring. }
  pose proof (cauchy_schwarz gamma Sy Pd bb vv) as CS. fold cv c2 v2 in CS.
  pose proof hWp as K. assert (C0 : 0 <= c2) by (apply pd_nonneg, Pd). assert (V0 : 0 <= v2) by (apply pd_nonneg, Pd).
  pose proof h_ge1 as h1.
  assert (0 <= (2 * (h * W0) + c2) * (c2 * v2 - cv * cv)) by (apply Rmult_le_pos; lra).
  assert (E2 : W0 * W0 * v2 = W0 * W0 - 1) by (rewrite w_v2; field; lra).
  assert (W0 * W0 * v2 <= h * W0 * (h * W0) * v2).
  { apply Rmult_le_compat_r; [exact V0|]. assert (W0 <= h * W0) by nra. nra. }
  lra.
Qed.
Lemma w_free : v2 <= v0.
Proof.
  rewrite v0_eq, w_v2. pose proof w_r2 as K. apply Rmin_glb.
  - assert (E : r2 / (1 + r2) = 1 - / (1 + r2)) by (field; nra). rewrite E.
    assert (/ (1 + r2) <= / (W0 * W0)) by (apply Rinv_le_contravar; nra). unfold Rdiv. lra.
  - assert (/ (l_gam_max L * l_gam_max L) <= / (W0 * W0)) by (apply Rinv_le_contravar; nra). unfold Rdiv. lra.
Qed.
Lemma w_V : V = v2. Proof. unfold V. rewrite w_trial. apply Rmin_left, w_free. Qed.
Lemma w_iW : iW = 1 / W0.
Proof.
  unfold iW. rewrite w_V, w_v2. replace (1 - (1 - 1 / (W0 * W0))) with (1 / W0 * (1 / W0)) by (field; lra).
  apply sqrt_square. left. apply Rdiv_lt_0_compat; lra.
Qed.
Lemma w_W : W = W0. Proof. unfold W. rewrite w_iW. field. lra. Qed.
Lemma w_rho : rho = rho0.
Proof.
  unfold rho. rewrite w_D, w_iW. replace (D0 * (1 / W0)) with rho0 by (unfold D0; field; lra). apply Rmax_left. fold flr in Hf. lra.
Qed.
Lemma w_q : s_q valencia cell c = h * W0 - p0 / D0 - 1 + c2 - c2 / (2 * (W0 * W0)) - cv * cv / 2.
Proof.
  unfold s_q. fold D. rewrite w_D. pose proof D0p as Dp0. rewrite gratio_nz by lra.
  rewrite Hc. unfold cell. rewrite (s_tau_p2c _ _ _ _ _ _ _ _ H), (s_C_tau _ _ _ _ _ _ _ _ H). fold W0. fold vv.
  assert (E1 : dot3 gamma Bp Bp = D0 * c2).
  { transitivity (sqrt D0 * sqrt D0 * c2); [|rewrite sqrt_sqrt by lra; reflexivity].
    unfold c2, dot3, sum3. rewrite !B_bb. ring. }
  assert (E2 : dot3 gamma Bp vv * dot3 gamma Bp vv = D0 * (cv * cv)).
  { transitivity (sqrt D0 * sqrt D0 * (cv * cv)); [|rewrite sqrt_sqrt by lra; reflexivity].
    unfold cv, dot3, sum3. rewrite !B_bb. ring. }
  rewrite E1, E2. unfold h, D0. field. repeat split; lra.
Qed.
Lemma w_qbar : qbar = h * W0 - p0 / D0 - 1.
Proof.
  unfold qbar. rewrite w_q, w_b2, w_br, w_rb, w_v2, Hm. pose proof hWp as K. pose proof D0p. field. repeat split; try lra; nra.
Qed.
Lemma w_etrial : etrial = u0 / rho0.
Proof.
  unfold etrial. rewrite w_W, w_qbar, w_V, w_rb, w_v2, Hm. pose proof hWp as K. unfold h, D0 in *.
  field. repeat split; try lra; try nra.
Qed.
Hypothesis Hef : s_efl L rho0 < u0 / rho0.
Hypothesis Hem : u0 / rho0 <= l_e_max L.
Lemma w_sie : sie = u0 / rho0.
Proof.
  unfold sie, efl. rewrite w_rho, w_etrial. rewrite Rle_bool_false by exact Hef. rewrite Rlt_bool_false by exact Hem. reflexivity.
Qed.
Lemma w_ye : ye = if hasye then ye0 else / 2.
Proof.
  unfold ye, s_ye. destruct hasye; [|reflexivity]. rewrite Hc.
  change (cye (p2c _ _ _ _ _ _ _ _ _ _ _ _ _)) with (cD (p2c valencia rho0 vp Bp u0 ye0 p0 gm0 g gi beta alpha sg) * ye0).
  rewrite <- Hc. assert (Dc : cD c = sg * D0) by (rewrite Hc, (C_D _ _ _ _ _ _ _ _ H); fold W0; unfold D0; ring).
  rewrite Dc. pose proof D0p. assert (sg * D0 <> 0) by nra. rewrite gratio_nz by assumption. field. split; lra.
Qed.
Lemma w_flags : o_gamma_maxed out = false /\ o_rho_floored out = false /\ o_e_floored out = false /\ o_e_maxed out = false.
Proof.
  destruct solve_state as (_ & _ & _ & _ & _ & _ & _ & E1 & E2 & E3 & E4). rewrite E1, E2, E3, E4.
  unfold efl. rewrite w_trial, w_rho, w_etrial. rewrite (Rlt_bool_false v0) by apply w_free.
  rewrite (Rle_bool_false (u0 / rho0)) by exact Hef. rewrite Rlt_bool_false by exact Hem.
  rewrite Rle_bool_false; [repeat split|]. rewrite w_D, w_iW. replace (D0 * (1 / W0)) with rho0 by (unfold D0; field; lra). exact Hf.
Qed.
Hypothesis HP : p0 = eos_P eos rho0 (u0 / rho0) (if hasye then ye0 else / 2).
Hypothesis HE : EPS <= rho0 + u0.
Lemma w_res : s_residual valencia mhd hasye eos L cell c mu = 0.
Proof.
  rewrite F_res. unfold a, Ph. rewrite w_rho, w_sie, w_ye, <- HP, w_iW, w_qbar, w_rb.
  pose proof EPS_pos as Ep. pose proof hWp as K. pose proof h_ge1 as h1.
  replace (rho0 * (1 + u0 / rho0)) with (rho0 + u0) by (field; lra). rewrite (Rmax_left (rho0 + u0)) by exact HE.
  assert (E1 : (1 + p0 / (rho0 + u0)) * (1 + u0 / rho0) * (1 / W0) = h / W0) by (unfold h; field; repeat split; lra).
  assert (E2 : (1 + p0 / (rho0 + u0)) * (1 + (h * W0 - p0 / D0 - 1) - mu * (h * W0 * (h * W0) * v2)) = h / W0).
  { rewrite w_v2, Hm. unfold D0, h. field. repeat split; try lra. }
  rewrite E1, E2. rewrite Rmax_left by lra. rewrite w_v2, Hm. field. repeat split; try lra.
  all: try (apply Rgt_not_eq; nra).
Qed.
(** with the guard on the energy density active *)
Lemma w_res_guard : 0 < p0 -> 0 < rho0 + u0 < EPS -> s_residual valencia mhd hasye eos L cell c mu < 0.
Proof.
  clear HE. intros Pp Ge. rewrite F_res. unfold a, Ph. rewrite w_rho, w_sie, w_ye, <- HP, w_iW, w_qbar, w_rb.
  pose proof EPS_pos as Ep. pose proof hWp as K. pose proof h_ge1 as h1.
  replace (rho0 * (1 + u0 / rho0)) with (rho0 + u0) by (field; lra). rewrite (Rmax_right (rho0 + u0)) by lra.
  set (A := p0 / EPS).
  assert (A1 : 0 < A) by (apply Rdiv_lt_0_compat; lra).
  assert (A2 : A < p0 / (rho0 + u0)).
  { unfold A, Rdiv. apply Rmult_lt_compat_l; [exact Pp|]. apply Rinv_lt_contravar; [|lra]. apply Rmult_lt_0_compat; lra. }
  set (e1 := (rho0 + u0) / rho0 / W0). assert (E1p : 0 < e1) by (apply Rdiv_lt_0_compat; [apply Rdiv_lt_0_compat|]; lra).
  assert (E1 : (1 + A) * (1 + u0 / rho0) * (1 / W0) = (1 + A) * e1) by (unfold e1; field; repeat split; lra).
  assert (E2 : (1 + A) * (1 + (h * W0 - p0 / D0 - 1) - mu * (h * W0 * (h * W0) * v2)) = (1 + A) * e1).
  { rewrite w_v2, Hm. unfold e1, D0, h. field. repeat split; try lra. }
  rewrite E1, E2. rewrite Rmax_left by lra.
  assert (V2p : 0 <= v2) by (apply pd_nonneg, Pd).
  assert (E3 : mu * (h * W0 * (h * W0) * v2) = h * W0 * v2) by (rewrite Hm; field; nra). rewrite E3.
  assert (V3 : 0 <= h * W0 * v2) by (apply Rmult_le_pos; lra).
  assert (E4 : h * W0 = (1 + p0 / (rho0 + u0)) * e1 + h * W0 * v2).
  { rewrite w_v2. unfold e1, h. field. repeat split; try lra. }
  assert (X1 : 0 < (1 + A) * e1) by (apply Rmult_lt_0_compat; lra).
  assert (X2 : (1 + A) * e1 < (1 + p0 / (rho0 + u0)) * e1) by (apply Rmult_lt_compat_r; lra).
  rewrite Hm. assert (1 / (h * W0) < 1 / ((1 + A) * e1 + h * W0 * v2)); [|lra].
  unfold Rdiv. rewrite !Rmult_1_l. apply Rinv_lt_contravar; [apply Rmult_lt_0_compat; lra|lra].
Qed.
Lemma w_out : let y := if hasye then ye0 else / 2 in
  o_rho out = rho0 /\ o_eng out = u0 /\ eq3 (o_vel out) vp /\ eq3 (o_B out) Bp /\ o_ye out = y /\
  o_prs out = eos_PT eos rho0 (eos_T eos rho0 (u0 / rho0) y) y.
Proof.
  intros y. destruct solve_state as (E1 & E2 & E3 & E4 & E5 & _ & E6 & _).
  rewrite E1, E2, E5, E6, w_rho, w_sie, w_ye. split; [reflexivity|]. split; [field; lra|]. split; [|split; [|split; reflexivity]].
  - intros i Hi. rewrite E3, w_W, (w_w i Hi). unfold vv. rewrite Hm. pose proof hWp. field. nra.
  - intros i Hi. rewrite E4. apply w_B, Hi.
Qed.
End Fwd.
End AtMu.
End C.
