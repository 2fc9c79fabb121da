(** C18: the primitive-conserved-primitive round trip of con2prim_robust. *)
From Coq Require Import Reals Arith ZArith Lia Lra Psatz Bool.
From Coquelicot Require Import Coquelicot.
From Flocq Require Import Core.
From Verif.Spec Require Import Tensor GeomSpec SystemSpec RootSpec Relativity GRMHD.
From Verif.Model Require Import Num Robust Geometry Relativity Prim2Con RootFind Con2PrimRobust.
From Verif.Proofs Require Import NumR RobustProofs TensorTac LinearAlgebraProofs GeomBase AdmProofs RelProofs
  RelativityProofs Prim2ConProofs P2CSimple RootFindProofs FlatWitness Con2PrimProofs C2PSolve.
Local Open Scope R_scope.

(** A primitive state the inversion can be expected to recover: positive density,
    rho + u + p >= rho, inside the floors and ceilings of the cell, the pressure being
    that of the equation of state.  rho + u is at least EPS = 10 * 2^-52 in code units. *)
Record recoverable (gamma : mat) (eos : EOS) (L : Limits) (ye_eff rho : R) (vp : vec) (u p : R) : Prop := {
  rec_rho : 0 < rho;
  rec_h : 0 <= u + p;
  rec_W : GetLorentzFactor vp gamma <= l_gam_max L;
  rec_rho_floor : fst (l_floors L 0) * l_fac L < rho;
  rec_e_floor : snd (l_floors L rho) * l_fac L < u / rho;
  rec_e_max : u / rho <= l_e_max L;
  rec_p : p = eos_P eos rho (u / rho) ye_eff;
  rec_eps : (EPS : R) <= rho + u }.

(** the equation of state gives the same pressure from the energy as from the temperature *)
Definition eos_consistent (eos : EOS) : Prop :=
  forall rho e y, eos_PT eos rho (eos_T eos rho e y) y = eos_P eos rho e y.

Theorem C18_round_trip : forall alpha beta g ginv gamma gi sg sgg,
  adm_consistent alpha beta g ginv gamma gi sg sgg ->
  forall (valencia mhd hasye : bool) (eos : EOS) (L : Limits) rho vp B u ye p gam1,
  let ye_eff := if hasye then ye else / 2 in
  recoverable gamma eos L ye_eff rho vp u p -> eos_consistent eos ->
  mhd = true \/ (forall i, (i < 3)%nat -> B i = 0) ->
  let cell := mkCell g gi beta sg alpha in
  let C := p2c valencia rho vp B u ye p gam1 g gi beta alpha sg in
  let h := (rho + u + p) / rho in
  let mu := 1 / (h * GetLorentzFactor vp gamma) in
  let out := solve_at valencia mhd hasye eos L cell C mu in
  s_residual valencia mhd hasye eos L cell C mu = 0 /\
  o_rho out = rho /\ o_eng out = u /\ eq3 (o_vel out) vp /\ eq3 (o_B out) B /\
  o_ye out = ye_eff /\ o_prs out = p /\
  cD (o_cons out) = cD C /\ cS (o_cons out) = cS C /\ cB (o_cons out) = cB C /\
  ctau (o_cons out) = ctau C /\ cye (o_cons out) = cye C /\
  o_status out = c2p_success.
Proof.
  intros alpha beta g ginv gamma gi sg sgg H val mhd hasye eos L rho vp B u ye p gam1 ye_eff Rc Ec HB cell C h mu out.
  destruct Rc as [r1 r2 r3 r4 r5 r6 r7 r8].
  pose proof (lorentz_ge1 _ _ _ _ vp (adm_tpo _ _ _ _ _ _ _ _ H)) as W1.
  assert (Hg : 1 <= l_gam_max L) by lra.
  assert (h1 : 1 <= h) by (exact (h_ge1 rho u p r1 r2)).
  assert (Hm : 0 <= mu). { unfold mu. left. apply Rdiv_lt_0_compat; [lra|]. nra. }
  pose proof (w_res _ _ _ _ _ _ _ _ H val mhd hasye eos L C mu Hm Hg rho vp B u ye p gam1 eq_refl HB r1 r2 eq_refl r3 r4 r5 r6 r7 r8) as Z.
  pose proof (w_flags _ _ _ _ _ _ _ _ H val mhd hasye eos L C mu Hm Hg rho vp B u ye p gam1 eq_refl HB r1 r2 eq_refl r3 r4 r5 r6) as (N1 & N2 & N3 & N4).
  pose proof (solve_cons _ _ _ _ _ _ _ _ H val mhd hasye eos L C mu Hm Hg N1 N2 N3 N4) as K.
  pose proof (w_out _ _ _ _ _ _ _ _ H val mhd hasye eos L C mu Hm Hg rho vp B u ye p gam1 eq_refl HB r1 r2 eq_refl r3 r4 r5 r6) as (O1 & O2 & O3 & O4 & O5 & O6).
  split; [exact Z|]. split; [exact O1|]. split; [exact O2|]. split; [exact O3|]. split; [exact O4|]. split; [exact O5|].
  split; [|exact K]. unfold out, cell. rewrite O6, Ec. symmetry. exact r7.
Qed.
Print Assumptions C18_round_trip.

(** The other direction, for every conserved state (it need not come from p2c): whenever mu
    is a root of the residual and no limiter acts, the stored primitives are a preimage of
    the conserved state under p2c.  So an accepted inversion is a correct one. *)
Theorem C18_inverse : forall alpha beta g ginv gamma gi sg sgg,
  adm_consistent alpha beta g ginv gamma gi sg sgg ->
  forall (valencia mhd hasye : bool) (eos : EOS) (L : Limits) (c : Cons) mu gam1,
  let cell := mkCell g gi beta sg alpha in
  let out := solve_at valencia mhd hasye eos L cell c mu in
  eos_consistent eos -> 1 <= l_gam_max L -> 0 < cD c -> 0 < mu ->
  s_residual valencia mhd hasye eos L cell c mu = 0 ->
  o_gamma_maxed out = false -> o_rho_floored out = false -> o_e_floored out = false -> o_e_maxed out = false ->
  (EPS : R) <= o_rho out + o_eng out ->
  let n := p2c valencia (o_rho out) (o_vel out) (o_B out) (o_eng out) (o_ye out) (o_prs out) gam1 g gi beta alpha sg in
  cD n = cD c /\ eq3 (cS n) (cS c) /\ ctau n = ctau c /\
  (mhd = true -> eq3 (cB n) (cB c)) /\ (hasye = true -> cye n = cye c).
Proof.
  intros alpha beta g ginv gamma gi sg sgg H val mhd hasye eos L c mu gam1 cell out Ec Hg Dp Mp Z N1 N2 N3 N4 Ge n.
  assert (Hm : 0 <= mu) by lra. pose proof (proj1 (adm_det3 _ _ _ _ _ _ _ _ H)) as sp.
  assert (Dp' : 0 < s_D cell c). { unfold s_D, cell; cbn [c_gdet]. apply Rmult_lt_0_compat; [exact Dp|]. apply Rdiv_lt_0_compat; lra. }
  pose proof (solve_state _ _ _ _ _ _ _ _ H val mhd hasye eos L c mu Hm Hg) as (S1 & S2 & _ & _ & S5 & _).
  pose proof (root_stored _ _ _ _ _ _ _ _ H val mhd hasye eos L c mu Hm Hg N1 N2 N3 N4 Mp Z) as K.
  fold cell in K, S1, S2, S5. fold out in K, S1, S2, S5.
  specialize (K ltac:(rewrite <- S1; revert Ge; rewrite S2, <- S1; intros Ge; lra) Dp' (o_ye out) gam1 (Ec _ _ _)).
  destruct K as (K1 & K2 & K3 & K4 & K5).
  split; [exact K1|]. split; [intros m Hm'; exact (K2 m Hm')|]. split; [exact K3|]. split.
  - intros M m Hm'. exact (K4 M m Hm').
  - intros Y. exact (K5 S5 Y).
Qed.
Print Assumptions C18_inverse.

(** Floors and ceilings as the code expects them, and an equation of state with
    non-negative continuous pressure above the floors. *)
Record usable_limits (eos : EOS) (L : Limits) : Prop := {
  us_gam : 1 <= l_gam_max L;
  us_emax : 0 < l_e_max L;
  us_efl : forall rho, s_rhoflr L <= rho -> 0 < s_efl L rho <= l_e_max L;
  us_eflc : forall rho, s_rhoflr L <= rho -> continuous (s_efl L) rho;
  us_P : forall rho e y, s_rhoflr L <= rho -> 0 < e -> 0 <= eos_P eos rho e y;
  us_Pc : forall rho e y, s_rhoflr L <= rho -> 0 < e -> continuous (fun z : R * R => eos_P eos (fst z) (snd z) y) (rho, e) }.

(** For EVERY conserved state - any sign of D, tau, any S and B, physical or not - the
    inversion terminates normally with mu in [0,1]; an exact root exists there; and if the
    iteration stopped before the limit, mu is within the tolerance of an exact root. *)
Theorem C18_solve_total : forall alpha beta g ginv gamma gi sg sgg,
  adm_consistent alpha beta g ginv gamma gi sg sgg ->
  forall (valencia mhd hasye : bool) (eos : EOS) (L : Limits) (c : Cons) (max_iter : Z) tol guess,
  let cell := mkCell g gi beta sg alpha in
  let f := s_residual valencia mhd hasye eos L cell c in
  usable_limits eos L -> 0 <= tol -> (0 <= max_iter)%Z ->
  (exists r, 0 < r < 1 /\ f r = 0) /\
  exists mu rf tr,
    regula_falsi f (new_RootFind max_iter) 0 1 tol guess false = Returned mu None rf tr /\
    solve valencia mhd hasye eos L cell c max_iter tol guess = Some (solve_at valencia mhd hasye eos L cell c mu) /\
    0 <= mu <= 1 /\
    ((iteration_count rf < max_iter)%Z -> exists r, 0 < r < 1 /\ f r = 0 /\ Rabs (mu - r) <= tol).
Proof.
  intros alpha beta g ginv gamma gi sg sgg H val mhd hasye eos L c mx tol guess cell f U Ht Hmx.
  destruct U as [u1 u2 u3 u4 u5 u6].
  assert (F0 : f 0 < 0) by exact (res0 _ _ _ _ _ _ _ _ H val mhd hasye eos L c u1 u2 (fun r h => proj1 (u3 r h)) u5).
  assert (F1 : 0 < f 1) by exact (res1 _ _ _ _ _ _ _ _ H val mhd hasye eos L c u1 u2 (fun r h => proj1 (u3 r h)) u5).
  assert (Cf : continuous_on f 0 1) by
    exact (res_cont_on _ _ _ _ _ _ _ _ H val mhd hasye eos L c u1 u2 (fun r h => proj1 (u3 r h)) u5 (fun r h => proj2 (u3 r h)) u4 u6).
  assert (Open : forall r, 0 <= r <= 1 -> f r = 0 -> 0 < r < 1).
  { intros r Hr Hz. split.
    - destruct (Req_dec r 0) as [Q|Q]; [rewrite Q in Hz; lra|lra].
    - destruct (Req_dec r 1) as [Q|Q]; [rewrite Q in Hz; lra|lra]. }
  split.
  - destruct (Ranalysis5.IVT_interv f 0 1) as (r & Hr & Hz); [intros x Hx; apply Cf; exact Hx|lra|exact F0|exact F1|].
    exists r. split; [apply Open; assumption|exact Hz].
  - destruct (regula_bracketed f (new_RootFind mx) 0 1 tol guess Ht Rle_0_1 Hmx F0 F1) as (x & rf & tr & E & Hin & Hnear).
    exists x, rf, tr. split; [exact E|]. split; [unfold solve; fold f; rewrite E; reflexivity|]. split; [exact Hin|].
    intros Hc. destruct (Hnear Cf Hc) as (r & Hr & Hz & Hd). exists r. split; [apply Open; assumption|]. split; assumption.
Qed.
Print Assumptions C18_solve_total.

(** The limiter-free inversion also returns a consistent velocity for EVERY mu: the Lorentz
    factor of the stored velocity is the one used for rho and the energy. *)
Theorem C18_velocity_consistent : forall alpha beta g ginv gamma gi sg sgg,
  adm_consistent alpha beta g ginv gamma gi sg sgg ->
  forall (valencia mhd hasye : bool) (eos : EOS) (L : Limits) (c : Cons) mu,
  let out := solve_at valencia mhd hasye eos L (mkCell g gi beta sg alpha) c mu in
  1 <= l_gam_max L -> 0 <= mu -> o_gamma_maxed out = false -> o_rho_floored out = false ->
  o_rho out * GetLorentzFactor (o_vel out) gamma * sg = cD c.
Proof.
  intros alpha beta g ginv gamma gi sg sgg H val mhd hasye eos L c mu out Hg Hm N1 N2.
  pose proof (proj1 (adm_det3 _ _ _ _ _ _ _ _ H)) as sp.
  pose proof (free_LF _ _ _ _ _ _ _ _ H val mhd hasye eos L c mu Hm Hg N1) as K. fold out in K.
  pose proof (proj1 (free_rho _ _ _ _ _ _ _ _ H val mhd hasye eos L c mu Hm Hg N2)) as K2.
  pose proof (proj1 (solve_state _ _ _ _ _ _ _ _ H val mhd hasye eos L c mu Hm Hg)) as K3. fold out in K3.
  rewrite K, K3, K2. pose proof (W_iW _ _ _ _ _ _ _ _ H mhd L c mu Hm Hg) as WI.
  match goal with |- s_D ?cl c * ?a * ?w * sg = _ => transitivity (s_D cl c * (w * a) * sg); [ring|]; replace (w * a) with 1 by (symmetry; exact WI) end.
  unfold s_D; cbn [c_gdet]. field. lra.
Qed.
Print Assumptions C18_velocity_consistent.

(** ** concrete cases: flat space, an ideal gas with Gamma = 2 *)
Definition gas2 : EOS := mkEOS (fun rho e _ => rho * e) (fun _ e _ => e) (fun rho T _ => rho * T) (fun rho T _ => 2 * rho * T).
Definition lim (rf ef gmax emax : R) : Limits := mkLimits (fun _ => (rf, ef)) gmax emax 1 false false.
Definition flat := mkCell eta4 delta zero3 1 1.

Lemma lorentz_flat a : GetLorentzFactor (v3 a 0 0) delta = sqrt (1 + a * a).
Proof. unfold GetLorentzFactor, v3, sum3, delta; cbn. f_equal. ring. Qed.
Lemma gas2_consistent : eos_consistent gas2. Proof. intros rho e y. reflexivity. Qed.

Lemma gas2_usable rf ef gmax emax : 0 <= rf -> 0 < ef -> ef <= emax -> 1 <= gmax -> usable_limits gas2 (lim rf ef gmax emax).
Proof.
  intros H1 H2 H3 H4. constructor.
  - exact H4.
  - cbn. lra.
  - intros rho _. unfold s_efl; cbn. lra.
  - intros rho _. unfold s_efl; cbn. apply continuous_const.
  - intros rho e y. unfold s_rhoflr; cbn. intros. apply Rmult_le_pos; lra.
  - intros rho e y _ _. cbn. apply (continuous_mult (fun z : R * R => fst z) (fun z => snd z)).
    + apply continuous_fst.
    + apply continuous_snd.
Qed.

(** the hypotheses of the three theorems hold for a moving magnetised gas *)
Lemma flat_W34 : GetLorentzFactor (v3 (3/4) 0 0) delta = 5/4.
Proof. rewrite lorentz_flat. replace (1 + 3/4 * (3/4)) with (5/4 * (5/4)) by field. apply sqrt_square. lra. Qed.

Example C18_nonvacuous :
  recoverable delta gas2 (lim (1/100) (1/100) 10 10) (1/2) 1 (v3 (3/4) 0 0) (1/2) (1/2) /\
  eos_consistent gas2 /\ usable_limits gas2 (lim (1/100) (1/100) 10 10).
Proof.
  split; [|split; [exact gas2_consistent|apply gas2_usable; lra]].
  pose proof EPS_pos. constructor; try rewrite flat_W34; cbn; try lra; try field.
Qed.
Example C18_inverse_nonvacuous :
  let L := lim (1/100) (1/100) 10 10 in
  let c := p2c true 1 (v3 (3/4) 0 0) (v3 1 2 0) (1/2) (1/2) (1/2) 2 eta4 delta zero3 1 1 in
  let mu := 1 / ((1 + 1/2 + 1/2) / 1 * GetLorentzFactor (v3 (3/4) 0 0) delta) in
  let out := solve_at true true true gas2 L flat c mu in
  0 < cD c /\ 0 < mu /\ s_residual true true true gas2 L flat c mu = 0 /\
  o_gamma_maxed out = false /\ o_rho_floored out = false /\ o_e_floored out = false /\ o_e_maxed out = false /\
  (EPS : R) <= o_rho out + o_eng out.
Proof.
  intros L c mu out. destruct C18_nonvacuous as (Rc & Ec & _). fold L in Rc.
  pose proof (C18_round_trip _ _ _ _ _ _ _ _ eta4_consistent true true true gas2 L 1 (v3 (3/4) 0 0) (v3 1 2 0) (1/2) (1/2) (1/2) 2) as K.
  cbv zeta in K. specialize (K Rc Ec (or_introl eq_refl)). destruct K as (Z & O1 & O2 & _).
  assert (Mp : 0 < mu). { unfold mu. rewrite flat_W34. lra. }
  assert (Hf : s_rhoflr L < 1) by (unfold s_rhoflr; cbn; lra).
  assert (Hef : s_efl L 1 < 1/2/1) by (unfold s_efl; cbn; lra).
  assert (Hem : 1/2/1 <= l_e_max L) by (cbn; lra).
  assert (HW : GetLorentzFactor (v3 (3/4) 0 0) delta <= l_gam_max L) by (rewrite flat_W34; cbn; lra).
  assert (Hg : 1 <= l_gam_max L) by (cbn; lra).
  pose proof (w_flags _ _ _ _ _ _ _ _ eta4_consistent true true true gas2 L c mu (Rlt_le _ _ Mp) Hg 1 (v3 (3/4) 0 0) (v3 1 2 0) (1/2) (1/2) (1/2) 2
    eq_refl (or_introl eq_refl) Rlt_0_1 ltac:(lra) eq_refl HW Hf Hef Hem) as (N1 & N2 & N3 & N4).
  split; [unfold c; rewrite (C_D _ _ _ _ _ _ _ _ eta4_consistent), flat_W34; lra|]. split; [exact Mp|]. split; [exact Z|].
  split; [exact N1|]. split; [exact N2|]. split; [exact N3|]. split; [exact N4|].
  pose proof EPS_pos. apply Rle_trans with (1 + 1/2); [lra|]. right.
  assert (A1 : 1 = o_rho out) by (symmetry; exact O1). assert (A2 : 1/2 = o_eng out) by (symmetry; exact O2). rewrite <- A1, <- A2. reflexivity.
Qed.

(** ** where the round trip fails *)

(** The residual divides by max(rho (1 + e), EPS), EPS = 10 * 2^-52 in code units.  For every
    state with positive pressure whose energy density is below that, the residual does not
    vanish at the true solution, so the guard "rec_eps" above cannot be dropped. *)
Theorem C18_tiny_density_refuted : forall alpha beta g ginv gamma gi sg sgg,
  adm_consistent alpha beta g ginv gamma gi sg sgg ->
  forall (valencia mhd hasye : bool) (eos : EOS) (L : Limits) rho vp B u ye p gam1,
  let ye_eff := if hasye then ye else / 2 in
  0 < rho -> 0 <= u -> 0 < p -> GetLorentzFactor vp gamma <= l_gam_max L ->
  fst (l_floors L 0) * l_fac L < rho -> snd (l_floors L rho) * l_fac L < u / rho -> u / rho <= l_e_max L ->
  p = eos_P eos rho (u / rho) ye_eff -> mhd = true \/ (forall i, (i < 3)%nat -> B i = 0) ->
  rho + u < EPS ->
  let cell := mkCell g gi beta sg alpha in
  let C := p2c valencia rho vp B u ye p gam1 g gi beta alpha sg in
  let mu := 1 / ((rho + u + p) / rho * GetLorentzFactor vp gamma) in
  s_residual valencia mhd hasye eos L cell C mu < 0.
Proof.
  intros alpha beta g ginv gamma gi sg sgg H val mhd hasye eos L rho vp B u ye p gam1 ye_eff r1 r2 r3 r4 r5 r6 r7 r8 HB Ge cell C mu.
  pose proof (lorentz_ge1 _ _ _ _ vp (adm_tpo _ _ _ _ _ _ _ _ H)) as W1.
  assert (Hg : 1 <= l_gam_max L) by lra. assert (up : 0 <= u + p) by lra.
  pose proof (h_ge1 rho u p r1 up) as h1.
  assert (Hm : 0 <= mu). { unfold mu. left. apply Rdiv_lt_0_compat; [lra|]. nra. }
  refine (w_res_guard _ _ _ _ _ _ _ _ H val mhd hasye eos L C mu Hm Hg rho vp B u ye p gam1 eq_refl HB r1 up eq_refl r4 r5 r6 r7 r8 r3 _). lra.
Qed.
Print Assumptions C18_tiny_density_refuted.
Example C18_tiny_density_nonvacuous : exists rho u p : R, 0 < rho /\ 0 <= u /\ 0 < p /\
  fst (l_floors (lim 0 (1/100) 10 10) 0) * l_fac (lim 0 (1/100) 10 10) < rho /\
  snd (l_floors (lim 0 (1/100) 10 10) rho) * l_fac (lim 0 (1/100) 10 10) < u / rho /\ u / rho <= l_e_max (lim 0 (1/100) 10 10) /\
  p = eos_P gas2 rho (u / rho) (/2) /\ rho + u < EPS.
Proof.
  pose proof EPS_pos as K. revert K. generalize (EPS : R) as e. intros e K. exists (e / 4), (e / 4), (e / 4). cbn.
  assert (E : e / 4 / (e / 4) = 1) by (field; lra). rewrite E. repeat split; lra.
Qed.

(** The number of iterations is not checked: with the default settings (fail_on_floors and
    fail_on_ceilings off) every call reports success, whatever mu the root finder stopped
    at - and then the stored primitives can be wrong. *)
Theorem C18_unconverged_success_refuted :
  (forall valencia mhd hasye eos L g c mu, l_fail_floors L = false -> l_fail_ceilings L = false ->
     o_status (solve_at valencia mhd hasye eos L g c mu) = c2p_success) /\
  exists c out, c = p2c true (4/5) (v3 (3/4) 0 0) zero3 (2/5) (1/2) (2/5) 2 eta4 delta zero3 1 1 /\
    recoverable delta gas2 (lim (1/100) (1/100) 10 10) (1/2) (4/5) (v3 (3/4) 0 0) (2/5) (2/5) /\
    solve true false false gas2 (lim (1/100) (1/100) 10 10) flat c 0 (1/1000) 2 = Some out /\
    o_status out = c2p_success /\ o_vel out 0%nat <> 3/4.
Proof.
  split.
  - intros val mhd hasye eos L g c mu E1 E2. unfold solve_at.
    destruct (vhatsq_mu _ _ _), (rhohat_mu _ _ _), (ehat_mu _ _ _ _ _ _ _ _) as [[? ?] ?]. cbn. rewrite E1, E2. reflexivity.
  - set (L := lim (1/100) (1/100) 10 10).
    set (c := p2c true (4/5) (v3 (3/4) 0 0) zero3 (2/5) (1/2) (2/5) 2 eta4 delta zero3 1 1).
    assert (Us : usable_limits gas2 L) by (apply gas2_usable; lra).
    destruct Us as [u1 u2 u3 u4 u5 u6].
    assert (F0 : s_residual true false false gas2 L flat c 0 < 0) by exact (res0 _ _ _ _ _ _ _ _ eta4_consistent true false false gas2 L c u1 u2 (fun r h => proj1 (u3 r h)) u5).
    assert (F1 : 0 < s_residual true false false gas2 L flat c 1) by exact (res1 _ _ _ _ _ _ _ _ eta4_consistent true false false gas2 L c u1 u2 (fun r h => proj1 (u3 r h)) u5).
    exists c, (solve_at true false false gas2 L flat c (1/2)).
    split; [reflexivity|]. split; [|split; [|split; [|]]].
    + pose proof EPS_pos. constructor; try rewrite flat_W34; cbn; try lra; try field.
    + unfold solve, regula_falsi, refine_bracket, check_bracket. num_R.
      assert (Q : s_residual true false false gas2 L flat c 0 * s_residual true false false gas2 L flat c 1 < 0) by nra.
      rewrite (Rle_bool_false 2 1) by lra. rewrite andb_false_r. rewrite (Rlt_bool_false 0) by lra. cbn. num_R.
      match goal with |- Some (solve_at _ _ _ _ _ _ _ ?m) = _ => replace m with (1/2) by (field; lra) end. reflexivity.
    + unfold solve_at. destruct (vhatsq_mu _ _ _), (rhohat_mu _ _ _), (ehat_mu _ _ _ _ _ _ _ _) as [[? ?] ?]. reflexivity.
    + assert (Dc : cD c = 1) by (unfold c; rewrite (C_D _ _ _ _ _ _ _ _ eta4_consistent), flat_W34; lra).
      assert (Sc : forall i, (i < 3)%nat -> cS c i = v3 (3/2) 0 0 i).
      { intros i Hi. unfold c. rewrite (s_C_S _ _ _ _ _ _ _ _ eta4_consistent) by exact Hi. rewrite flat_W34.
        idx; unfold lower3, dot3, sum3, delta, v3, zero3; cbn; field. }
      assert (Rc : forall i, (i < 3)%nat -> s_rcon flat c i = v3 (3/2) 0 0 i).
      { intros i Hi. unfold s_rcon, s_rcov, sum3. rewrite Dc, !gratio_nz by lra. rewrite !Sc by lia.
        idx; unfold flat, delta, v3; cbn; field. }
      assert (R2 : dot3 delta (s_rcon flat c) (s_rcon flat c) = 9/4).
      { unfold dot3, sum3. rewrite !Rc by lia. unfold delta, v3; cbn; field. }
      pose proof (hydro_state _ _ _ _ _ _ _ _ eta4_consistent true false false gas2 L c (1/2) ltac:(lra) u1 eq_refl) as K.
      cbv zeta in K. fold flat in K. destruct K as (_ & _ & K & _). rewrite K, R2, Rc by lia.
      assert (V0 : s_v0sq L flat c = 9/13).
      { pose proof (v0_eq _ _ _ _ _ _ _ _ eta4_consistent L c) as Kv. fold flat in Kv. rewrite Kv, R2. cbn. rewrite Rmin_left; lra. }
      rewrite V0, Rmin_left by lra. unfold v3. intros Q.
      assert (Sp : 0 < sqrt (1 - 1/2 * (1/2) * (9/4))) by (apply sqrt_lt_R0; lra).
      pose proof (sqrt_sqrt (1 - 1/2 * (1/2) * (9/4)) ltac:(lra)) as Ss.
      clear K; set (q := sqrt (1 - 1/2 * (1/2) * (9/4))) in Q, Sp, Ss. clearbody q. unfold Rdiv in Q. pose proof (Rinv_r q ltac:(lra)) as I.
      assert (I1 : / q = 1) by lra. rewrite I1 in I. assert (q = 1) by lra. rewrite H in Ss. lra.
Qed.
Print Assumptions C18_unconverged_success_refuted.
