(** C18, continued: the solution that the inversion converges to is the right one, because there
    is no other. *)
From Coq Require Import Reals Arith ZArith Lia Lra Psatz Bool.
From Coquelicot Require Import Coquelicot.
From Flocq Require Import Core.
From Verif.Spec Require Import Tensor GeomSpec SystemSpec RootSpec Relativity GRMHD.
From Verif.Model Require Import Num Robust Geometry Relativity Prim2Con RootFind Con2PrimRobust.
From Verif.Proofs Require Import NumR RobustProofs TensorTac LinearAlgebraProofs GeomBase AdmProofs RelProofs
  RelativityProofs Prim2ConProofs P2CSimple RootFindProofs FlatWitness Con2PrimProofs C2PSolve C2PUnique.
From Verif.Properties Require Import P_Con2Prim.
Local Open Scope R_scope.

(** An ideal gas P = (G - 1) rho e with adiabatic index between 1 and 2, and floors as the code
    expects them: the energy floor positive, below the ceiling and not growing with density (all
    floor types of the code: constant, or an energy density divided by the density); density
    floor at least the guard EPS = 10 * 2^-52 in code units. *)
Record ideal_gas_limits (G : R) (eos : EOS) (L : Limits) : Prop := {
  ig_G : 1 <= G <= 2;
  ig_P : forall rho e y, eos_P eos rho e y = (G - 1) * rho * e;
  ig_gam : 1 <= l_gam_max L;
  ig_efl : forall rho, s_rhoflr L <= rho -> 0 < s_efl L rho <= l_e_max L;
  ig_mono : forall r1 r2, s_rhoflr L <= r1 -> r1 <= r2 -> s_efl L r2 <= s_efl L r1;
  ig_eps : (EPS : R) <= s_rhoflr L }.

Section Connect.
Variables (alpha : R) (beta : vec) (g ginv gamma gi : mat) (sg sgg : R).
Hypothesis H : adm_consistent alpha beta g ginv gamma gi sg sgg.
Variables (valencia mhd hasye : bool) (eos : EOS) (L : Limits) (c : Cons).
Let cell := mkCell g gi beta sg alpha.
Let f := s_residual valencia mhd hasye eos L cell c.
Let r := s_rcon cell c.
Let b := s_bu mhd L cell c.
Let b2 := dot3 gamma b b.
Let br2 := dot3 gamma b r * dot3 gamma b r.
Let r2 := dot3 gamma r r.
Let q := s_q valencia cell c.
Let v0 := s_v0sq L cell c.
Let D := s_D cell c.
Let flr := s_rhoflr L.
Let T := adm_tpo _ _ _ _ _ _ _ _ H.
Let Pd := tpo_gpd _ _ _ _ T.
Let Sy := tpo_gsym _ _ _ _ T.
Lemma sc_b : 0 <= b2. Proof. apply pd_nonneg, Pd. Qed.
Lemma sc_r : 0 <= r2. Proof. apply pd_nonneg, Pd. Qed.
Lemma sc_br : 0 <= br2. Proof. unfold br2. apply Rle_0_sqr. Qed.

(** the residual in terms of the scalar functions *)
Lemma res_scalar mu : 0 <= mu -> 1 <= l_gam_max L ->
  let s := us b2 br2 r2 mu in let p := up b2 br2 r2 q mu in
  let w := sqrt (1 - Rmin s v0) in
  let rho := Rmax (D * w) flr in
  let t := 1 / w * (p - 1) + Rmin s v0 * (1 / w) * (1 / w / (1 + 1 / w)) in
  let e := if Rle_bool t (s_efl L rho) then s_efl L rho else if Rlt_bool (l_e_max L) t then l_e_max L else t in
  let a := eos_P eos rho e (s_ye hasye c) / Rmax (rho * (1 + e)) EPS in
  f mu = mu - 1 / (Rmax ((1 + a) * (1 + e) * w) ((1 + a) * p) + mu * urb b2 br2 r2 mu).
Proof.
  intros Hm Hg. pose proof (F_res _ _ _ _ _ _ _ _ H valencia mhd hasye eos L c mu Hm Hg) as K.
  fold cell in K. fold f in K. pose proof (ww gamma b r mu Sy Pd Hm) as Ew. fold r b in K.
  fold b2 r2 in Ew.
  assert (Ew' : dot3 gamma (fun i => 1 / (1 + mu * b2) * (r i + mu * dot3 gamma b r * b i)) (fun i => 1 / (1 + mu * b2) * (r i + mu * dot3 gamma b r * b i))
     = urb b2 br2 r2 mu) by exact Ew.
  fold b2 in K. rewrite Ew' in K. fold q v0 D flr br2 in K.
  assert (Ep : forall z, z + (q - / 2 * (b2 + mu * mu * (b2 * urb b2 br2 r2 mu - br2)) - mu * urb b2 br2 r2 mu) = z + (up b2 br2 r2 q mu - 1)).
  { intros z. unfold up. ring. }
  cbv zeta. rewrite K. unfold us.
  replace (up b2 br2 r2 q mu - 1) with (q - / 2 * (b2 + mu * mu * (b2 * urb b2 br2 r2 mu - br2)) - mu * urb b2 br2 r2 mu) by (unfold up; ring).
  replace (up b2 br2 r2 q mu) with (1 + (q - / 2 * (b2 + mu * mu * (b2 * urb b2 br2 r2 mu - br2))) - mu * urb b2 br2 r2 mu) by reflexivity.
  reflexivity.
Qed.
(** unlimited trial energy *)
Lemma trial_scalar p w V : 0 < w -> w * w = 1 - V -> 1 / w * (p - 1) + V * (1 / w) * (1 / w / (1 + 1 / w)) = p / w - 1.
Proof. intros W E. assert (EV : V = 1 - w * w) by lra. rewrite EV. field. lra. Qed.

Section Gas.
Variable G : R.
Hypothesis I : ideal_gas_limits G eos L.
Let fl mu := s_efl L (Rmax (D * gw b2 br2 r2 v0 mu) flr).
Let HV := v0_range _ _ _ _ _ _ _ _ H L c (ig_gam _ _ _ I).
Lemma gas_nu mu : 0 <= mu ->
  f mu = mu - 1 / (gnu b2 br2 r2 q v0 G (l_e_max L) fl mu + mu * urb b2 br2 r2 mu) /\
  0 < gnu b2 br2 r2 q v0 G (l_e_max L) fl mu + mu * urb b2 br2 r2 mu.
Proof.
  intros Hm. destruct I as [i1 i2 i3 i4 i5 i6].
  destruct (gw_range b2 br2 r2 v0 sc_b sc_br sc_r HV mu Hm) as [W W2]. unfold gV in W2.
  assert (F := i4 (Rmax (D * gw b2 br2 r2 v0 mu) flr) (Rmax_r _ _)). fold (fl mu) in F.
  pose proof (res_scalar mu Hm i3) as K. cbv zeta in K.
  rewrite (trial_scalar _ _ _ (proj1 W) W2) in K. fold (gw b2 br2 r2 v0 mu) in K.
  change (up b2 br2 r2 q mu / gw b2 br2 r2 v0 mu - 1) with (gtrial b2 br2 r2 q v0 mu) in K.
  fold (fl mu) in K. fold (ge b2 br2 r2 q v0 (l_e_max L) fl mu) in K.
  set (e := ge b2 br2 r2 q v0 (l_e_max L) fl mu) in *.
  assert (Ep : 0 < e).
  { unfold e, ge. destruct (Rle_bool_spec (gtrial b2 br2 r2 q v0 mu) (fl mu)); [lra|]. destruct (Rlt_bool_spec (l_e_max L) (gtrial b2 br2 r2 q v0 mu)); lra. }
  set (rho := Rmax (D * gw b2 br2 r2 v0 mu) flr) in *.
  assert (Er : (EPS : R) <= rho) by (eapply Rle_trans; [exact i6|apply Rmax_r]). pose proof EPS_pos as EP.
  assert (Er2 : (EPS : R) <= rho * (1 + e)) by nra.
  rewrite (Rmax_left (rho * (1 + e)) EPS Er2) in K. rewrite i2 in K.
  assert (A1 : (1 + (G - 1) * rho * e / (rho * (1 + e))) * (1 + e) = 1 + G * e) by (field; lra).
  assert (A2 : 1 + (G - 1) * rho * e / (rho * (1 + e)) = (1 + G * e) / (1 + e)) by (field; lra).
  rewrite A1, A2 in K. split; [exact K|].
  assert (0 < (1 + G * e) * gw b2 br2 r2 v0 mu) by (apply Rmult_lt_0_compat; [nra|lra]).
  assert (0 <= mu * urb b2 br2 r2 mu).
  { apply Rmult_le_pos; [exact Hm|]. pose proof (ux_pos b2 sc_b mu Hm) as X. unfold urb.
    pose proof sc_r. pose proof sc_br. apply Rmult_le_pos; [lra|]. apply Rplus_le_le_0_compat; apply Rmult_le_pos; try lra.
    apply Rmult_le_pos; lra. }
  pose proof (Rmax_l ((1 + G * e) * gw b2 br2 r2 v0 mu) ((1 + G * e) / (1 + e) * up b2 br2 r2 q mu)) as M. unfold gnu. fold e. lra.
Qed.
Lemma gas_root mu : 0 <= mu -> (f mu = 0 <-> gG b2 br2 r2 q v0 G (l_e_max L) fl mu = 0) /\ (0 < f mu <-> 0 < gG b2 br2 r2 q v0 G (l_e_max L) fl mu).
Proof.
  intros Hm. destruct (gas_nu mu Hm) as [K Dn]. rewrite K. unfold gG, us. set (nu := gnu _ _ _ _ _ _ _ _ _) in *.
  set (rb := urb _ _ _ _) in *. set (d := nu + mu * rb) in *.
  assert (E : mu * nu + mu * mu * rb - 1 = d * (mu - 1 / d)) by (unfold d; field; fold d; lra). rewrite E. clear E.
  set (y := mu - 1 / d). split; split; intros Q.
  - rewrite Q. ring.
  - apply Rmult_eq_reg_l with d; [lra|lra].
  - apply Rmult_lt_0_compat; lra.
  - apply Rmult_lt_reg_l with d; lra.
Qed.
Lemma gas_unique m1 m2 : 0 < m1 -> 0 < m2 -> f m1 = 0 -> f m2 = 0 -> m1 = m2.
Proof.
  intros H1 H2 Z1 Z2. destruct I as [i1 i2 i3 i4 i5 i6].
  apply (gG_unique b2 br2 r2 q v0 G (l_e_max L) sc_b sc_br sc_r i1 HV) with (fl := fl); try assumption.
  - pose proof (i4 _ (Rle_refl (s_rhoflr L))). lra.
  - intros mu _. apply i4. apply Rmax_r.
  - intros x y A B. apply i5; [apply Rmax_r|].
    destruct (gw_range b2 br2 r2 v0 sc_b sc_br sc_r HV x A) as [Wx _]. destruct (gw_range b2 br2 r2 v0 sc_b sc_br sc_r HV y ltac:(lra)) as [Wy _].
    pose proof (gw_mono b2 br2 r2 v0 sc_b sc_br sc_r x y A B) as Gm. pose proof EPS_pos.
    destruct (Rle_lt_dec 0 D) as [Q|Q]; [apply Rle_max_compat_r, Rmult_le_compat_l; lra|].
    fold flr in i6. rewrite !Rmax_right by nra. lra.
  - intros x y _ _ E. unfold fl. replace (gw b2 br2 r2 v0 y) with (gw b2 br2 r2 v0 x); [reflexivity|].
    unfold gw. unfold gV in E. rewrite E. reflexivity.
  - apply (proj1 (gas_root m1 ltac:(lra))), Z1.
  - apply (proj1 (gas_root m2 ltac:(lra))), Z2.
Qed.
End Gas.

(** any equation of state, no limiter active at the root *)
Section Free.
Variable mu : R.
Hypothesis Hm : 0 < mu.
Hypothesis Hg : 1 <= l_gam_max L.
Let out := solve_at valencia mhd hasye eos L cell c mu.
Hypothesis N1 : o_gamma_maxed out = false.
Hypothesis N2 : o_rho_floored out = false.
Hypothesis N3 : o_e_floored out = false.
Hypothesis N4 : o_e_maxed out = false.
Hypothesis Ge : (EPS : R) <= o_rho out + o_eng out.
Hypothesis Dp : 0 < cD c.
Hypothesis Z : f mu = 0.
Lemma free_scalar : let P := fun rho e => eos_P eos rho e (s_ye hasye c) in
  us b2 br2 r2 mu < 1 /\ flr < D * aw b2 br2 r2 mu /\ o_rho out = D * aw b2 br2 r2 mu /\ 0 < D /\
  s_efl L (D * aw b2 br2 r2 mu) < aeps b2 br2 r2 q mu /\
  aF b2 br2 r2 q D P mu = 0.
Proof.
  intros P. pose proof (proj1 (adm_det3 _ _ _ _ _ _ _ _ H)) as sp.
  assert (Dp' : 0 < D). { unfold D, s_D, cell; cbn [c_gdet]. apply Rmult_lt_0_compat; [exact Dp|]. apply Rdiv_lt_0_compat; lra. }
  pose proof (solve_state _ _ _ _ _ _ _ _ H valencia mhd hasye eos L c mu (Rlt_le _ _ Hm) Hg) as S0.
  fold cell out r b in S0. cbv zeta in S0.
  pose proof (ww gamma b r mu Sy Pd (Rlt_le _ _ Hm)) as Ew. fold b2 r2 in Ew, S0.
  assert (Ew' : dot3 gamma (fun i => 1 / (1 + mu * b2) * (r i + mu * dot3 gamma b r * b i)) (fun i => 1 / (1 + mu * b2) * (r i + mu * dot3 gamma b r * b i))
     = urb b2 br2 r2 mu) by exact Ew.
  rewrite Ew' in S0. fold q v0 D flr br2 in S0.
  destruct S0 as (S1 & S2 & _ & _ & _ & _ & _ & S8 & S9 & S10 & S11).
  pose proof (v0_range _ _ _ _ _ _ _ _ H L c Hg) as HV. fold cell in HV. fold v0 in HV.
  pose proof (res_scalar mu (Rlt_le _ _ Hm) Hg) as K. cbv zeta in K.
  assert (Eq : q - / 2 * (b2 + mu * mu * (b2 * urb b2 br2 r2 mu - br2)) - mu * urb b2 br2 r2 mu = up b2 br2 r2 q mu - 1) by (unfold up; ring).
  rewrite Eq in S2, S10, S11. clear Eq Ew Ew'.
  change (mu * mu * urb b2 br2 r2 mu) with (us b2 br2 r2 mu) in S1, S2, S8, S9, S10, S11.
  assert (Sv : us b2 br2 r2 mu <= v0). { rewrite S8 in N1. destruct (Rlt_bool_spec v0 (us b2 br2 r2 mu)) as [Q|Q]; [discriminate|exact Q]. }
  rewrite (Rmin_left _ _ Sv) in S1, S2, S9, S10, S11, K. fold (aw b2 br2 r2 mu) in S1, S2, S9, S10, S11, K.
  assert (s1 : us b2 br2 r2 mu < 1) by lra.
  destruct (aw_range b2 br2 r2 sc_b sc_br sc_r mu (Rlt_le _ _ Hm) s1) as [W W2].
  rewrite (trial_scalar _ _ _ (proj1 W) W2) in S2, S10, S11, K. fold (aeps b2 br2 r2 q mu) in S2, S10, S11, K.
  assert (Fr : flr < D * aw b2 br2 r2 mu). { rewrite S9 in N2. destruct (Rle_bool_spec (D * aw b2 br2 r2 mu) flr) as [Q|Q]; [discriminate|exact Q]. }
  rewrite (Rmax_left _ _ (Rlt_le _ _ Fr)) in S1, S2, S10, S11, K.
  rewrite S10 in N3. rewrite N3 in S2, S11, K. rewrite S11 in N4. rewrite N4 in S2, K.
  assert (Fe : s_efl L (D * aw b2 br2 r2 mu) < aeps b2 br2 r2 q mu).
  { destruct (Rle_bool_spec (aeps b2 br2 r2 q mu) (s_efl L (D * aw b2 br2 r2 mu))) as [Q|Q]; [discriminate|exact Q]. }
  split; [exact s1|]. split; [exact Fr|]. split; [exact S1|]. split; [exact Dp'|]. split; [exact Fe|].
  rewrite S1, S2 in Ge. set (e := aeps b2 br2 r2 q mu) in *. set (w := aw b2 br2 r2 mu) in *.
  pose proof EPS_pos as EP.
  rewrite (Rmax_left (D * w * (1 + e)) EPS) in K by lra.
  assert (Pw : up b2 br2 r2 q mu = (1 + e) * w) by (unfold e, aeps; fold w; field; lra).
  assert (De : D * w * (1 + e) <> 0) by lra.
  assert (e1 : 1 + e <> 0). { intros Q. apply De. rewrite Q. ring. }
  fold (P (D * w) e) in K. change (eos_P eos (D * w) e (s_ye hasye c)) with (P (D * w) e) in K.
  set (PP := P (D * w) e) in *.
  assert (Ea : (1 + PP / (D * w * (1 + e))) * (1 + e) * w = up b2 br2 r2 q mu + PP / D) by (rewrite Pw; field; repeat split; lra).
  assert (Eb : (1 + PP / (D * w * (1 + e))) * up b2 br2 r2 q mu = up b2 br2 r2 q mu + PP / D) by (rewrite <- Ea, Pw; ring).
  rewrite Ea, Eb, Rmax_left in K by lra. rewrite Z in K.
  unfold aF. fold e. fold w. fold PP. unfold us. set (d := up b2 br2 r2 q mu + PP / D + mu * urb b2 br2 r2 mu) in *.
  assert (Nz : d <> 0). { intros Q. rewrite Q in K. unfold Rdiv in K. rewrite Rinv_0 in K. lra. }
  assert (E1 : mu * d = 1). { assert (Q : mu = 1 / d) by lra. rewrite Q at 1. field. exact Nz. }
  rewrite <- E1. unfold d. ring.
Qed.
End Free.
End Connect.

(** Every conserved state - any sign of D and tau, any S and B - has exactly one root of the
    residual in (0,1), with all floors and ceilings in place. *)
Theorem C18_unique : forall alpha beta g ginv gamma gi sg sgg,
  adm_consistent alpha beta g ginv gamma gi sg sgg ->
  forall (valencia mhd hasye : bool) (G : R) (eos : EOS) (L : Limits) (c : Cons),
  let f := s_residual valencia mhd hasye eos L (mkCell g gi beta sg alpha) c in
  ideal_gas_limits G eos L ->
  (forall rho, s_rhoflr L <= rho -> continuous (s_efl L) rho) ->
  exists mu, (0 < mu < 1 /\ f mu = 0) /\ forall m, 0 < m -> f m = 0 -> m = mu.
Proof.
  intros alpha beta g ginv gamma gi sg sgg H val mhd hasye G eos L c f I Hc.
  assert (U : usable_limits eos L).
  { destruct I as [i1 i2 i3 i4 i5 i6]. constructor; try assumption.
    - pose proof (i4 _ (Rle_refl (s_rhoflr L))). lra.
    - intros rho e y Hr He. rewrite i2. pose proof EPS_pos. repeat apply Rmult_le_pos; lra.
    - intros rho e y Hr He. apply (continuous_ext (fun z : R * R => (G - 1) * fst z * snd z)); [intros z; symmetry; apply i2|].
      apply (continuous_mult (fun z : R * R => (G - 1) * fst z) (fun z => snd z)); [|apply continuous_snd].
      apply (continuous_mult (fun z : R * R => G - 1) (fun z => fst z)); [apply continuous_const|apply continuous_fst]. }
  pose proof (C18_solve_total _ _ _ _ _ _ _ _ H val mhd hasye eos L c 0%Z 0 0) as K. cbv zeta in K.
  destruct (K U (Rle_refl 0) (Z.le_refl 0)) as ((mu & Hmu & Hz) & _). exists mu. split; [split; assumption|].
  intros m Hm Zm. exact (gas_unique _ _ _ _ _ _ _ _ H val mhd hasye eos L c G I m mu Hm (proj1 Hmu) Zm Hz).
Qed.
Print Assumptions C18_unique.

(** The inversion therefore recovers the primitive state it was given: if the root search ended
    before its iteration limit, mu is within the tolerance of 1/(h W) of the original state, and
    at that point the primitives are exactly the original ones (C18_round_trip). *)
Theorem C18_recovers : forall alpha beta g ginv gamma gi sg sgg,
  adm_consistent alpha beta g ginv gamma gi sg sgg ->
  forall (valencia mhd hasye : bool) (G : R) (eos : EOS) (L : Limits) rho vp B u ye p gam1,
  let ye_eff := if hasye then ye else / 2 in
  ideal_gas_limits G eos L -> (forall rho, s_rhoflr L <= rho -> continuous (s_efl L) rho) ->
  recoverable gamma eos L ye_eff rho vp u p -> eos_consistent eos ->
  mhd = true \/ (forall i, (i < 3)%nat -> B i = 0) ->
  forall (max_iter : Z) tol guess, 0 <= tol -> (0 <= max_iter)%Z ->
  let cell := mkCell g gi beta sg alpha in
  let C := p2c valencia rho vp B u ye p gam1 g gi beta alpha sg in
  let exact := 1 / ((rho + u + p) / rho * GetLorentzFactor vp gamma) in
  exists mu rf tr,
    regula_falsi (s_residual valencia mhd hasye eos L cell C) (new_RootFind max_iter) 0 1 tol guess false = Returned mu None rf tr /\
    solve valencia mhd hasye eos L cell C max_iter tol guess = Some (solve_at valencia mhd hasye eos L cell C mu) /\
    ((iteration_count rf < max_iter)%Z -> Rabs (mu - exact) <= tol).
Proof.
  intros alpha beta g ginv gamma gi sg sgg H val mhd hasye G eos L rho vp B u ye p gam1 ye_eff I Hc Rc Ec HB mx tol guess Ht Hmx cell C exact0.
  pose proof (C18_round_trip _ _ _ _ _ _ _ _ H val mhd hasye eos L rho vp B u ye p gam1) as K. cbv zeta in K.
  destruct (K Rc Ec HB) as (Z & _). clear K. fold cell C exact0 in Z.
  assert (U : usable_limits eos L).
  { destruct I as [i1 i2 i3 i4 i5 i6]. constructor; try assumption.
    - pose proof (i4 _ (Rle_refl (s_rhoflr L))). lra.
    - intros rho' e y Hr He. rewrite i2. pose proof EPS_pos. repeat apply Rmult_le_pos; lra.
    - intros rho' e y Hr He. apply (continuous_ext (fun z : R * R => (G - 1) * fst z * snd z)); [intros z; symmetry; apply i2|].
      apply (continuous_mult (fun z : R * R => (G - 1) * fst z) (fun z => snd z)); [|apply continuous_snd].
      apply (continuous_mult (fun z : R * R => G - 1) (fun z => fst z)); [apply continuous_const|apply continuous_fst]. }
  pose proof (C18_solve_total _ _ _ _ _ _ _ _ H val mhd hasye eos L C mx tol guess) as K. cbv zeta in K.
  destruct (K U Ht Hmx) as (_ & mu & rf & tr & E1 & E2 & _ & E3). exists mu, rf, tr. split; [exact E1|]. split; [exact E2|].
  intros Q. destruct (E3 Q) as (r & Hr & Zr & Hd).
  assert (Pe : 0 < exact0).
  { destruct Rc as [r1 r2 _ _ _ _ _ _]. pose proof (lorentz_ge1 _ _ _ _ vp (adm_tpo _ _ _ _ _ _ _ _ H)) as W1.
    pose proof (h_ge1 rho u p r1 r2) as h1. unfold exact0. apply Rdiv_lt_0_compat; [lra|]. apply Rmult_lt_0_compat; lra. }
  rewrite <- (gas_unique _ _ _ _ _ _ _ _ H val mhd hasye eos L C G I r exact0 (proj1 Hr) Pe Zr Z). exact Hd.
Qed.
Print Assumptions C18_recovers.

(** Any equation of state whose pressure is differentiable, non-negative and causal (speed of
    sound at most that of light) above the density floor: of the roots at which no limiter acts
    there is at most one, so an accepted unlimited inversion has only one possible outcome. *)
Theorem C18_unique_unlimited : forall alpha beta g ginv gamma gi sg sgg,
  adm_consistent alpha beta g ginv gamma gi sg sgg ->
  forall (valencia mhd hasye : bool) (eos : EOS) (L : Limits) (c : Cons) (Pr Pe : R -> R -> R),
  let cell := mkCell g gi beta sg alpha in
  let f := s_residual valencia mhd hasye eos L cell c in
  let P := fun rho e => eos_P eos rho e (s_ye hasye c) in
  1 <= l_gam_max L -> 0 < cD c ->
  (forall rho e, s_rhoflr L < rho -> 0 < e ->
     differentiable_pt_lim P rho e (Pr rho e) (Pe rho e) /\ 0 <= P rho e /\
     Pr rho e + P rho e / rho ^ 2 * Pe rho e <= 1 + e + P rho e / rho) ->
  (forall rho, s_rhoflr L < rho -> 0 <= s_efl L rho) ->
  forall m1 m2,
  let unlimited := fun mu => let out := solve_at valencia mhd hasye eos L cell c mu in
    0 < mu /\ o_gamma_maxed out = false /\ o_rho_floored out = false /\ o_e_floored out = false /\ o_e_maxed out = false /\
    (EPS : R) <= o_rho out + o_eng out in
  unlimited m1 -> unlimited m2 -> f m1 = 0 -> f m2 = 0 -> m1 = m2.
Proof.
  intros alpha beta g ginv gamma gi sg sgg H val mhd hasye eos L c Pr Pe cell f P Hg Dp HP Hf m1 m2 unl U1 U2 Z1 Z2.
  assert (K : forall m1 m2, unl m1 -> unl m2 -> f m1 = 0 -> f m2 = 0 -> m1 <= m2 -> m1 = m2).
  { clear m1 m2 U1 U2 Z1 Z2. intros m1 m2 (p1 & a1 & a2 & a3 & a4 & a5) (p2 & c1 & c2 & c3 & c4 & c5) Z1 Z2 Le.
    pose proof (free_scalar _ _ _ _ _ _ _ _ H val mhd hasye eos L c m1 p1 Hg a1 a2 a3 a4 a5 Dp Z1) as F1.
    pose proof (free_scalar _ _ _ _ _ _ _ _ H val mhd hasye eos L c m2 p2 Hg c1 c2 c3 c4 c5 Dp Z2) as F2.
    cbv zeta in F1, F2. destruct F1 as (_ & _ & _ & _ & _ & E1). destruct F2 as (s2 & f2 & _ & D2 & e2 & E2).
    pose proof (Hf _ f2) as e0.
    pose proof (tpo_gpd _ _ _ _ (adm_tpo _ _ _ _ _ _ _ _ H)) as Pd.
    refine (aF_unique _ _ _ _ _ P Pr Pe _ _ _ D2 m1 m2 (s_rhoflr L) p1 Le s2 f2 _ _ _ E1 E2).
    - apply pd_nonneg, Pd.
    - apply Rle_0_sqr.
    - apply pd_nonneg, Pd.
    - lra.
    - apply HP; [exact f2|lra].
    - exact HP. }
  destruct (Rle_lt_dec m1 m2) as [Q|Q]; [apply K; assumption|symmetry; apply K; try assumption; lra].
Qed.
Print Assumptions C18_unique_unlimited.

(** ** accuracy: the stored primitives depend continuously on mu *)
Section StateCont.
Variables (valencia mhd hasye : bool) (eos : EOS) (L : Limits) (c : Cons) (cell : CellGeom).
Hypothesis B0 : 0 <= s_bsq mhd L cell c.
Hypothesis V0 : s_v0sq L cell c < 1.
Hypothesis F1 : forall rho, s_rhoflr L <= rho -> s_efl L rho <= l_e_max L.
Hypothesis F2 : forall rho, s_rhoflr L <= rho -> continuous (s_efl L) rho.
Let out m := solve_at valencia mhd hasye eos L cell c m.
Lemma state_cont mu : 0 <= mu ->
  continuous (fun m => o_rho (out m)) mu /\ continuous (fun m => o_eng (out m)) mu /\
  (forall i, continuous (fun m => o_vel (out m) i) mu).
Proof.
  intros Hm.
  set (X := x_mu (s_bsq mhd L cell c)). set (RB := fun m => rbarsq_mu (s_rsq cell c) (s_rbsq mhd L cell c) m (X m)).
  set (QB := fun m => qbar_mu (s_q valencia cell c) (s_bsq mhd L cell c) (s_bsq_rpsq mhd L cell c) m (X m)).
  set (v0 := s_v0sq L cell c) in *. set (D := s_D cell c). set (flr := s_rhoflr L) in *.
  set (V := fun m => Rmin (m * m * RB m) v0). set (iW := fun m => sqrt (1 - V m)). set (W := fun m => 1 / iW m).
  set (rh := fun m => Rmax (D * iW m) flr). set (rh' := fun m => Rmax (D * gratio 1 (W m)) flr).
  set (sie := fun m => Rmin (Rmax (W m * (QB m - m * RB m) + V m * W m * gratio (W m) (1 + W m)) (s_efl L (rh' m))) (l_e_max L)).
  assert (MB : 0 <= mu * s_bsq mhd L cell c) by (apply Rmult_le_pos; assumption).
  assert (CX : continuous X mu) by (unfold X, x_mu; apply cont_gratio; [cont|cont|lra]).
  assert (CRB : continuous RB mu) by (unfold RB, rbarsq_mu; cont).
  assert (CQB : continuous QB mu) by (unfold QB, qbar_mu; cont).
  assert (CV : continuous V mu) by (unfold V; cont).
  assert (CiW : continuous iW mu) by (unfold iW; cont).
  assert (Vm : forall m, V m <= v0) by (intros m; apply Rmin_r).
  assert (iWp : forall m, 0 < iW m) by (intros m; unfold iW; apply sqrt_lt_R0; pose proof (Vm m); lra).
  assert (CW : continuous W mu) by (unfold W; apply cont_div; [cont|assumption|apply Rgt_not_eq, iWp]).
  assert (Wp : forall m, 0 < W m) by (intros m; unfold W; apply Rdiv_lt_0_compat; [lra|apply iWp]).
  assert (Crh : continuous rh mu) by (unfold rh; cont).
  assert (Crh' : continuous rh' mu).
  { unfold rh'. apply cont_max; [|cont]. apply cont_mult; [cont|]. apply cont_gratio; [cont|assumption|apply Rgt_not_eq, Wp]. }
  assert (Fr' : forall m, flr <= rh' m) by (intros; apply Rmax_r).
  assert (Csie : continuous sie mu).
  { unfold sie. apply cont_min; [|cont]. apply cont_max.
    - apply cont_plus; [cont|]. apply cont_mult; [cont|]. apply cont_gratio; [assumption|cont|]. pose proof (Wp mu). lra.
    - apply (continuous_comp rh' (s_efl L)); [assumption|]. apply F2, Fr'. }
  assert (Out : forall m, o_rho (out m) = rh m /\ o_eng (out m) = sie m * rh m /\
     o_vel (out m) = fun i => W m * m * X m * (s_rcon cell c i + m * s_bdotr mhd L cell c * s_bu mhd L cell c i)).
  { intros m. unfold out, solve_at. fold X. change (rbarsq_mu (s_rsq cell c) (s_rbsq mhd L cell c) m (X m)) with (RB m).
    change (qbar_mu (s_q valencia cell c) (s_bsq mhd L cell c) (s_bsq_rpsq mhd L cell c) m (X m)) with (QB m). fold v0 D flr.
    pose proof (vhat_fst v0 m (RB m)) as E1. destruct (vhatsq_mu v0 m (RB m)) as [vs ug]. cbn [fst] in E1. subst vs. fold (V m).
    unfold iWhat_mu. fold (iW m). pose proof (rhohat_fst D flr (iW m)) as E2. destruct (rhohat_mu D flr (iW m)) as [pr ur]. cbn [fst] in E2. subst pr. fold (rh m).
    fold (W m). pose proof (ehat_fst D flr (l_e_max L) (s_efl L) m (QB m) (RB m) (V m) (W m) (F1 _ (Rmax_r _ _))) as E3.
    destruct (ehat_mu D flr (l_e_max L) (s_efl L) m (QB m) (RB m) (V m) (W m)) as [[se u1] u2]. cbn [fst] in E3. subst se. fold (rh' m). fold (sie m).
    cbn [o_rho o_eng o_vel]. repeat split. }
  split; [|split].
  - apply (continuous_ext rh); [|exact Crh]. intros m. symmetry. apply Out.
  - apply (continuous_ext (fun m => sie m * rh m)); [|cont]. intros m. symmetry. apply Out.
  - intros i. apply (continuous_ext (fun m => W m * m * X m * (s_rcon cell c i + m * s_bdotr mhd L cell c * s_bu mhd L cell c i))); [|cont].
    intros m. destruct (Out m) as (_ & _ & E). rewrite E. reflexivity.
Qed.
End StateCont.
Lemma cont_near (h : R -> R) x y eta : continuous h x -> h x = y -> 0 < eta -> exists d, 0 < d /\ forall m, Rabs (m - x) < d -> Rabs (h m - y) < eta.
Proof.
  intros C E He. subst y. destruct (proj1 (filterlim_locally h (h x)) C (mkposreal eta He)) as (d & Hd).
  exists (pos d). split; [apply cond_pos|]. intros m Hm. apply (Hd m). exact Hm.
Qed.

(** For every primitive state and accuracy there is a tolerance with which the inversion, if it
    ends before the iteration limit, returns that state to that accuracy - whatever the limit
    and the initial guess. *)
Theorem C18_accuracy : forall alpha beta g ginv gamma gi sg sgg,
  adm_consistent alpha beta g ginv gamma gi sg sgg ->
  forall (valencia mhd hasye : bool) (G : R) (eos : EOS) (L : Limits) rho vp B u ye p gam1,
  let ye_eff := if hasye then ye else / 2 in
  ideal_gas_limits G eos L -> (forall rho, s_rhoflr L <= rho -> continuous (s_efl L) rho) ->
  recoverable gamma eos L ye_eff rho vp u p -> eos_consistent eos ->
  mhd = true \/ (forall i, (i < 3)%nat -> B i = 0) ->
  let cell := mkCell g gi beta sg alpha in
  let C := p2c valencia rho vp B u ye p gam1 g gi beta alpha sg in
  forall eta, 0 < eta -> exists tol0, 0 < tol0 /\
  forall (max_iter : Z) tol guess, 0 <= tol <= tol0 -> (0 <= max_iter)%Z ->
  exists mu rf tr,
    regula_falsi (s_residual valencia mhd hasye eos L cell C) (new_RootFind max_iter) 0 1 tol guess false = Returned mu None rf tr /\
    let out := solve_at valencia mhd hasye eos L cell C mu in
    solve valencia mhd hasye eos L cell C max_iter tol guess = Some out /\
    ((iteration_count rf < max_iter)%Z ->
       Rabs (o_rho out - rho) < eta /\ Rabs (o_eng out - u) < eta /\ (forall i, (i < 3)%nat -> Rabs (o_vel out i - vp i) < eta)).
Proof.
  intros alpha beta g ginv gamma gi sg sgg H val mhd hasye G eos L rho vp B u ye p gam1 ye_eff I Hc Rc Ec HB cell C eta Heta.
  pose proof (C18_round_trip _ _ _ _ _ _ _ _ H val mhd hasye eos L rho vp B u ye p gam1) as K. cbv zeta in K.
  destruct (K Rc Ec HB) as (Z & O1 & O2 & O3 & _). clear K. fold cell C in Z, O1, O2, O3.
  set (ex := 1 / ((rho + u + p) / rho * GetLorentzFactor vp gamma)) in *.
  assert (Pe : 0 < ex).
  { destruct Rc as [r1 r2 _ _ _ _ _ _]. pose proof (lorentz_ge1 _ _ _ _ vp (adm_tpo _ _ _ _ _ _ _ _ H)) as W1.
    pose proof (h_ge1 rho u p r1 r2) as h1. unfold ex. apply Rdiv_lt_0_compat; [lra|]. apply Rmult_lt_0_compat; lra. }
  pose proof (tpo_gpd _ _ _ _ (adm_tpo _ _ _ _ _ _ _ _ H)) as Pd.
  assert (Sc : 0 <= s_bsq mhd L cell C) by (unfold cell; rewrite (F_bsq _ _ _ _ _ _ _ _ H); apply pd_nonneg, Pd).
  assert (Sv : s_v0sq L cell C < 1) by exact (proj2 (v0_range _ _ _ _ _ _ _ _ H L C (ig_gam _ _ _ I))).
  destruct (state_cont val mhd hasye eos L C cell Sc Sv (fun r h => proj2 (ig_efl _ _ _ I r h)) Hc ex ltac:(lra)) as (C1 & C2 & C3).
  destruct (cont_near _ _ _ eta C1 O1 Heta) as (d1 & p1 & D1). destruct (cont_near _ _ _ eta C2 O2 Heta) as (d2 & p2 & D2).
  destruct (cont_near _ _ _ eta (C3 0%nat) (O3 0%nat ltac:(lia)) Heta) as (d3 & p3 & D3).
  destruct (cont_near _ _ _ eta (C3 1%nat) (O3 1%nat ltac:(lia)) Heta) as (d4 & p4 & D4).
  destruct (cont_near _ _ _ eta (C3 2%nat) (O3 2%nat ltac:(lia)) Heta) as (d5 & p5 & D5).
  set (t0 := Rmin (Rmin (Rmin d1 d2) (Rmin d3 d4)) d5 / 2).
  assert (T0 : 0 < t0 /\ t0 < d1 /\ t0 < d2 /\ t0 < d3 /\ t0 < d4 /\ t0 < d5).
  { unfold t0, Rmin. repeat destruct (Rle_dec _ _); lra. }
  exists t0. split; [lra|]. intros mx tol guess Ht Hmx.
  pose proof (C18_recovers _ _ _ _ _ _ _ _ H val mhd hasye G eos L rho vp B u ye p gam1) as K. cbv zeta in K.
  destruct (K I Hc Rc Ec HB mx tol guess ltac:(lra) Hmx) as (mu & rf & tr & E1 & E2 & E3).
  exists mu, rf, tr. split; [exact E1|]. cbv zeta. split; [exact E2|]. intros Q. specialize (E3 Q). fold ex in E3.
  split; [apply D1; lra|]. split; [apply D2; lra|]. intros i Hi. idx; [apply D3|apply D4|apply D5]; lra.
Qed.
Print Assumptions C18_accuracy.

(** ** concrete case: the Gamma = 2 gas of C18_nonvacuous *)
Example C18_unique_nonvacuous :
  let L := lim (1/100) (1/100) 10 10 in
  ideal_gas_limits 2 gas2 L /\ (forall rho, s_rhoflr L <= rho -> continuous (s_efl L) rho) /\
  recoverable delta gas2 L (1/2) 1 (v3 (3/4) 0 0) (1/2) (1/2) /\ eos_consistent gas2.
Proof.
  intros L. split; [|split; [|split]].
  - pose proof EPS_pos. constructor; unfold s_rhoflr, s_efl; cbn; intros; try lra.
  - intros rho _. unfold s_efl; cbn. apply continuous_const.
  - exact (proj1 C18_nonvacuous).
  - exact gas2_consistent.
Qed.
Example C18_unique_unlimited_nonvacuous : forall y rho e, 0 < rho -> 0 < e ->
  differentiable_pt_lim (fun rho e => eos_P gas2 rho e y) rho e e rho /\ 0 <= eos_P gas2 rho e y /\
  e + eos_P gas2 rho e y / rho ^ 2 * rho <= 1 + e + eos_P gas2 rho e y / rho.
Proof.
  intros y rho e Hr He. cbn. split; [|split; [apply Rmult_le_pos; lra|]].
  - intros eps. exists eps. intros u v Hu Hv.
    replace (u * v - rho * e - (e * (u - rho) + rho * (v - e))) with ((u - rho) * (v - e)) by ring.
    rewrite Rabs_mult. eapply Rle_trans; [apply Rmult_le_compat_r; [apply Rabs_pos|left; exact Hu]|].
    apply Rmult_le_compat_l; [left; apply cond_pos|apply Rmax_r].
  - replace (rho * e / (rho * (rho * 1)) * rho) with e by (field; lra). replace (rho * e / rho) with e by (field; lra). lra.
Qed.
