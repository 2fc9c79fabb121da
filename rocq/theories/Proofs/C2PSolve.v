From Coq Require Import Reals Arith ZArith Lia Lra Psatz Bool List.
From Coquelicot Require Import Coquelicot.
From Flocq Require Import Core.
From Verif.Spec Require Import Tensor GeomSpec RootSpec Relativity GRMHD.
From Verif.Model Require Import Num Robust Geometry Relativity Prim2Con RootFind Con2PrimRobust.
From Verif.Proofs Require Import NumR RobustProofs TensorTac LinearAlgebraProofs GeomBase AdmProofs RelProofs RelativityProofs Prim2ConProofs
  P2CSimple RootFindProofs Con2PrimProofs.
Import ListNotations.
Local Open Scope R_scope.

(** regula falsi on a strict bracket: it returns, inside the bracket *)
Lemma regula_loop_left_in f fuel tol sign a b yb b1 b2 count tr a' b' count' tr' :
  0 <= tol -> a <= b -> yb <> 0 ->
  regula_loop f fuel tol sign a b 0 yb b1 b2 count tr = (a', b', count', tr') ->
  a <= a' /\ a' <= b' /\ b' <= b.
Proof.
  intros Ht Hab Hy. destruct fuel as [|fuel]; cbn [regula_loop].
  - intros E; injection E as <- <- <- <-; lra.
  - num_R. destruct (Rlt_bool_spec (2 * tol) (b - a)) as [Hw|Hw].
    2:{ intros E; injection E as <- <- <- <-; lra. }
    cbv zeta. replace ((a * yb - b * 0) / (yb - 0)) with a by (field; lra).
    rewrite Req_bool_true by reflexivity.
    destruct fuel as [|fuel]; cbn [regula_loop].
    + intros E; injection E as <- <- <- <-; lra.
    + num_R. rewrite Rlt_bool_false by lra. intros E; injection E as <- <- <- <-; lra.
Qed.

Lemma regula_bracketed f rf a b tol guess :
  0 <= tol -> a <= b -> (iteration_count rf <= max_iter rf)%Z -> f a < 0 -> 0 < f b ->
  exists x rf' tr, regula_falsi f rf a b tol guess false = Returned x None rf' tr /\ inside a b x /\
    (continuous_on f a b -> (iteration_count rf' < max_iter rf)%Z -> near_root f a b tol x).
Proof.
  intros Ht Hab Hrf Fa Fb. unfold regula_falsi.
  assert (Hgt : regula_falsi f rf a b tol guess true = regula_falsi f rf a b tol guess true) by reflexivity.
  unfold regula_falsi in Hgt at 1.
  destruct (refine_bracket f guess a b) as [[[[a1 b1] ya] yb] tr1] eqn:Er.
  apply (refine_bracket_R f guess a b) in Er; [|exact Hab].
  destruct Er as (Ha1 & Hab1 & Hb1 & -> & -> & Htr1 & Hbr & Hends).
  assert (Br : check_bracket (f a1) (f b1) = true).
  { unfold check_bracket. num_R. apply negb_true_iff. apply Rlt_bool_false.
    apply Hbr. unfold bracketed. nra. }
  rewrite Br in *. clear Hbr. cbn [negb] in *. cbv zeta in *.
  set (sg := if nlt (f a1) nzero then nlit 1 1 else nlit (-1) 1) in *.
  destruct (regula_loop f (budget rf) tol sg a1 b1 (nmul (f a1) sg) (nmul (f b1) sg) 0 0 _ _)
    as [[[a' b'] count'] tr'] eqn:El.
  do 3 eexists. split; [reflexivity|]. split.
  - assert (Hsg : sg = if Rlt_bool (f a1) 0 then 1 else -1) by (unfold sg; num_R; reflexivity).
    assert (Hs : is_sign sg) by (rewrite Hsg; apply sign_choice).
    change (nmul (f a1) sg) with (f a1 * sg) in El. change (nmul (f b1) sg) with (f b1 * sg) in El.
    assert (I : a1 <= a' /\ a' <= b' /\ b' <= b1).
    { destruct (Req_dec (f a1) 0) as [Ez|Nz].
      - rewrite Ez, Rmult_0_l in El.
        assert (Hsb : f b1 * sg <> 0).
        { assert (f b1 <> 0) by (destruct Hends as [[-> ->]|[[-> ->]|(-> & -> & Hp)]]; [lra|lra|rewrite Ez in Fa; lra]).
          unfold is_sign in Hs. nra. }
        exact (regula_loop_left_in f _ _ _ _ _ _ _ _ _ _ _ _ _ _ Ht Hab1 Hsb El).
      - apply check_bracket_R in Br. unfold bracketed in Br.
        assert (Hf : sg * f a1 < 0 <= sg * f b1).
        { rewrite Hsg. destruct (Rlt_bool_spec (f a1) 0) as [Hn|Hp].
          - assert (0 <= f b1) by nra. lra.
          - assert (f b1 <= 0) by nra. lra. }
        apply (regula_loop_inv f _ _ _ _ _ _ _ _ _ _ _ _ _ _ _ a b) in El; try assumption; try lra.
        intros _. unfold carries. rewrite (Rmult_comm (f a1)), (Rmult_comm (f b1)). lra. }
    unfold inside. num_R. lra.
  - intros Hc Hlt. cbn [iteration_count] in Hlt.
    assert (E : report true count' (max_iter rf) = Some success).
    { unfold report, final_status. destruct (Z.eqb_spec count' (max_iter rf)); [lia|reflexivity]. }
    rewrite E in Hgt. symmetry in Hgt.
    apply (regula_falsi_sound f rf a b tol guess) in Hgt; try assumption; try tauto; try lra.
Qed.

(** continuity of the pieces *)
Lemma cont_gratio (f h : R -> R) x : continuous f x -> continuous h x -> h x <> 0 ->
  continuous (fun y => gratio (f y) (h y)) x.
Proof.
  intros Cf Ch Nz. apply (continuous_ext_loc _ (fun y => f y / h y)).
  - assert (L : locally x (fun y => h y <> 0)) by exact (Ch (fun z => z <> 0) (open_neq 0 (h x) Nz)).
    apply (filter_imp (fun y => h y <> 0)); [|exact L].
    intros y Hy. symmetry. apply gratio_nz, Hy.
  - unfold Rdiv. apply (continuous_mult f (fun y => / h y)); [exact Cf|].
    apply (continuous_comp h Rinv); [exact Ch|]. apply continuous_Rinv. exact Nz.
Qed.
Lemma cont_div (f h : R -> R) x : continuous f x -> continuous h x -> h x <> 0 -> continuous (fun y => f y / h y) x.
Proof.
  intros Cf Ch Nz. unfold Rdiv. apply (continuous_mult f (fun y => / h y)); [exact Cf|].
  apply (continuous_comp h Rinv); [exact Ch|]. apply continuous_Rinv. exact Nz.
Qed.
Lemma max_formula a b : (a + b + Rabs (a - b)) * / 2 = Rmax a b.
Proof. unfold Rmax. destruct (Rle_dec a b); [rewrite Rabs_left1 by lra|rewrite Rabs_right by lra]; field. Qed.
Lemma min_formula a b : a + b - Rmax a b = Rmin a b.
Proof. unfold Rmax, Rmin. destruct (Rle_dec a b); lra. Qed.
Lemma cont_max (f h : R -> R) x : continuous f x -> continuous h x -> continuous (fun y => Rmax (f y) (h y)) x.
Proof.
  intros Cf Ch. apply (continuous_ext (fun y => (f y + h y + Rabs (f y - h y)) * / 2)).
  - intros y. apply max_formula.
  - apply (continuous_mult (fun y => f y + h y + Rabs (f y - h y)) (fun _ => / 2)); [|apply continuous_const].
    apply (continuous_plus (fun y => f y + h y) (fun y => Rabs (f y - h y))).
    + apply (continuous_plus f h); assumption.
    + apply (continuous_comp (fun y => f y - h y) Rabs); [apply (continuous_minus f h); assumption|].
      apply continuous_Rabs.
Qed.
Lemma cont_min (f h : R -> R) x : continuous f x -> continuous h x -> continuous (fun y => Rmin (f y) (h y)) x.
Proof.
  intros Cf Ch. apply (continuous_ext (fun y => f y + h y - Rmax (f y) (h y))).
  - intros y. apply min_formula.
  - apply (continuous_minus (fun y => f y + h y) (fun y => Rmax (f y) (h y))).
    + apply (continuous_plus f h); assumption.
    + apply cont_max; assumption.
Qed.
Lemma cont_sqrt (f : R -> R) x : continuous f x -> continuous (fun y => sqrt (f y)) x.
Proof. intros Cf. apply (continuous_comp f sqrt); [exact Cf|apply continuous_sqrt]. Qed.
Lemma cont_mult (f h : R -> R) x : continuous f x -> continuous h x -> continuous (fun y => f y * h y) x.
Proof. intros. apply (continuous_mult f h); assumption. Qed.
Lemma cont_plus (f h : R -> R) x : continuous f x -> continuous h x -> continuous (fun y => f y + h y) x.
Proof. intros. apply (continuous_plus f h); assumption. Qed.
Lemma cont_minus (f h : R -> R) x : continuous f x -> continuous h x -> continuous (fun y => f y - h y) x.
Proof. intros. apply (continuous_minus f h); assumption. Qed.
Lemma cont_c (k x : R) : continuous (fun _ : R => k) x.
Proof. apply continuous_const. Qed.
Lemma cont_id (x : R) : continuous (fun y : R => y) x.
Proof. apply continuous_id. Qed.

Lemma vhat_fst v0 mu rb : fst (vhatsq_mu v0 mu rb) = Rmin (mu * mu * rb) v0.
Proof.
  unfold vhatsq_mu. destruct (Rlt_bool_spec v0 (mu * mu * rb)) as [K|K]; cbn [fst];
    [rewrite Rmin_right by lra|rewrite Rmin_left by lra]; reflexivity.
Qed.
Lemma rhohat_fst D flr y : fst (rhohat_mu D flr y) = Rmax (D * y) flr.
Proof.
  unfold rhohat_mu. destruct (Rle_bool_spec (D * y) flr) as [K|K]; cbn [fst];
    [rewrite Rmax_right by lra|rewrite Rmax_left by lra]; reflexivity.
Qed.
Lemma ehat_fst D flr emax efl mu qb rb V W : efl (Rmax (D * gratio 1 W) flr) <= emax ->
  fst (fst (ehat_mu D flr emax efl mu qb rb V W))
  = Rmin (Rmax (W * (qb - mu * rb) + V * W * gratio W (1 + W)) (efl (Rmax (D * gratio 1 W) flr))) emax.
Proof.
  intros Hle. unfold ehat_mu. rewrite rhohat_fst. set (e := W * (qb - mu * rb) + _).
  set (f := efl _) in *. destruct (Rle_bool_spec e f) as [K|K]; cbn [fst].
  - rewrite Rmax_right by lra. rewrite Rmin_left by lra. reflexivity.
  - rewrite Rmax_left by lra. destruct (Rlt_bool_spec emax e) as [K2|K2]; cbn [fst];
      [rewrite Rmin_right by lra|rewrite Rmin_left by lra]; reflexivity.
Qed.

(** Tactic: compositional continuity *)
Ltac cont := repeat first
  [ apply cont_c | apply cont_id | assumption
  | apply cont_minus | apply cont_plus | apply cont_mult | apply cont_max | apply cont_min | apply cont_sqrt ].

Section Cont.
Variables (D q bsq bsq_rpsq rsq rbsq v0 flr emax : R) (efl : R -> R) (P : R -> R -> R).
Hypothesis B0 : 0 <= bsq.
Hypothesis R0 : 0 <= rsq.
Hypothesis RB0 : 0 <= rbsq.
Hypothesis V0 : v0 < 1.
Hypothesis E0 : 0 < emax.
Hypothesis F0 : forall rho, flr <= rho -> 0 < efl rho.
Hypothesis F1 : forall rho, flr <= rho -> efl rho <= emax.
Hypothesis F2 : forall rho, flr <= rho -> continuous efl rho.
Hypothesis P0 : forall rho e, flr <= rho -> 0 < e -> 0 <= P rho e.
Hypothesis P1 : forall rho e, flr <= rho -> 0 < e -> continuous (fun z : R * R => P (fst z) (snd z)) (rho, e).

Lemma residual_cont mu : 0 <= mu -> continuous (residual D q bsq bsq_rpsq rsq rbsq v0 flr emax efl P) mu.
Proof.
  intros Hm.
  set (X := x_mu bsq). set (RB := fun m => rbarsq_mu rsq rbsq m (X m)). set (QB := fun m => qbar_mu q bsq bsq_rpsq m (X m)).
  set (V := fun m => Rmin (m * m * RB m) v0). set (iW := fun m => sqrt (1 - V m)). set (W := fun m => gratio 1 (iW m)).
  set (rh := fun m => Rmax (D * iW m) flr). set (rh' := fun m => Rmax (D * gratio 1 (W m)) flr).
  set (sie := fun m => Rmin (Rmax (W m * (QB m - m * RB m) + V m * W m * gratio (W m) (1 + W m)) (efl (rh' m))) emax).
  set (Ph := fun m => P (rh m) (sie m)).
  set (aa := fun m => Ph m / Rmax (rh m * (1 + sie m) + Ph m - Ph m) EPS).
  set (den := fun m => Rmax ((1 + aa m) * (1 + sie m) * iW m) ((1 + aa m) * (1 + QB m - m * RB m)) + m * RB m).
  assert (MB : 0 <= mu * bsq) by (apply Rmult_le_pos; assumption).
  assert (Xp : 0 < X mu).
  { unfold X, x_mu. rewrite gratio_nz by lra. apply Rdiv_lt_0_compat; lra. }
  assert (CX : continuous X mu) by (unfold X, x_mu; apply cont_gratio; [cont|cont|lra]).
  assert (CRB : continuous RB mu) by (unfold RB, rbarsq_mu; cont).
  assert (CQB : continuous QB mu) by (unfold QB, qbar_mu; cont).
  assert (CV : continuous V mu) by (unfold V; cont).
  assert (CiW : continuous iW mu) by (unfold iW; cont).
  assert (Vm : forall m, V m <= v0) by (intros m; apply Rmin_r).
  assert (iWp : forall m, 0 < iW m) by (intros m; unfold iW; apply sqrt_lt_R0; pose proof (Vm m); lra).
  assert (CW : continuous W mu) by (unfold W; apply cont_gratio; [cont|assumption|apply Rgt_not_eq, iWp]).
  assert (Wp : forall m, 0 < W m) by (intros m; unfold W; rewrite gratio_nz by (apply Rgt_not_eq, iWp); apply Rdiv_lt_0_compat; [lra|apply iWp]).
  assert (Crh : continuous rh mu) by (unfold rh; cont).
  assert (Crh' : continuous rh' mu).
  { unfold rh'. apply cont_max; [|cont]. apply cont_mult; [cont|]. apply cont_gratio; [cont|assumption|apply Rgt_not_eq, Wp]. }
  assert (Fr : forall m, flr <= rh m) by (intros; apply Rmax_r). assert (Fr' : forall m, flr <= rh' m) by (intros; apply Rmax_r).
  assert (Csie : continuous sie mu).
  { unfold sie. apply cont_min; [|cont]. apply cont_max.
    - apply cont_plus; [cont|]. apply cont_mult; [cont|]. apply cont_gratio; [assumption|cont|]. pose proof (Wp mu). lra.
    - apply (continuous_comp rh' efl); [assumption|]. apply F2, Fr'. }
  assert (sp : forall m, 0 < sie m).
  { intros m. unfold sie. apply Rmin_glb_lt; [|exact E0]. eapply Rlt_le_trans; [apply (F0 (rh' m)), Fr'|apply Rmax_r]. }
  assert (CPh : continuous Ph mu).
  { unfold Ph. apply (continuous_comp_2 rh sie P mu Crh Csie). apply P1; [apply Fr|apply sp]. }
  pose proof EPS_pos as Ep.
  assert (Mx : forall y, 0 < Rmax y EPS) by (intros y; eapply Rlt_le_trans; [|apply Rmax_r]; lra).
  assert (Caa : continuous aa mu) by (unfold aa; apply cont_div; [assumption|cont|apply Rgt_not_eq, Mx]).
  assert (Cden : continuous den mu) by (unfold den; cont).
  assert (Dn : den mu <> 0).
  { assert (0 <= aa mu).
    { unfold aa, Rdiv. apply Rmult_le_pos; [apply P0; [apply Fr|apply sp]|]. left; apply Rinv_0_lt_compat, Mx. }
    assert (0 <= RB mu).
    { unfold RB, rbarsq_mu. assert (0 <= X mu * rsq) by (apply Rmult_le_pos; lra).
      assert (0 <= mu * (1 + X mu) * rbsq) by (repeat apply Rmult_le_pos; lra). apply Rmult_le_pos; lra. }
    assert (0 < (1 + aa mu) * (1 + sie mu) * iW mu).
    { pose proof (sp mu). pose proof (iWp mu). repeat apply Rmult_lt_0_compat; lra. }
    unfold den. pose proof (Rmax_l ((1 + aa mu) * (1 + sie mu) * iW mu) ((1 + aa mu) * (1 + QB mu - mu * RB mu))).
    assert (0 <= mu * RB mu) by (apply Rmult_le_pos; assumption). lra. }
  apply (continuous_ext (fun m => m - 1 / den m)).
  - intros m. unfold residual. fold X. change (rbarsq_mu rsq rbsq m (X m)) with (RB m). change (qbar_mu q bsq bsq_rpsq m (X m)) with (QB m).
    rewrite vhat_fst. fold (V m). unfold iWhat_mu. fold (iW m). fold (W m). rewrite rhohat_fst. fold (rh m).
    rewrite ehat_fst by (fold (rh' m); apply F1, Fr'). fold (rh' m). fold (sie m). fold (Ph m). rewrite make_positive_R, std_max_R. fold (aa m).
    reflexivity.
  - apply cont_minus; [cont|]. apply cont_div; [cont|assumption|exact Dn].
Qed.
End Cont.

Section S.
Variables (alpha : R) (beta : vec) (g ginv gamma gi : mat) (sg sgg : R).
Hypothesis H : adm_consistent alpha beta g ginv gamma gi sg sgg.
Let T := adm_tpo _ _ _ _ _ _ _ _ H.
Let cell := mkCell g gi beta sg alpha.
Variables (valencia mhd hasye : bool) (eos : EOS) (L : Limits) (c : Cons).
Hypothesis Hg : 1 <= l_gam_max L.
Hypothesis He : 0 < l_e_max L.
Hypothesis Hfl : forall rho, s_rhoflr L <= rho -> 0 < s_efl L rho.
Hypothesis HP : forall rho e y, s_rhoflr L <= rho -> 0 < e -> 0 <= eos_P eos rho e y.
Let f := s_residual valencia mhd hasye eos L cell c.

Lemma res0 : f 0 < 0.
Proof. exact (proj1 (res_sign _ _ _ _ _ _ _ _ H valencia mhd hasye eos L c 0 (Rle_refl 0) Hg He Hfl HP) eq_refl). Qed.
Lemma res1 : 0 < f 1.
Proof. exact (proj1 (proj2 (res_sign _ _ _ _ _ _ _ _ H valencia mhd hasye eos L c 1 Rle_0_1 Hg He Hfl HP)) eq_refl). Qed.

Hypothesis Hle : forall rho, s_rhoflr L <= rho -> s_efl L rho <= l_e_max L.
Hypothesis Cfl : forall rho, s_rhoflr L <= rho -> continuous (s_efl L) rho.
Hypothesis CP : forall rho e y, s_rhoflr L <= rho -> 0 < e -> continuous (fun z : R * R => eos_P eos (fst z) (snd z) y) (rho, e).

Lemma res_cont mu : 0 <= mu -> continuous f mu.
Proof.
  intros Hm. pose proof (tpo_gpd _ _ _ _ T) as Pd.
  apply residual_cont; try assumption; [| | | |intros; apply HP; assumption|intros; apply CP; assumption].
  - unfold cell. rewrite (F_bsq _ _ _ _ _ _ _ _ H). apply pd_nonneg, Pd.
  - unfold cell. rewrite (F_rsq _ _ _ _ _ _ _ _ H). apply pd_nonneg, Pd.
  - unfold cell. rewrite (F_rbsq _ _ _ _ _ _ _ _ H). apply Rle_0_sqr.
  - exact (proj2 (v0_range _ _ _ _ _ _ _ _ H L c Hg)).
Qed.
Lemma res_cont_on : continuous_on f 0 1.
Proof. intros x [Hx _]. apply continuity_pt_filterlim. apply res_cont. exact Hx. Qed.
End S.
