(** C51 continued: the signal speeds stored by the classic inversion. *)
From Coq Require Import Reals Arith ZArith Lia Lra Psatz Bool.
From Flocq Require Import Core.
From Verif.Spec Require Import Tensor GeomSpec SystemSpec Relativity GRMHD.
From Verif.Model Require Import Num Robust Geometry Relativity Prim2Con Con2PrimClassic.
From Verif.Proofs Require Import NumR RobustProofs TensorTac LinearAlgebraProofs GeomBase AdmProofs RelProofs
  RelativityProofs Prim2ConProofs P2CSimple FlatWitness SignalProofs FaceProofs ClassicProofs ClassicInverse.
From Verif.Properties Require Import P_Con2PrimClassic P_ClassicNewton P_Riemann.
Local Open Scope R_scope.

(** the speeds of Finalize in terms of its other results *)
Lemma fin_sig mhd hasye eos cell C x rho Temp d : x_D x / rho <> 0 ->
  let o := finalize_classic mhd hasye eos cell C x rho Temp in
  let W := x_D x / rho in
  p_sig o d = (let '(vp, vm) := signal_vpm (classic_fast2 (x_BdotS x) (x_Bsq x) (rho + p_eng o + p_prs o) W (p_gm1 o) (p_prs o))
                 (fun i => p_vel o i / W) (1 - 1 / (W * W)) (cg_lapse cell) (cg_beta cell) (cg_gcon cell) d in
               std_max (Rabs vp) (Rabs vm)).
Proof.
  intros HW o W.
  assert (K : exists w : vec, (forall i, p_vel o i = W * w i) /\
    p_sig o d = (let '(vp, vm) := signal_vpm (classic_fast2 (x_BdotS x) (x_Bsq x) (rho + p_eng o + p_prs o) W (p_gm1 o) (p_prs o))
                 w (1 - 1 / (W * W)) (cg_lapse cell) (cg_beta cell) (cg_gcon cell) d in std_max (Rabs vp) (Rabs vm))).
  { eexists. split; [intros i; unfold o, finalize_classic; cbn [p_vel]; fold W; reflexivity|reflexivity]. }
  destruct K as (w & K1 & K2). rewrite K2. unfold signal_vpm. rewrite K1. replace (W * w d / W) with (w d) by (field; exact HW). reflexivity.
Qed.

(** After inverting the conserved state of a fluid, the stored speed of each direction is
    that of a front moving at the fast speed in which b^2 has been replaced by W^2 b^2.
    It therefore bounds every front up to the true fast speed, the fluid velocity and p2c's
    own estimate, and is not faster than light. *)
Theorem C51_signal : forall alpha beta g ginv gamma gi sg sgg,
  adm_consistent alpha beta g ginv gamma gi sg sgg ->
  forall (mhd hasye : bool) (eos : TEOS) rho Temp vp B u ye p gam1 vel0 ye0,
  ye_blind eos \/ hasye = false ->
  0 < rho -> 0 < p -> 0 < rho + u + p -> p = t_P eos rho Temp 0 -> u = rho * t_E eos rho Temp 0 ->
  mhd = true \/ (forall i, (i < 3)%nat -> B i = 0) ->
  let cell := mkCGeom gamma gi beta sg alpha in
  let C := p2c true rho vp B u ye p gam1 g gi beta alpha sg in
  let o := finalize_classic mhd hasye eos cell C (setup_classic mhd hasye cell C vel0 ye0) rho Temp in
  0 <= p_gm1 o * p < rho + u + p ->
  let W := GetLorentzFactor vp gamma in
  let ucon := GetFourVelocity vp gamma alpha beta in
  let b2 := bsquared g (comoving_field g W ucon B) in
  forall d, (d < 3)%nat ->
    (exists x, wave ginv ucon (fast2 rho u p (p_gm1 o) (W * W * b2)) d x /\ p_sig o d = Rabs x) /\
    (forall c x, 0 <= c <= fast2 rho u p (p_gm1 o) b2 -> wave ginv ucon c d x -> Rabs x <= p_sig o d) /\
    Rabs (ucon (S d) / ucon 0%nat) <= p_sig o d <= alpha * sqrt (gi d d) + Rabs (beta d) /\
    csig (p2c true rho vp B u ye p (p_gm1 o) g gi beta alpha sg) d <= p_sig o d.
Proof.
  intros alpha beta g ginv gamma gi sg sgg H mhd hasye eos rho Temp vp B u ye p gam1 vel0 ye0 Yb Hr Pp Hh Hp Hu HB cell C o Hg W ucon b2 d Hd.
  destruct (C51_round_trip _ _ _ _ _ _ _ _ H mhd hasye eos rho Temp vp B u ye p gam1 vel0 ye0 Yb Hr Hh Hp Hu HB) as (_ & _ & _ & Ee & Ep & Ev & EBf & _).
  fold cell C in Ee, Ep, Ev, EBf. set (x := setup_classic mhd hasye cell C vel0 ye0) in *. fold o in Ee, Ep, Ev, EBf.
  pose proof (proj1 (adm_det3 _ _ _ _ _ _ _ _ H)) as sp.
  assert (W1 : 1 <= W) by exact (lorentz_ge1 _ _ _ _ vp (adm_tpo _ _ _ _ _ _ _ _ H)).
  set (v := fun i => vp i * (1 / W)). set (Bv := dot3 gamma B v). set (B2 := dot3 gamma B B).
  assert (Eb : b2 = B2 / (W * W) + Bv * Bv) by exact (bsq_eq _ _ _ _ _ _ _ _ H vp B).
  assert (B2p : 0 <= B2) by (apply pd_nonneg; exact (adm_gamma_pd _ _ _ _ _ _ _ _ H)).
  assert (b2p : 0 <= b2).
  { rewrite Eb. assert (0 <= B2 / (W * W)). { apply Rmult_le_pos; [exact B2p|]. left. apply Rinv_0_lt_compat. nra. } pose proof (Rle_0_sqr Bv) as Q. unfold Rsqr in Q. lra. }
  set (b2' := W * W * b2). assert (H0 : b2' = B2 + (W * Bv) * (W * Bv)) by (unfold b2'; rewrite Eb; field; lra).
  assert (bb : b2 <= b2').
  { unfold b2'. clearbody W b2. assert (1 * b2 <= W * W * b2); [|lra]. apply Rmult_le_compat_r; [exact b2p|]. nra. }
  set (Hn := rho + u + p) in *. set (gm := p_gm1 o) in *.
  set (cs2 := gm * p / Hn). assert (Cs : 0 <= cs2 < 1).
  { unfold cs2. split; [apply Rmult_le_pos; [lra|left; apply Rinv_0_lt_compat; lra]|]. apply (Rmult_lt_reg_r Hn); [lra|]. unfold Rdiv. rewrite Rmult_assoc, Rinv_l by lra. lra. }
  (* the effective adiabatic index that turns the estimate of p2c into the one of Finalize *)
  set (cf' := fast2 rho u p gm b2').
  assert (Ecf' : 1 - cf' = (1 - cs2) * (Hn / (Hn + b2'))).
  { unfold cf', fast2, sound2, alfven2. fold Hn. fold cs2. field. lra. }
  set (k := (1 - cs2) * ((Hn + b2) / (Hn + b2'))).
  assert (Kr : 0 < k <= 1).
  { unfold k. assert (Q : 0 < (Hn + b2) / (Hn + b2') <= 1).
    { split; [apply Rdiv_lt_0_compat; lra|]. apply (Rmult_le_reg_r (Hn + b2')); [lra|]. unfold Rdiv. rewrite Rmult_assoc, Rinv_l by lra. lra. } nra. }
  set (gm' := (1 - k) * Hn / p).
  assert (Gp : gm' * p = (1 - k) * Hn) by (unfold gm'; field; lra).
  assert (Gr : 0 <= gm' * p < rho + u + p) by (rewrite Gp; fold Hn; nra).
  assert (Ecf : fast2 rho u p gm' b2 = cf').
  { unfold fast2, sound2, alfven2. fold Hn. rewrite Gp.
    assert (E : 1 - ((1 - k) * Hn / Hn + b2 / (Hn + b2) - (1 - k) * Hn / Hn * (b2 / (Hn + b2))) = 1 - cf').
    { rewrite Ecf'. unfold k. field. repeat split; lra. }
    lra. }
  pose proof (W_sq _ _ _ _ _ _ _ _ H vp) as W2. fold W in W2.
  assert (ED : x_D x = rho * W). { unfold x. rewrite (set_D _ _ _ _ _ _ _ _ H). unfold C. rewrite (C_D _ _ _ _ _ _ _ _ H). fold W. field. lra. }
  assert (EW : x_D x / rho = W) by (rewrite ED; field; lra).
  assert (EBx : eq3 (x_B x) B) by exact EBf.
  assert (EBsq : x_Bsq x = B2). { unfold x, cell. rewrite set_Bsq. fold cell x. apply dot3_ext; exact EBx. }
  set (z := Hn * (W * W)). set (s := fun i => cS C i / sg).
  assert (Es : forall m, (m < 3)%nat -> s m = (z + B2) * lower3 gamma v m - Bv * lower3 gamma B m).
  { intros m Hm. unfold s, C. rewrite (s_C_S _ _ _ _ _ _ _ _ H) by exact Hm. fold W. fold v. fold B2 Bv Hn z. field. lra. }
  assert (EBS : x_BdotS x = z * Bv).
  { unfold x. rewrite (set_BS _ _ _ _ _ _ _ _ H). fold cell x. change (sum3 (fun i => x_B x i * s i) = z * Bv).
    transitivity ((z + B2) * dot3 gamma B v - Bv * dot3 gamma B B); [|fold Bv B2; ring].
    unfold sum3. rewrite !EBx, !Es by lia. unfold dot3, lower3, sum3. ring. }
  assert (EQ : dot3 gamma v v = 1 - 1 / (W * W)).
  { unfold v. rewrite scale_dot3. replace (dot3 gamma vp vp) with (W * W - 1) by lra. field. lra. }
  assert (Esig : p_sig o d = csig (p2c true rho vp B u ye p gm' g gi beta alpha sg) d).
  { unfold o. rewrite fin_sig by (rewrite EW; lra). fold o. rewrite EW, Ee, Ep. fold Hn gm. cbn [cg_lapse cg_beta cg_gcon cell].
    unfold p2c; cbn [csig]. unfold signal_speeds.
    assert (WE : GetLorentzFactor4 vp g = W) by exact (W_eq _ _ _ _ _ _ _ _ H vp). rewrite WE.
    rewrite !(dot_block _ _ _ _ _ _ _ _ H). fold v. fold Bv. fold B2. rewrite EQ.
    assert (Eb1 : B2 * (1 / W) * (1 / W) + Bv * Bv = b2) by (rewrite Eb; field; lra). rewrite Eb1.
    assert (Ef : fast_speed_sq rho u p b2 gm' = cf') by (rewrite <- Ecf; unfold fast_speed_sq, fast2, sound2, alfven2; ring). rewrite Ef.
    assert (Ec : classic_fast2 (x_BdotS x) (x_Bsq x) Hn W gm p = cf').
    { rewrite EBS, EBsq. unfold classic_fast2. replace (z * Bv / (Hn * W)) with (W * Bv) by (unfold z; field; lra).
      rewrite <- H0. unfold cf', fast2, sound2, alfven2. fold Hn. ring. }
    rewrite Ec. unfold signal_vpm. rewrite (Ev d Hd). replace (v d) with (vp d / W) by (unfold v; field; lra). reflexivity. }
  pose proof (C20_cell_speeds _ _ _ _ _ _ _ _ H rho vp B u ye p gm' true Hh Gr) as (Cf & K).
  fold W ucon b2 in Cf, K. rewrite Ecf in Cf, K. specialize (K d Hd). destruct K as (K1 & K2 & K3 & K4).
  pose proof (C20_cell_speeds _ _ _ _ _ _ _ _ H rho vp B u ye p gm true Hh Hg) as (Cf0 & K0).
  fold W ucon b2 in Cf0, K0. specialize (K0 d Hd). destruct K0 as ((x0 & X1 & X2) & _).
  rewrite <- Esig in K1, K2, K3, K4.
  assert (Mono : fast2 rho u p gm b2 <= cf').
  { assert (E0 : 1 - fast2 rho u p gm b2 = (1 - cs2) * (Hn / (Hn + b2))).
    { unfold fast2, sound2, alfven2. fold Hn. fold cs2. field. lra. }
    assert (Q : Hn / (Hn + b2') <= Hn / (Hn + b2)).
    { unfold Rdiv. apply Rmult_le_compat_l; [lra|]. apply Rinv_le_contravar; lra. }
    pose proof (Rmult_le_compat_l (1 - cs2) _ _ ltac:(lra) Q). lra. }
  split; [exact K1|]. split; [|split; [split; [exact K3|exact K4]|]].
  - intros c y [C1 C2] Wy. apply (K2 c y); [split; [exact C1|lra]|exact Wy].
  - rewrite X2. apply (K2 (fast2 rho u p gm b2) x0); [split; [lra|exact Mono]|exact X1].
Qed.
Print Assumptions C51_signal.

(** gas in flat space moving along x at 3/5 across a field along y *)
Definition crossing (gm : R) : Cons := p2c true 1 (v3 (3/4) 0 0) (v3 0 1 0) 1 (1/2) 1 gm eta4 delta zero3 1 1.
Definition crossing_out : Prims :=
  finalize_classic true false gasT flatC (crossing 2) (setup_classic true false flatC (crossing 2) zero3 (1/2)) 1 1.
Lemma crossing_W : GetLorentzFactor (v3 (3/4) 0 0) delta = 5/4.
Proof.
  unfold GetLorentzFactor, v3, delta, sum3; cbn [Nat.eqb].
  transitivity (sqrt (5/4 * (5/4))); [f_equal; field|apply sqrt_square; lra].
Qed.
Lemma crossing_wave c x :
  wave eta4 (GetFourVelocity (v3 (3/4) 0 0) delta 1 zero3) c 1 x -> x * x * (25 - 9 * c) = 16 * c.
Proof.
  unfold wave, omega2, norm2, front, GetFourVelocity. rewrite crossing_W. unfold eta4, v3, zero3, sum4; cbn [Nat.eqb]. intros E.
  rewrite gratio_nz in E by (rewrite Rabs_R1; lra). rewrite Rabs_R1 in E. unfold delta in E; cbn [Nat.eqb] in E. nra.
Qed.
Lemma crossing_b2 : bsquared eta4 (comoving_field eta4 (5/4) (GetFourVelocity (v3 (3/4) 0 0) delta 1 zero3) (v3 0 1 0)) = 16/25.
Proof.
  pose proof (bsq_eq _ _ _ _ _ _ _ _ eta4_consistent (v3 (3/4) 0 0) (v3 0 1 0)) as K. cbv zeta in K. rewrite crossing_W in K. rewrite K.
  unfold dot3, sum3, delta, v3; cbn [Nat.eqb]. field.
Qed.
Lemma crossing_signal :
  (exists x, x * x * (25 - 9 * (3/4)) = 16 * (3/4) /\ p_sig crossing_out 1%nat = Rabs x) /\
  (exists x, x * x * (25 - 9 * (66/91)) = 16 * (66/91) /\ csig (crossing 2) 1%nat = Rabs x) /\
  csig (crossing 2) 1%nat <= p_sig crossing_out 1%nat.
Proof.
  assert (G : p_gm1 crossing_out = 2) by (unfold crossing_out, finalize_classic; cbn [p_gm1 t_B t_P gasT]; field).
  pose proof (C51_signal _ _ _ _ _ _ _ _ eta4_consistent true false gasT 1 1 (v3 (3/4) 0 0) (v3 0 1 0) 1 (1/2) 1 2 zero3 (1/2)
    (or_introl gasT_blind) ltac:(lra) ltac:(lra) ltac:(lra) ltac:(cbn [t_P gasT]; ring) ltac:(cbn [t_E gasT]; ring) (or_introl eq_refl)) as K.
  cbv zeta in K. change (mkCGeom delta delta zero3 1 1) with flatC in K. fold (crossing 2) in K. fold crossing_out in K.
  rewrite G in K. specialize (K ltac:(split; lra) 1%nat ltac:(lia)). rewrite crossing_W, crossing_b2 in K. destruct K as ((x & X1 & X2) & _ & _ & K).
  split; [|split].
  - exists x. split; [|exact X2]. apply crossing_wave.
    assert (E : fast2 1 1 1 2 (5 / 4 * (5 / 4) * (16 / 25)) = 3/4) by (unfold fast2, sound2, alfven2; field). rewrite E in X1. exact X1.
  - pose proof (C20_cell_speeds _ _ _ _ _ _ _ _ eta4_consistent 1 (v3 (3/4) 0 0) (v3 0 1 0) 1 (1/2) 1 2 true ltac:(lra) ltac:(split; lra)) as [_ L].
    specialize (L 1%nat ltac:(lia)). rewrite crossing_W, crossing_b2 in L. destruct L as ((y & Y1 & Y2) & _).
    exists y. split; [|exact Y2]. apply crossing_wave.
    replace (66/91) with (fast2 1 1 1 2 (16 / 25)) by (unfold fast2, sound2, alfven2; field). exact Y1.
  - exact K.
Qed.

(** The stored speed is not the fluid's own fast speed: the Alfven speed is computed with
    b^2 W^2 in place of b^2.  The estimate of p2c for the same state is strictly smaller. *)
Theorem C51_signal_refuted :
  exists alpha beta g ginv gamma gi sg sgg, adm_consistent alpha beta g ginv gamma gi sg sgg /\
  exists rho Temp vp B u ye p, 0 < rho /\ p = t_P gasT rho Temp 0 /\ u = rho * t_E gasT rho Temp 0 /\
  let cell := mkCGeom gamma gi beta sg alpha in
  let C := p2c true rho vp B u ye p 2 g gi beta alpha sg in
  let o := finalize_classic true false gasT cell C (setup_classic true false cell C zero3 ye) rho Temp in
  p_rho o = rho /\ eq3 (p_vel o) vp /\ eq3 (p_B o) B /\ p_eng o = u /\ p_prs o = p /\ p_gm1 o = 2 /\
  exists d, (d < 3)%nat /\ csig C d < p_sig o d.
Proof.
  exists 1, zero3, eta4, eta4, delta, delta, 1, 1. split; [exact eta4_consistent|].
  exists 1, 1, (v3 (3/4) 0 0), (v3 0 1 0), 1, (1/2), 1. split; [lra|].
  split; [cbn [t_P gasT]; ring|]. split; [cbn [t_E gasT]; ring|]. intros cell C o.
  pose proof (C51_round_trip _ _ _ _ _ _ _ _ eta4_consistent true false gasT 1 1 (v3 (3/4) 0 0) (v3 0 1 0) 1 (1/2) 1 2 zero3 (1/2)
    (or_introl gasT_blind) ltac:(lra) ltac:(lra) ltac:(cbn [t_P gasT]; ring) ltac:(cbn [t_E gasT]; ring) (or_introl eq_refl)) as K.
  cbv zeta in K. fold cell in K. fold C in K. fold o in K. destruct K as (_ & K1 & _ & K2 & K3 & K4 & K5 & _).
  split; [exact K1|]. split; [exact K4|]. split; [exact K5|]. split; [exact K2|]. split; [exact K3|].
  split; [unfold o, finalize_classic; cbn [p_gm1 t_B t_P gasT]; field|]. exists 1%nat. split; [lia|].
  destruct crossing_signal as ((x & X1 & X2) & (y & Y1 & Y2) & Q). change (csig (crossing 2) 1%nat < p_sig crossing_out 1%nat).
  destruct Q as [Q|Q]; [exact Q|]. exfalso. rewrite X2, Y2 in Q.
  assert (E : y * y = x * x). { pose proof (Rsqr_abs x) as A1. pose proof (Rsqr_abs y) as A2. unfold Rsqr in *. rewrite A1, A2, Q. reflexivity. }
  nra.
Qed.
Print Assumptions C51_signal_refuted.

(** the hypotheses of C51_signal are met by a moving, magnetised gas (above), and its
    bounds are not trivial there: the stored speed lies strictly between 0 and 1 *)
Example C51_signal_nonvacuous : 0 < p_sig crossing_out 1%nat < 1.
Proof.
  destruct crossing_signal as ((x & X1 & X2) & _). rewrite X2.
  assert (E : Rabs x * Rabs x = 48/73). { rewrite <- Rabs_mult. rewrite Rabs_pos_eq; lra || (apply Rle_0_sqr). }
  pose proof (Rabs_pos x). split; nra.
Qed.
