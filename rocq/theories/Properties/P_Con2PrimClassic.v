(** C51: the classic (two-dimensional Newton) conserved-to-primitive inversion. *)
From Coq Require Import Reals Arith ZArith Lia Lra Psatz Bool.
From Flocq Require Import Core.
From Verif.Spec Require Import Tensor GeomSpec SystemSpec Relativity GRMHD.
From Verif.Model Require Import Num Robust Geometry Relativity Prim2Con Con2PrimClassic.
From Verif.Proofs Require Import NumR RobustProofs TensorTac LinearAlgebraProofs GeomBase AdmProofs RelProofs
  RelativityProofs Prim2ConProofs P2CSimple FlatWitness SignalProofs ClassicProofs ClassicInverse.
Local Open Scope R_scope.

(** the pressure and the energy do not depend on the electron fraction *)
Definition ye_blind (eos : TEOS) : Prop :=
  forall r t y, t_P eos r t y = t_P eos r t 0 /\ t_E eos r t y = t_E eos r t 0.

(** The residual the solver drives to zero, for the conserved state [x] it has set up *)
Definition classic_residual (eos : TEOS) (x : Scratch) (rho Temp : R) : R * R :=
  residual (fun r t => t_P eos r t 0) (fun r t => t_E eos r t 0)
    (x_D x) (x_tau x) (x_Bsq x) (x_Ssq x) (x_BdotS x) rho Temp.

(** Every primitive state is a zero of the residual of its own conserved state, and
    Finalize, given its density and temperature, restores all of it - in every geometry,
    with and without field, in the Valencia formulation. *)
Theorem C51_round_trip : forall alpha beta g ginv gamma gi sg sgg,
  adm_consistent alpha beta g ginv gamma gi sg sgg ->
  forall (mhd hasye : bool) (eos : TEOS) rho Temp vp B u ye p gam1 vel0 ye0,
  ye_blind eos \/ hasye = false ->
  0 < rho -> 0 < rho + u + p -> p = t_P eos rho Temp 0 -> u = rho * t_E eos rho Temp 0 ->
  mhd = true \/ (forall i, (i < 3)%nat -> B i = 0) ->
  let cell := mkCGeom gamma gi beta sg alpha in
  let C := p2c true rho vp B u ye p gam1 g gi beta alpha sg in
  let x := setup_classic mhd hasye cell C vel0 ye0 in
  let o := finalize_classic mhd hasye eos cell C x rho Temp in
  classic_residual eos x rho Temp = (0, 0) /\
  p_rho o = rho /\ p_T o = Temp /\ p_eng o = u /\ p_prs o = p /\ eq3 (p_vel o) vp /\ eq3 (p_B o) B /\
  p_ye o = (if hasye then ye else ye0).
Proof.
  intros alpha beta g ginv gamma gi sg sgg H mhd hasye eos rho Temp vp B u ye p gam1 vel0 ye0 Yb Hr Hh Hp Hu HB cell C x o.
  pose proof (proj1 (adm_det3 _ _ _ _ _ _ _ _ H)) as sp.
  pose proof (lorentz_ge1 _ _ _ _ vp (adm_tpo _ _ _ _ _ _ _ _ H)) as W1.
  set (W := GetLorentzFactor vp gamma) in *.
  set (v := fun i => vp i * (1 / W)).
  assert (ED : x_D x = rho * W). { unfold x. rewrite (set_D _ _ _ _ _ _ _ _ H). unfold C. rewrite (C_D _ _ _ _ _ _ _ _ H). fold W. field. lra. }
  assert (EB : eq3 (x_B x) B).
  { intros i Hi. unfold x. rewrite (set_B _ _ _ _ _ _ _ _ H). destruct mhd.
    - unfold C, p2c. cbn [cB]. field. lra.
    - destruct HB as [HB|HB]; [discriminate|]. symmetry. apply HB. exact Hi. }
  set (B2 := dot3 gamma B B). set (Bv := dot3 gamma B v). set (z := (rho + u + p) * (W * W)).
  assert (Zp : 0 < z) by (unfold z; apply Rmult_lt_0_compat; [lra|nra]).
  assert (Bn : 0 <= B2) by (apply pd_nonneg; exact (adm_gamma_pd _ _ _ _ _ _ _ _ H)).
  set (s := fun i => cS C i / sg).
  assert (Es : forall m, (m < 3)%nat -> s m = (z + B2) * lower3 gamma v m - Bv * lower3 gamma B m).
  { intros m Hm. unfold s, C. rewrite (s_C_S _ _ _ _ _ _ _ _ H) by exact Hm. fold W. fold v. fold B2 Bv z. field. lra. }
  assert (EBsq : x_Bsq x = B2). { unfold x, cell. rewrite set_Bsq. fold cell x. apply dot3_ext; exact EB. }
  assert (EBS : x_BdotS x = z * Bv).
  { unfold x. rewrite (set_BS _ _ _ _ _ _ _ _ H). fold cell x. change (sum3 (fun i => x_B x i * s i) = z * Bv).
    transitivity ((z + B2) * dot3 gamma B v - Bv * dot3 gamma B B); [|fold Bv B2; ring].
    unfold sum3. rewrite !EB, !Es by lia. unfold dot3, lower3, sum3. ring. }
  assert (Er : eq3 (raise gi s) (fun i => (z + B2) * v i + - Bv * B i)).
  { intros i Hi. unfold raise. transitivity (sum3 (fun j => gi i j * lower3 gamma (fun k => (z + B2) * v k + - Bv * B k) j)).
    - unfold sum3. rewrite !lower3_lin, !Es by lia. ring.
    - set (w := fun k => (z + B2) * v k + - Bv * B k).
      transitivity (w 0%nat * mul3 gi gamma i 0%nat + w 1%nat * mul3 gi gamma i 1%nat + w 2%nat * mul3 gi gamma i 2%nat); [unfold lower3, mul3, sum3; ring|].
      rewrite !(fun j Hj => proj2 (adm_inv3 _ _ _ _ _ _ _ _ H i j Hi Hj)) by lia.
      destruct i as [|[|[|i]]]; [| | |lia]; unfold delta; cbn [Nat.eqb]; unfold w; ring. }
  assert (Evf : eq3 (vfin gamma gi s (x_B x) z) v).
  { intros i Hi. unfold vfin. rewrite Er, EB by exact Hi.
    replace (dot3 gamma (x_B x) (x_B x)) with B2 by (symmetry; apply dot3_ext; exact EB).
    replace (sum3 (fun j => x_B x j * s j)) with (z * Bv).
    - field. split; lra.
    - rewrite <- EBS. unfold x. rewrite (set_BS _ _ _ _ _ _ _ _ H). reflexivity. }
  assert (Evv : dot3 gamma v v = 1 - / (W * W)).
  { pose proof (W_sq _ _ _ _ _ _ _ _ H vp) as K. fold W in K.
    replace (dot3 gamma v v) with (dot3 gamma vp vp * (1 / W * (1 / W))) by (unfold v, dot3, sum3; ring).
    replace (dot3 gamma vp vp) with (W * W - 1) by lra. field. lra. }
  assert (ESsq : x_Ssq x = (z + B2) * (z + B2) * (1 - / (W * W)) - (2 * z + B2) * (Bv * Bv)).
  { unfold x. rewrite (set_Ssq _ _ _ _ _ _ _ _ H).
    match goal with |- _ = ?r => change (dot3 gi s s = r) end. rewrite <- (raise_raise _ _ _ _ _ _ _ _ H s).
    rewrite (dot3_ext gamma _ _ _ _ Er Er). rewrite dot3_lin, !dot3_linr.
    rewrite (dot3_sym _ v B) by exact (adm_gamma_sym _ _ _ _ _ _ _ _ H). fold Bv B2. rewrite Evv. ring. }
  assert (Etau : x_tau x = z - p + B2 - B2 / (2 * (W * W)) - Bv * Bv / 2 - rho * W).
  { unfold x. rewrite (set_tau _ _ _ _ _ _ _ _ H). unfold C. rewrite (s_C_tau _ _ _ _ _ _ _ _ H). fold W. fold v. fold Bv B2 z. field. split; lra. }
  assert (Elam : forall f, f = t_P eos rho Temp \/ f = t_E eos rho Temp -> f (if hasye then x_ye x else 0) = f 0).
  { intros f Hf. destruct Yb as [Yb|Yb].
    - destruct hasye; [|reflexivity]. destruct Hf as [Hf|Hf]; rewrite Hf; apply Yb.
    - rewrite Yb. reflexivity. }
  assert (EW : x_D x / rho = W) by (rewrite ED; field; lra).
  assert (Ez : forall e q, e = t_E eos rho Temp 0 -> q = t_P eos rho Temp 0 -> (rho * (1 + e) + q) * W * W = z).
  { intros e q He Hq. unfold z. rewrite Hu, Hp, He, Hq. ring. }
  split; [|split; [reflexivity|split; [reflexivity|]]].
  - unfold classic_residual. rewrite residual_R. cbv zeta. rewrite EW. rewrite (Ez _ _ eq_refl eq_refl).
    rewrite EBsq, EBS, ESsq, Etau, ED, <- Hp. f_equal; field; repeat split; lra.
  - split; [change (rho * t_E eos rho Temp (if hasye then x_ye x else 0) = u); rewrite (Elam _ (or_intror eq_refl)); symmetry; exact Hu|].
    split; [change (t_P eos rho Temp (if hasye then x_ye x else 0) = p); rewrite (Elam _ (or_introl eq_refl)); symmetry; exact Hp|].
    split; [|split; [exact EB|]].
    + intros i Hi. pose proof (fin_vel _ _ _ _ _ _ _ _ H mhd hasye C vel0 ye0 eos rho Temp i) as K. fold cell x in K. fold o in K.
      rewrite EW in K. rewrite Ez in K by (apply Elam; auto). rewrite EBsq in K.
      rewrite K by lra. change (W * vfin gamma gi s (x_B x) z i = vp i). rewrite Evf by exact Hi. unfold v. field. lra.
    + unfold o, x, setup_classic. cbn [p_ye finalize_classic x_ye]. destruct hasye; [|reflexivity].
      unfold C, p2c. cbn [cye cD]. rewrite (W_eq _ _ _ _ _ _ _ _ H). fold W. field. repeat split; lra.
Qed.
Print Assumptions C51_round_trip.

(** Conversely every zero of the residual - for any conserved state, physical or not - is a
    preimage: the finalized primitives map back to the conserved state. *)
Theorem C51_inverse : forall alpha beta g ginv gamma gi sg sgg,
  adm_consistent alpha beta g ginv gamma gi sg sgg ->
  forall (mhd hasye : bool) (eos : TEOS) (c : Cons) rho Temp vel0 ye0 gam1,
  ye_blind eos \/ hasye = false ->
  0 < cD c -> 0 < rho -> 0 < rho * (1 + t_E eos rho Temp 0) + t_P eos rho Temp 0 ->
  let cell := mkCGeom gamma gi beta sg alpha in
  let x := setup_classic mhd hasye cell c vel0 ye0 in
  let o := finalize_classic mhd hasye eos cell c x rho Temp in
  let n := p2c true (p_rho o) (p_vel o) (p_B o) (p_eng o) (p_ye o) (p_prs o) gam1 g gi beta alpha sg in
  classic_residual eos x rho Temp = (0, 0) ->
  cD n = cD c /\ eq3 (cS n) (cS c) /\ ctau n = ctau c /\
  (mhd = true -> eq3 (cB n) (cB c)) /\ (hasye = true -> cye n = cye c).
Proof.
  intros alpha beta g ginv gamma gi sg sgg H mhd hasye eos c rho Temp vel0 ye0 gam1 Yb HD Hr Hh cell x o n R0.
  pose proof (proj1 (adm_det3 _ _ _ _ _ _ _ _ H)) as sp.
  assert (Elam : forall f, f = t_P eos rho Temp \/ f = t_E eos rho Temp -> f (if hasye then x_ye x else 0) = f 0).
  { intros f Hf. destruct Yb as [Yb|Yb].
    - destruct hasye; [|reflexivity]. destruct Hf as [Hf|Hf]; rewrite Hf; apply Yb.
    - rewrite Yb. reflexivity. }
  unfold classic_residual in R0. rewrite residual_R in R0. cbv zeta in R0.
  set (W := x_D x / rho) in *.
  set (s := fun i => cS c i / sg).
  assert (ED : x_D x = cD c / sg) by (unfold x; apply (set_D _ _ _ _ _ _ _ _ H)).
  assert (WP : 0 < W). { unfold W. rewrite ED. apply Rdiv_lt_0_compat; [apply Rdiv_lt_0_compat; lra|lra]. }
  set (e := t_E eos rho Temp 0) in *. set (q := t_P eos rho Temp 0) in *.
  set (z := (rho * (1 + e) + q) * W * W) in *.
  assert (Zp : 0 < z) by (unfold z; apply Rmult_lt_0_compat; [apply Rmult_lt_0_compat|]; assumption).
  rewrite (set_BS _ _ _ _ _ _ _ _ H mhd hasye c vel0 ye0 : x_BdotS x = sum3 (fun i => x_B x i * s i)) in R0.
  rewrite (set_Ssq _ _ _ _ _ _ _ _ H mhd hasye c vel0 ye0 : x_Ssq x = dot3 gi s s) in R0.
  rewrite (set_Bsq alpha beta gamma gi sg mhd hasye c vel0 ye0 : x_Bsq x = dot3 gamma (x_B x) (x_B x)) in R0.
  assert (Ra := f_equal fst R0). assert (Rb := f_equal snd R0). cbn [fst snd] in Ra, Rb. clear R0.
  set (BB := dot3 gamma (x_B x) (x_B x)) in *. set (BS := sum3 (fun i => x_B x i * s i)) in *.
  assert (Bn : 0 <= BB) by (apply pd_nonneg; exact (adm_gamma_pd _ _ _ _ _ _ _ _ H)).
  assert (Ev : eq3 (p_vel o) (fun i => W * vfin gamma gi s (x_B x) z i)).
  { intros i Hi. unfold o. pose proof (fin_vel _ _ _ _ _ _ _ _ H mhd hasye c vel0 ye0 eos rho Temp i) as K. fold cell x in K. fold W in K.
    rewrite !Elam in K by auto. fold e q z s in K. apply K; [lra|]. rewrite (set_Bsq alpha beta gamma gi sg mhd hasye c vel0 ye0 : x_Bsq x = BB). lra. }
  assert (EW : GetLorentzFactor (p_vel o) gamma = W).
  { transitivity (GetLorentzFactor (fun i => W * vfin gamma gi s (x_B x) z i) gamma).
    - unfold GetLorentzFactor. f_equal. f_equal. unfold sum3. rewrite !Ev by lia. reflexivity.
    - apply (lorentz_vfin _ _ _ _ _ _ _ _ H); [exact Zp|exact WP|]. fold BB BS. exact Ra. }
  assert (Ee : p_eng o = rho * e) by (change (rho * t_E eos rho Temp (if hasye then x_ye x else 0) = rho * e); rewrite (Elam _ (or_intror eq_refl)); reflexivity).
  assert (Ep : p_prs o = q) by (change (t_P eos rho Temp (if hasye then x_ye x else 0) = q); rewrite (Elam _ (or_introl eq_refl)); reflexivity).
  assert (Ez : (rho + p_eng o + p_prs o) * (W * W) = z) by (rewrite Ee, Ep; unfold z; ring).
  assert (Evv : eq3 (fun i => p_vel o i * (1 / W)) (vfin gamma gi s (x_B x) z)).
  { intros i Hi. rewrite Ev by exact Hi. field. lra. }
  assert (EBv : dot3 gamma (x_B x) (fun i => p_vel o i * (1 / W)) = BS / z).
  { rewrite (dot3_ext gamma _ (x_B x) _ _ (fun i _ => eq_refl) Evv). apply (B_vfin _ _ _ _ _ _ _ _ H); fold BB; lra. }
  assert (EDn : cD n = cD c).
  { unfold n. rewrite (C_D _ _ _ _ _ _ _ _ H). rewrite EW. change (p_rho o) with rho. unfold W. rewrite ED. field. lra. }
  split; [exact EDn|]. split; [|split; [|split]].
  - intros m Hm. unfold n. rewrite (s_C_S _ _ _ _ _ _ _ _ H) by exact Hm. rewrite EW. change (p_rho o) with rho. change (p_B o) with (x_B x).
    rewrite Ez. rewrite EBv. fold BB.
    rewrite (lower3_ext gamma _ _ m Evv).
    pose proof (S_vfin _ _ _ _ _ _ _ _ H s (x_B x) z m Hm ltac:(lra) ltac:(fold BB; lra)) as K. fold BB BS in K. rewrite K. unfold s. field. lra.
  - unfold n. rewrite (s_C_tau _ _ _ _ _ _ _ _ H). rewrite EW. change (p_rho o) with rho. change (p_B o) with (x_B x).
    rewrite Ez, EBv. fold BB. rewrite Ep.
    assert (Et : x_tau x = ctau c / sg) by (unfold x; apply (set_tau _ _ _ _ _ _ _ _ H)).
    replace (ctau c) with (sg * x_tau x) by (rewrite Et; field; lra).
    replace (sg * rho * W) with (sg * x_D x) by (unfold W; field; lra).
    assert (K : x_tau x = z - q + BB - BB / (2 * (W * W)) - BS / z * (BS / z) / 2 - x_D x).
    { apply Rmult_eq_reg_r with (W * W); [|nra].
      replace ((z - q + BB - BB / (2 * (W * W)) - BS / z * (BS / z) / 2 - x_D x) * (W * W)) with
        (- ((x_D x - z - BB + BS * BS / (2 * z * z) + q) * W * W + / 2 * BB)) by (field; split; lra).
      lra. }
    rewrite K. ring.
  - intros M i Hi. unfold n, p2c. cbn [cB]. change (p_B o) with (x_B x). unfold x. rewrite (set_B _ _ _ _ _ _ _ _ H), M. field. lra.
  - intros Y. change (cye n) with (cD n * p_ye o). rewrite EDn.
    unfold o, x, setup_classic. cbn [p_ye finalize_classic x_ye]. rewrite Y. field. lra.
Qed.
Print Assumptions C51_inverse.
