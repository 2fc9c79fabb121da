(** C19, C20: Riemann solvers and signal speeds. *)
From Coq Require Import Reals Arith Lia Lra Psatz.
From Flocq Require Import Core.
From Verif.Spec Require Import Tensor GeomSpec SystemSpec Relativity GRMHD.
From Verif.Model Require Import Num Robust Geometry Relativity Prim2Con Riemann.
From Verif.Proofs Require Import NumR RobustProofs TensorTac LinearAlgebraProofs GeomBase AdmProofs RelProofs
  RelativityProofs Prim2ConProofs RiemannProofs SignalProofs FaceProofs ReflectProofs FlatWitness.
From Verif.Properties Require Import P_GRMHD.
Local Open Scope R_scope.

(** ** C19 *)
(** the two solvers, for any two sides whatsoever *)
Lemma cl_le l r : hll_cl l r <= 0. Proof. unfold hll_cl. rewrite !std_min_R. apply Rmin_r. Qed.
Lemma cr_ge l r : 0 <= hll_cr l r. Proof. unfold hll_cr. rewrite !std_max_R. apply Rmax_r. Qed.

(** equal states on both sides give the physical flux *)
Theorem C19_consistent : forall g s m,
  llf g s s m = fo_F s m * fg_gdet g /\ (fo_vm s < 0 \/ 0 < fo_vp s -> hll g s s m = fo_F s m * fg_gdet g).
Proof.
  intros g s m. split; [unfold llf; field|]. intros K. unfold hll.
  assert (N : hll_cr s s - hll_cl s s <> 0).
  { unfold hll_cr, hll_cl. rewrite !std_max_R, !std_min_R. rewrite (Rmax_left (fo_vp s) (fo_vp s)), (Rmin_left (fo_vm s) (fo_vm s)) by lra.
    apply Rgt_not_eq. pose proof (Rmax_l (fo_vp s) 0). pose proof (Rmax_r (fo_vp s) 0).
    pose proof (Rmin_l (fo_vm s) 0). pose proof (Rmin_r (fo_vm s) 0). destruct K; lra. }
  rewrite gratio_nz by exact N. field. exact N.
Qed.
Print Assumptions C19_consistent.

(** all waves to the right: the flux of the left state; all to the left: of the right state *)
Theorem C19_upwind : forall g l r m,
  (0 <= fo_vm l -> 0 <= fo_vm r -> 0 < fo_vp l \/ 0 < fo_vp r -> hll g l r m = fo_F l m * fg_gdet g) /\
  (fo_vp l <= 0 -> fo_vp r <= 0 -> fo_vm l < 0 \/ fo_vm r < 0 -> hll g l r m = fo_F r m * fg_gdet g).
Proof.
  intros g l r m. unfold hll, hll_cl, hll_cr. rewrite !std_min_R, !std_max_R. split; intros A B C.
  - assert (Z : Rmin (Rmin (fo_vm l) (fo_vm r)) 0 = 0) by (apply Rmin_right, Rmin_glb; assumption). rewrite Z.
    assert (P : 0 < Rmax (Rmax (fo_vp l) (fo_vp r)) 0).
    { pose proof (Rmax_l (Rmax (fo_vp l) (fo_vp r)) 0). pose proof (Rmax_l (fo_vp l) (fo_vp r)). pose proof (Rmax_r (fo_vp l) (fo_vp r)). destruct C; lra. }
    rewrite gratio_nz by lra. field. lra.
  - assert (Z : Rmax (Rmax (fo_vp l) (fo_vp r)) 0 = 0) by (apply Rmax_right, Rmax_lub; assumption). rewrite Z.
    assert (P : Rmin (Rmin (fo_vm l) (fo_vm r)) 0 < 0).
    { pose proof (Rmin_l (Rmin (fo_vm l) (fo_vm r)) 0). pose proof (Rmin_l (fo_vm l) (fo_vm r)). pose proof (Rmin_r (fo_vm l) (fo_vm r)). destruct C; lra. }
    rewrite gratio_nz by lra. field. lra.
Qed.
Print Assumptions C19_upwind.

(** The HLL flux is that of a single intermediate state u* between waves of speeds cl and
    cr: u* carries exactly the content that the two outer states leave in the fan
    (conservation), and the flux jumps across each wave satisfy Rankine-Hugoniot.  Here
    u = sqrt(gamma) U is the conserved density, f = sqrt(-g) F the flux. *)
Definition dens (g : FaceGeom) (s : FluxOut) (m : ConsVar) : R := fo_U s m * fg_gammadet g.
Definition phys (g : FaceGeom) (s : FluxOut) (m : ConsVar) : R := fo_F s m * fg_gdet g.
Definition fan_state (cl cr ul ur fl fr : R) : R := (cr * ur - cl * ul - (fr - fl)) / (cr - cl).

Theorem C19_hll_fan : forall g l r m, hll_cl l r < hll_cr l r ->
  let cl := hll_cl l r in let cr := hll_cr l r in
  let us := fan_state cl cr (dens g l m) (dens g r m) (phys g l m) (phys g r m) in
  hll g l r m = phys g l m + cl * (us - dens g l m) /\ hll g l r m = phys g r m + cr * (us - dens g r m).
Proof.
  intros g l r m K cl cr us. unfold us, hll, fan_state, dens, phys. fold cl cr. rewrite gratio_nz by (unfold cl, cr; lra).
  assert (cr - cl <> 0) by (unfold cl, cr; lra). split; field; assumption.
Qed.
Print Assumptions C19_hll_fan.
Theorem C19_llf_fan : forall g l r m, 0 < llf_cmax l r ->
  let c := llf_cmax l r in
  let us := fan_state (- c) c (dens g l m) (dens g r m) (phys g l m) (phys g r m) in
  llf g l r m = phys g l m - c * (us - dens g l m) /\ llf g l r m = phys g r m + c * (us - dens g r m).
Proof.
  intros g l r m K c us. unfold us, llf, fan_state, dens, phys. fold c.
  assert (c - - c <> 0) by (unfold c; lra). assert (c <> 0) by (unfold c; lra). split; field; lra.
Qed.
Print Assumptions C19_llf_fan.

(** mirror symmetry: exchange the sides, reverse the axis; par is the parity (+1 or -1) of
    the variable *)
Definition mirrored (par : ConsVar -> R) (s s' : FluxOut) : Prop :=
  (forall m, fo_U s' m = par m * fo_U s m) /\ (forall m, fo_F s' m = - (par m * fo_F s m)) /\
  fo_vp s' = - fo_vm s /\ fo_vm s' = - fo_vp s.
Theorem C19_mirror : forall par g l r l' r', mirrored par l l' -> mirrored par r r' -> forall m,
  llf g r' l' m = - (par m * llf g l r m) /\ hll g r' l' m = - (par m * hll g l r m) /\
  llf_cmax r' l' = llf_cmax l r /\ hll_speed r' l' = hll_speed l r.
Proof.
  intros par g l r l' r' (A1 & A2 & A3 & A4) (B1 & B2 & B3 & B4) m.
  assert (Ec : llf_cmax r' l' = llf_cmax l r).
  { unfold llf_cmax. rewrite !std_max_R, A3, A4, B3, B4, !Ropp_involutive.
    rewrite (Rmax_comm (fo_vp r)), (Rmax_comm (fo_vp l)). apply Rmax_comm. }
  assert (E1 : hll_cl r' l' = - hll_cr l r).
  { unfold hll_cl, hll_cr. rewrite !std_min_R, !std_max_R, A4, B4.
    unfold Rmin, Rmax. repeat destruct Rle_dec; lra. }
  assert (E2 : hll_cr r' l' = - hll_cl l r).
  { unfold hll_cl, hll_cr. rewrite !std_min_R, !std_max_R, A3, B3.
    unfold Rmin, Rmax. repeat destruct Rle_dec; lra. }
  split; [|split; [|split; [exact Ec|]]].
  - unfold llf. rewrite Ec, A1, A2, B1, B2. ring.
  - unfold hll. rewrite E1, E2, A1, A2, B1, B2.
    replace (- hll_cl l r - - hll_cr l r) with (hll_cr l r - hll_cl l r) by ring. ring.
  - unfold hll_speed. rewrite E1, E2, !std_max_R, Ropp_involutive. apply Rmax_comm.
Qed.
Print Assumptions C19_mirror.

(** ... and prim_to_flux does give mirrored sides for a reflected state in the reflected
    geometry: v, B, beta change sign along the reflected axis, the metric accordingly *)
Theorem C19_reflected_state : forall valencia dir g q rf sf sm gm, (dir < 3)%nat ->
  mirrored (parity dir) (prim_to_flux valencia dir g q rf sf sm gm)
           (prim_to_flux valencia dir (reflect_geom dir g) (reflect_state dir q) rf sf sm gm).
Proof. exact reflected. Qed.
Print Assumptions C19_reflected_state.

(** Positivity of the mass in the fan and bounds on the mass flux, for every pair of face
    states, any metric: no face can take more than 2 c u_l from the left cell or 2 c u_r
    from the right one, c being the speed returned for the time step. *)
Section Mass.
Lemma fan_mass alpha beta g ginv gamma gi sg sgg (H : adm_consistent alpha beta g ginv gamma gi sg sgg) :
  forall valencia dir ql qr rf sf rf' sf' sm gm, (dir < 3)%nat -> 0 <= rf -> 0 <= rf' -> 1 <= gm ->
  let fg := mkFace alpha sgg sg g beta (gi dir dir) in
  let l := prim_to_flux valencia dir fg ql rf sf sm gm in
  let r := prim_to_flux valencia dir fg qr rf' sf' sm gm in
  exists laml lamr, phys fg l vRho = laml * dens fg l vRho /\ phys fg r vRho = lamr * dens fg r vRho /\
    fo_vm l <= laml <= fo_vp l /\ fo_vm r <= lamr <= fo_vp r /\ fo_vm l < fo_vp l /\ fo_vm r < fo_vp r /\
    0 <= dens fg l vRho /\ 0 <= dens fg r vRho.
Proof.
  intros val dir ql qr rf sf rf' sf' sm gm Hd Rl Rr Hg fg l r.
  pose proof (proj1 (adm_det3 _ _ _ _ _ _ _ _ H)) as sp.
  exists (alpha * face_vcon ql fg gm dir - beta dir), (alpha * face_vcon qr fg gm dir - beta dir).
  split; [exact (proj1 (mass_speed _ _ _ _ _ _ _ _ (gi dir dir) H ql rf sf sm gm val dir))|].
  split; [exact (proj1 (mass_speed _ _ _ _ _ _ _ _ (gi dir dir) H qr rf' sf' sm gm val dir))|].
  pose proof (face_bracket _ _ _ _ _ _ _ _ (gi dir dir) H ql rf sf sm gm Hg val dir Hd eq_refl) as (Bl & Sl).
  pose proof (face_bracket _ _ _ _ _ _ _ _ (gi dir dir) H qr rf' sf' sm gm Hg val dir Hd eq_refl) as (Br & Sr).
  split; [exact Bl|]. split; [exact Br|]. split; [exact Sl|]. split; [exact Sr|].
  split; unfold dens; apply Rmult_le_pos; try (cbn; lra).
  - exact (rho_U _ _ _ _ _ _ _ _ (gi dir dir) H ql rf sf sm gm Hg val dir Rl).
  - exact (rho_U _ _ _ _ _ _ _ _ (gi dir dir) H qr rf' sf' sm gm Hg val dir Rr).
Qed.
Lemma fan_pos cl cr ll lr ul ur : cl < cr -> cl <= ll -> lr <= cr -> 0 <= ul -> 0 <= ur ->
  0 <= fan_state cl cr ul ur (ll * ul) (lr * ur).
Proof.
  intros. unfold fan_state. replace (cr * ur - cl * ul - (lr * ur - ll * ul)) with ((cr - lr) * ur + (ll - cl) * ul) by ring.
  apply Rmult_le_pos; [|left; apply Rinv_0_lt_compat; lra].
  assert (0 <= (cr - lr) * ur) by (apply Rmult_le_pos; lra). assert (0 <= (ll - cl) * ul) by (apply Rmult_le_pos; lra). lra.
Qed.
Lemma fan_flux cl cr ul ur ll lr : cl < cr -> ll * ul + cl * (fan_state cl cr ul ur (ll * ul) (lr * ur) - ul) = (cr * (ll - cl) * ul + cl * (cr - lr) * ur) / (cr - cl).
Proof. intros H. unfold fan_state. field. lra. Qed.
Lemma fan_flux_bounds cl cr ul ur ll lr : cl < cr -> cl <= 0 <= cr -> cl <= ll <= cr -> cl <= lr <= cr -> 0 <= ul -> 0 <= ur ->
  cl * ur <= ll * ul + cl * (fan_state cl cr ul ur (ll * ul) (lr * ur) - ul) <= cr * ul.
Proof.
  intros H C L1 L2 Hl Hr. rewrite fan_flux by exact H.
  assert (A : 0 <= cr * (ll - cl) * ul) by (apply Rmult_le_pos; [apply Rmult_le_pos; lra|lra]).
  assert (A' : 0 <= cr * (cr - ll) * ul) by (apply Rmult_le_pos; [apply Rmult_le_pos; lra|lra]).
  assert (B : 0 <= - cl * (cr - lr) * ur) by (apply Rmult_le_pos; [apply Rmult_le_pos; lra|lra]).
  assert (B' : 0 <= - cl * (lr - cl) * ur) by (apply Rmult_le_pos; [apply Rmult_le_pos; lra|lra]).
  assert (K : (cr * (ll - cl) * ul + cl * (cr - lr) * ur) / (cr - cl) * (cr - cl) = cr * (ll - cl) * ul + cl * (cr - lr) * ur) by (field; lra).
  split; apply Rmult_le_reg_r with (cr - cl); try lra; rewrite K; nra.
Qed.
Theorem C19_mass_bounds : forall alpha beta g ginv gamma gi sg sgg,
  adm_consistent alpha beta g ginv gamma gi sg sgg ->
  forall valencia dir ql qr rf sf rf' sf' sm gm, (dir < 3)%nat -> 0 <= rf -> 0 <= rf' -> 1 <= gm ->
  let fg := mkFace alpha sgg sg g beta (gi dir dir) in
  let l := prim_to_flux valencia dir fg ql rf sf sm gm in
  let r := prim_to_flux valencia dir fg qr rf' sf' sm gm in
  0 < llf_cmax l r /\ 0 < hll_speed l r /\ hll_cl l r < hll_cr l r /\
  (let c := llf_cmax l r in
   0 <= fan_state (- c) c (dens fg l vRho) (dens fg r vRho) (phys fg l vRho) (phys fg r vRho) /\
   - (c * dens fg r vRho) <= llf fg l r vRho <= c * dens fg l vRho) /\
  (0 <= fan_state (hll_cl l r) (hll_cr l r) (dens fg l vRho) (dens fg r vRho) (phys fg l vRho) (phys fg r vRho) /\
   let c := hll_speed l r in - (c * dens fg r vRho) <= hll fg l r vRho <= c * dens fg l vRho).
Proof.
  intros alpha beta g ginv gamma gi sg sgg H val dir ql qr rf sf rf' sf' sm gm Hd Rl Rr Hg fg l r.
  destruct (fan_mass _ _ _ _ _ _ _ _ H val dir ql qr rf sf rf' sf' sm gm Hd Rl Rr Hg) as (ll & lr & El & Er & Bl & Br & Sl & Sr & Ul & Ur).
  fold fg in El, Er, Ul, Ur, Bl, Br, Sl, Sr. fold l in El, Bl, Sl, Ul. fold r in Er, Br, Sr, Ur.
  assert (C1 : - fo_vm l <= llf_cmax l r /\ fo_vp l <= llf_cmax l r /\ - fo_vm r <= llf_cmax l r /\ fo_vp r <= llf_cmax l r).
  { unfold llf_cmax. rewrite !std_max_R. repeat split.
    - eapply Rle_trans; [|apply Rmax_l]. apply Rmax_l.
    - eapply Rle_trans; [|apply Rmax_l]. apply Rmax_r.
    - eapply Rle_trans; [|apply Rmax_r]. apply Rmax_l.
    - eapply Rle_trans; [|apply Rmax_r]. apply Rmax_r. }
  assert (C2 : hll_cl l r <= fo_vm l /\ hll_cl l r <= fo_vm r /\ fo_vp l <= hll_cr l r /\ fo_vp r <= hll_cr l r).
  { unfold hll_cl, hll_cr. rewrite !std_max_R, !std_min_R. repeat split.
    - eapply Rle_trans; [apply Rmin_l|]. apply Rmin_l.
    - eapply Rle_trans; [apply Rmin_l|]. apply Rmin_r.
    - eapply Rle_trans; [|apply Rmax_l]. apply Rmax_l.
    - eapply Rle_trans; [|apply Rmax_l]. apply Rmax_r. }
  pose proof (cl_le l r) as Cn. pose proof (cr_ge l r) as Cp.
  assert (C3 : - hll_cl l r <= hll_speed l r /\ hll_cr l r <= hll_speed l r).
  { unfold hll_speed. rewrite std_max_R. split; [apply Rmax_l|apply Rmax_r]. }
  assert (P1 : 0 < llf_cmax l r) by lra. assert (P2 : hll_cl l r < hll_cr l r) by lra. assert (P3 : 0 < hll_speed l r) by lra.
  split; [exact P1|]. split; [exact P3|]. split; [exact P2|]. split.
  - intros c. fold c in C1, P1. destruct (C19_llf_fan fg l r vRho P1) as [F1 F2]. fold c in F1, F2.
    rewrite El, Er in *. split; [apply fan_pos; lra|].
    pose proof (fan_flux_bounds (- c) c (dens fg l vRho) (dens fg r vRho) ll lr ltac:(lra) ltac:(split; lra) ltac:(split; lra) ltac:(split; lra) Ul Ur) as Q.
    rewrite F1. clearbody c. split; lra.
  - destruct (C19_hll_fan fg l r vRho P2) as [F1 F2].
    rewrite El, Er in *. split; [apply fan_pos; lra|]. intros c. fold c in C3.
    pose proof (fan_flux_bounds (hll_cl l r) (hll_cr l r) (dens fg l vRho) (dens fg r vRho) ll lr P2 ltac:(split; lra) ltac:(split; lra) ltac:(split; lra) Ul Ur) as Q.
    rewrite F1. split; nra.
Qed.
Print Assumptions C19_mass_bounds.
End Mass.

(** two different states of a moving magnetised gas meet the hypotheses *)
Example C19_nonvacuous :
  adm_consistent 1 zero3 eta4 eta4 delta delta 1 1 /\ (0 < 3)%nat /\
  let s := prim_to_flux true 0 (mkFace 1 1 1 eta4 zero3 1) (mkState 1 (v3 (3/4) 0 0) (1/2) (1/3) (4/3) (v3 1 0 0) (1/2)) (1/100) (1/100) 10 10 in
  fo_vm s < 0 \/ 0 < fo_vp s.
Proof.
  split; [exact eta4_consistent|]. split; [lia|]. intros s. right.
  pose proof (face_bracket _ _ _ _ _ _ _ _ 1 eta4_consistent (mkState 1 (v3 (3/4) 0 0) (1/2) (1/3) (4/3) (v3 1 0 0) (1/2)) (1/100) (1/100) 10 10
    ltac:(lra) true 0%nat ltac:(lia) eq_refl) as ((_ & K) & _). fold s in K.
  eapply Rlt_le_trans; [|exact K].
  rewrite (vcon_val _ _ _ _ _ _ _ _ 1 eta4_consistent) by lra.
  assert (E : lim_vpcon (mkState 1 (v3 (3/4) 0 0) (1/2) (1/3) (4/3) (v3 1 0 0) (1/2)) (mkFace 1 1 1 eta4 zero3 1) 10 0%nat = 3/4).
  { assert (Q : lim_vpcon (mkState 1 (v3 (3/4) 0 0) (1/2) (1/3) (4/3) (v3 1 0 0) (1/2)) (mkFace 1 1 1 eta4 zero3 1) 10 = v3 (3/4) 0 0).
    { apply (f_vpcon _ _ _ _ _ _ _ _ 1 eta4_consistent (mkState 1 (v3 (3/4) 0 0) (1/2) (1/3) (4/3) (v3 1 0 0) (1/2)) 10).
      cbn [q_vp]. unfold GetLorentzFactor, v3, sum3, delta; cbn. apply Rle_trans with (sqrt (10 * 10)); [apply sqrt_le_1_alt; lra|rewrite sqrt_square; lra]. }
    rewrite Q. reflexivity. }
  rewrite E. unfold zero3. pose proof (lorentz_ge1 _ _ _ _ (v3 (3/4) 0 0) (adm_tpo _ _ _ _ _ _ _ _ eta4_consistent)) as W.
  cbn [q_vp]. assert (0 < 3/4 / GetLorentzFactor (v3 (3/4) 0 0) delta) by (apply Rdiv_lt_0_compat; lra). lra.
Qed.

(** ** C20 *)
(** every face state, limited or not: the speeds bracket the velocity with which the flux
    carries mass and electron fraction *)
Theorem C20_face_advection : forall alpha beta g ginv gamma gi sg sgg,
  adm_consistent alpha beta g ginv gamma gi sg sgg ->
  forall valencia dir q rf sf sm gm, (dir < 3)%nat -> 1 <= gm ->
  let fg := mkFace alpha sgg sg g beta (gi dir dir) in
  let s := prim_to_flux valencia dir fg q rf sf sm gm in
  exists lam, phys fg s vRho = lam * dens fg s vRho /\ phys fg s vYe = lam * dens fg s vYe /\
    fo_vm s <= lam <= fo_vp s /\ fo_vm s < fo_vp s.
Proof.
  intros alpha beta g ginv gamma gi sg sgg H val dir q rf sf sm gm Hd Hg fg s.
  exists (alpha * face_vcon q fg gm dir - beta dir).
  pose proof (mass_speed _ _ _ _ _ _ _ _ (gi dir dir) H q rf sf sm gm val dir) as [M1 M2].
  pose proof (face_bracket _ _ _ _ _ _ _ _ (gi dir dir) H q rf sf sm gm Hg val dir Hd eq_refl) as [B S].
  repeat split; [exact M1|exact M2|exact (proj1 B)|exact (proj2 B)|exact S].
Qed.
Print Assumptions C20_face_advection.

(** width of the fast cone, in units of the lapse: the radicand of the speeds *)
Definition radicand (gamma gi : mat) (vp : vec) (c : R) (d : nat) : R :=
  let W := GetLorentzFactor vp gamma in let v := vp d / W in let vsq := 1 - / (W * W) in
  c * (1 - vsq) * (gi d d * (1 - vsq * c) - v * v * (1 - c)).

(** States within the limits: the speeds bracket the fluid velocity and every front whose
    speed relative to the fluid is at most the fast speed (up to 1 - EPS); and when no
    guard acts they are the two fast fronts themselves, and not faster than light. *)
Theorem C20_face_waves : forall alpha beta g ginv gamma gi sg sgg,
  adm_consistent alpha beta g ginv gamma gi sg sgg ->
  forall (q : FaceState) rf sf sm gm, within_limits gamma q rf sf sm gm ->
  forall dir valencia, (dir < 3)%nat ->
  EPS <= q_rho q + q_eng q + q_prs q ->
  let ucon := GetFourVelocity (q_vp q) gamma alpha beta in
  let b2 := bsquared g (comoving_field g (GetLorentzFactor (q_vp q) gamma) ucon (q_B q)) in
  let cf := fast2 (q_rho q) (q_eng q) (q_prs q) (q_gm1 q) b2 in
  let s := prim_to_flux valencia dir (mkFace alpha sgg sg g beta (gi dir dir)) q rf sf sm gm in
  (fo_vm s <= ucon (S dir) / ucon 0%nat <= fo_vp s) /\
  (forall c x, 0 <= c <= cf -> c <= 1 - EPS -> wave ginv ucon c dir x -> fo_vm s <= x <= fo_vp s) /\
  (EPS <= sound2 (q_rho q) (q_eng q) (q_prs q) (q_gm1 q) <= 1 - EPS -> cf <= 1 - EPS ->
   EPS <= radicand gamma gi (q_vp q) cf dir ->
   wave ginv ucon cf dir (fo_vm s) /\ wave ginv ucon cf dir (fo_vp s) /\
   causal_front ginv dir (fo_vm s) /\ causal_front ginv dir (fo_vp s)).
Proof.
  intros alpha beta g ginv gamma gi sg sgg H q rf sf sm gm (L1 & L2 & L3 & L4 & L5) dir val Hd G1 ucon b2 cf s.
  pose proof (adm_tpo _ _ _ _ _ _ _ _ H) as T. pose proof (adm_lapse_pos _ _ _ _ _ _ _ _ H) as ap.
  set (vp := q_vp q) in *. set (W := GetLorentzFactor vp gamma) in *.
  assert (W1 : 1 <= W) by exact (lorentz_ge1 _ _ _ _ vp T). assert (Hg : 1 <= gm) by lra.
  set (rho := q_rho q) in *. set (u := q_eng q) in *. set (p := q_prs q) in *.
  set (cs2 := q_gm1 q * p / (rho + u + p)). set (va2 := b2 / (rho + u + p + b2)).
  set (cc := make_bounded (make_bounded cs2 0 1 + va2 * (1 - make_bounded cs2 0 1)) 0 1).
  set (fg := mkFace alpha sgg sg g beta (gi dir dir)) in *.
  assert (EV : face_vcon q fg gm dir = vp dir / W).
  { transitivity (lim_vpcon q fg gm dir / W); [exact (vcon_val _ _ _ _ _ _ _ _ (gi dir dir) H q gm Hg dir)|].
    assert (Q : lim_vpcon q fg gm = vp) by exact (f_vpcon _ _ _ _ _ _ _ _ (gi dir dir) H q gm L2). rewrite Q. reflexivity. }
  assert (W2 : W * W = 1 + dot3 gamma vp vp) by exact (lorentz_sq _ _ _ _ vp T).
  assert (ES : face_vsq q fg gm = 1 - / (W * W)).
  { transitivity (dot3 gamma (face_vcon q fg gm) (face_vcon q fg gm)); [exact (vsq_dot _ _ _ _ _ _ _ _ (gi dir dir) H q gm Hg)|].
    assert (Q : forall i, face_vcon q fg gm i = vp i / W).
    { intros i. transitivity (lim_vpcon q fg gm i / W); [exact (vcon_val _ _ _ _ _ _ _ _ (gi dir dir) H q gm Hg i)|].
      assert (Q : lim_vpcon q fg gm = vp) by exact (f_vpcon _ _ _ _ _ _ _ _ (gi dir dir) H q gm L2). rewrite Q. reflexivity. }
    transitivity (dot3 gamma (fun i => vp i * / W) (fun i => vp i * / W)); [apply dot3_ext; intros i Hi; exact (Q i)|].
    rewrite scale_dot3. replace (dot3 gamma vp vp) with (W * W - 1) by lra. field. lra. }
  pose proof (guarded_speeds _ _ _ _ _ _ _ _ (gi dir dir) H q rf sf sm gm Hg val dir L1 L2 L3 L4 L5 G1) as GS.
  fold fg in GS. rewrite EV, ES in GS. fold vp in GS. fold W ucon in GS. fold b2 in GS. fold rho u p in GS. fold cs2 va2 in GS. fold cc in GS. fold s in GS.
  destruct GS as [Ep Em].
  set (vsq := 1 - / (W * W)) in *. set (v := vp dir / W) in *. set (gdd := gi dir dir) in *.
  assert (Vr : 0 <= vsq < 1).
  { unfold vsq. assert (0 < / (W * W)) by (apply Rinv_0_lt_compat; nra).
    assert (/ (W * W) <= / 1) by (apply Rinv_le_contravar; nra). lra. }
  assert (Cb : EPS <= cc <= 1 - EPS) by apply bounded01. pose proof EPS_pos as Epos.
  assert (Cr : 0 <= cc < 1) by lra. assert (Gp : 0 < gdd) by (apply (gidd_pos _ _ _ _ _ _ _ _ H); exact Hd).
  assert (CSv : v * v <= gdd * vsq).
  { rewrite <- EV, <- ES. exact (cs_face _ _ _ _ _ _ _ _ (gi dir dir) H q gm Hg dir Hd eq_refl). }
  set (r := sqrt (make_positive (sp_disc v vsq cc gdd))) in *.
  assert (R0 : 0 <= r) by apply sqrt_pos.
  assert (Rr : r * r = Rmax (sp_disc v vsq cc gdd) EPS).
  { unfold r. rewrite make_positive_R. apply sqrt_sqrt. eapply Rle_trans; [|apply Rmax_r]. lra. }
  assert (Rd : sp_disc v vsq cc gdd <= r * r) by (rewrite Rr; apply Rmax_l).
  assert (Ecf : cf = cs2 + va2 * (1 - cs2)) by (unfold cf, fast2, sound2, alfven2; fold cs2 va2; ring).
  assert (Lc : Rmin cf (1 - EPS) <= cc).
  { rewrite Ecf. exact (cc_large _ _ _ _ _ _ _ _ H q G1). }
  split; [|split].
  - pose proof (proj2 (proj2 (front_wave _ _ _ _ _ _ _ _ H vp dir 0 0 Hd))) as E. fold W ucon v in E. rewrite E, Ep, Em.
    pose proof (sp_bracket v vsq cc gdd Vr Cr Gp CSv r R0 Rd) as [B1 B2].
    split; apply Rplus_le_compat_r, Rmult_le_compat_l; lra.
  - intros c x [C1 C2] C3 Wx.
    pose proof (proj1 (front_wave _ _ _ _ _ _ _ _ H vp dir c ((x + beta dir) / alpha) Hd)) as [E _]. fold W v vsq ucon gdd in E.
    replace (alpha * ((x + beta dir) / alpha) - beta dir) with x in E by (field; lra). specialize (E Wx).
    assert (Cc : c <= cc) by (eapply Rle_trans; [|exact Lc]; apply Rmin_glb; lra).
    pose proof (sp_between v vsq cc gdd Vr Cr _ r R0 Rd (sp_slower v vsq cc gdd Vr Gp CSv c _ C1 Cc E)) as [B1 B2].
    rewrite Ep, Em. replace x with (alpha * ((x + beta dir) / alpha) - beta dir) by (field; lra).
    split; apply Rplus_le_compat_r, Rmult_le_compat_l; lra.
  - intros G2 G3 G4.
    assert (Ec : cc = cf).
    { rewrite Ecf. apply (cc_exact _ _ _ _ _ _ _ _ H q G1); [exact G2|]. rewrite Ecf in G3. exact G3. }
    assert (Er : r * r = sp_disc v vsq cc gdd).
    { rewrite Rr. apply Rmax_left. rewrite Ec. unfold sp_disc. unfold radicand in G4. fold W in G4. fold v vsq gdd in G4.
      replace (v * (v * (1 - cf))) with (v * v * (1 - cf)) by ring. exact G4. }
    assert (K : forall e, e = 1 \/ e = -1 ->
      wave ginv ucon cf dir (alpha * (1 / sp_A vsq cc * (v * (1 - cc) + e * r)) - beta dir) /\
      causal_front ginv dir (alpha * (1 / sp_A vsq cc * (v * (1 - cc) + e * r)) - beta dir)).
    { intros e He. set (x' := 1 / sp_A vsq cc * (v * (1 - cc) + e * r)).
      pose proof (front_wave _ _ _ _ _ _ _ _ H vp dir cf x' Hd) as (E1 & E2 & _). fold W v vsq ucon gdd in E1, E2.
      split.
      - apply E1. rewrite <- Ec. exact (sp_root v vsq cc gdd Vr Cr r Er e He).
      - apply E2. pose proof (sp_causal v vsq cc gdd Vr Cr Gp CSv r R0 Er e He) as Cz. fold x' in Cz.
        assert (Sq : sqrt gdd * sqrt gdd = gdd) by (apply sqrt_sqrt; lra).
        assert (Ab : Rabs x' * Rabs x' = x' * x') by (rewrite <- Rabs_mult; apply Rabs_pos_eq, Rle_0_sqr).
        pose proof (Rabs_pos x'). nra. }
    destruct (K 1 (or_introl eq_refl)) as [K1 K2]. destruct (K (-1) (or_intror eq_refl)) as [K3 K4].
    rewrite Ep, Em.
    replace (v * (1 - cc) + 1 * r) with (v * (1 - cc) + r) in * by ring.
    replace (v * (1 - cc) + -1 * r) with (v * (1 - cc) - r) in * by ring.
    repeat split; assumption.
Qed.
Print Assumptions C20_face_waves.

(** p2c stores, in each direction, the largest of |x| over the two fast fronts; it bounds
    the fluid velocity and every front at most as fast, and is at most the speed of light
    of that direction. *)
Theorem C20_cell_speeds : forall alpha beta g ginv gamma gi sg sgg,
  adm_consistent alpha beta g ginv gamma gi sg sgg ->
  forall (rho : R) (vp B : vec) (u ye p gam1 : R) (valencia : bool),
  0 < rho + u + p -> 0 <= gam1 * p < rho + u + p ->
  let ucon := GetFourVelocity vp gamma alpha beta in
  let b2 := bsquared g (comoving_field g (GetLorentzFactor vp gamma) ucon B) in
  let cf := fast2 rho u p gam1 b2 in
  let sig := csig (p2c valencia rho vp B u ye p gam1 g gi beta alpha sg) in
  0 <= cf < 1 /\
  forall d, (d < 3)%nat ->
    (exists x, wave ginv ucon cf d x /\ sig d = Rabs x) /\
    (forall c x, 0 <= c <= cf -> wave ginv ucon c d x -> Rabs x <= sig d) /\
    Rabs (ucon (S d) / ucon 0%nat) <= sig d /\
    sig d <= alpha * sqrt (gi d d) + Rabs (beta d).
Proof.
  intros alpha beta g ginv gamma gi sg sgg H rho vp B u ye p gam1 val G1 G2 ucon b2 cf sig.
  pose proof (adm_tpo _ _ _ _ _ _ _ _ H) as T. pose proof (adm_lapse_pos _ _ _ _ _ _ _ _ H) as ap.
  set (W := GetLorentzFactor vp gamma) in *.
  assert (W1 : 1 <= W) by exact (lorentz_ge1 _ _ _ _ vp T).
  assert (W2 : W * W = 1 + dot3 gamma vp vp) by exact (lorentz_sq _ _ _ _ vp T).
  set (vv := fun i => vp i * (1 / W)). set (Bv := dot3 gamma B vv).
  assert (Bsq : b2 = dot3 gamma B B / (W * W) + Bv * Bv) by exact (bsq_eq _ _ _ _ _ _ _ _ H vp B).
  assert (B0 : 0 <= b2).
  { rewrite Bsq. apply Rplus_le_le_0_compat; [|apply Rle_0_sqr]. apply Rmult_le_pos; [apply pd_nonneg, (tpo_gpd _ _ _ _ T)|].
    left; apply Rinv_0_lt_compat; nra. }
  set (cs2 := sound2 rho u p gam1). set (va2 := alfven2 rho u p b2).
  assert (Cs : 0 <= cs2 < 1) by (unfold cs2, sound2; apply ratio_lt1; lra).
  assert (Va : 0 <= va2 < 1) by (unfold va2, alfven2; apply ratio_lt1; lra).
  assert (Ecf : cf = cs2 + va2 * (1 - cs2)) by (unfold cf, fast2; fold cs2 va2; ring).
  assert (Cf : 0 <= cf < 1) by (rewrite Ecf; nra). split; [exact Cf|]. intros d Hd.
  set (vsq := 1 - / (W * W)). set (v := vp d / W). set (gdd := gi d d).
  assert (Vr : 0 <= vsq < 1).
  { unfold vsq. assert (0 < / (W * W)) by (apply Rinv_0_lt_compat; nra).
    assert (/ (W * W) <= / 1) by (apply Rinv_le_contravar; nra). lra. }
  assert (EQ : dot3 gamma vv vv = vsq).
  { unfold vv. rewrite scale_dot3. unfold vsq. replace (dot3 gamma vp vp) with (W * W - 1) by lra. field. lra. }
  assert (Gp : 0 < gdd) by (apply (gidd_pos _ _ _ _ _ _ _ _ H); exact Hd).
  assert (CSv : v * v <= gdd * vsq).
  { rewrite <- EQ. replace v with (vv d) by (unfold vv, v; field; lra). apply (comp_bound _ _ _ _ _ _ _ _ H). exact Hd. }
  set (r := sqrt (sp_disc v vsq cf gdd)).
  assert (D0 : 0 <= sp_disc v vsq cf gdd) by (apply disc_nonneg; assumption).
  assert (R0 : 0 <= r) by apply sqrt_pos. assert (Er : r * r = sp_disc v vsq cf gdd) by (apply sqrt_sqrt; exact D0).
  assert (Rd : sp_disc v vsq cf gdd <= r * r) by lra.
  set (xp := alpha * (1 / sp_A vsq cf * (v * (1 - cf) + r)) - beta d).
  set (xm := alpha * (1 / sp_A vsq cf * (v * (1 - cf) - r)) - beta d).
  assert (Esig : sig d = Rmax (Rabs xp) (Rabs xm)).
  { unfold sig, p2c; cbn [csig]. unfold signal_speeds, signal_vpm. rewrite std_max_R.
    assert (WE : GetLorentzFactor4 vp g = W) by exact (W_eq _ _ _ _ _ _ _ _ H vp). rewrite WE.
    rewrite !(dot_block _ _ _ _ _ _ _ _ H). fold vv. fold Bv. rewrite EQ.
    assert (Eb : dot3 gamma B B * (1 / W) * (1 / W) + Bv * Bv = b2) by (rewrite Bsq; field; lra). rewrite Eb.
    assert (Ef : fast_speed_sq rho u p b2 gam1 = cf) by (unfold fast_speed_sq, cf, fast2, sound2, alfven2; ring). rewrite Ef.
    replace (vp d * (1 / W)) with v by (unfold v; field; lra). fold gdd.
    assert (Ed : cf * (1 - vsq) * (gdd * (1 - vsq * cf) - v * v * (1 - cf)) = sp_disc v vsq cf gdd) by (unfold sp_disc; ring).
    rewrite Ed. fold r.
    assert (A : 0 < sp_A vsq cf) by (apply A_pos; assumption). unfold xp, xm, sp_A in *.
    assert (E1 : alpha / (1 - vsq * cf) * (v * (1 - cf) + r) - beta d = alpha * (1 / (1 - vsq * cf) * (v * (1 - cf) + r)) - beta d) by (field; lra).
    assert (E2 : alpha / (1 - vsq * cf) * (v * (1 - cf) - r) - beta d = alpha * (1 / (1 - vsq * cf) * (v * (1 - cf) - r)) - beta d) by (field; lra).
    rewrite E1, E2. reflexivity. }
  assert (Bd : forall x, xm <= x <= xp -> Rabs x <= sig d).
  { intros x [X1 X2]. rewrite Esig. apply Rabs_le. pose proof (Rmax_l (Rabs xp) (Rabs xm)). pose proof (Rmax_r (Rabs xp) (Rabs xm)).
    pose proof (Rle_abs xp). pose proof (Rle_abs (- xm)) as K. rewrite Rabs_Ropp in K. lra. }
  assert (K : forall e, e = 1 \/ e = -1 ->
      wave ginv ucon cf d (alpha * (1 / sp_A vsq cf * (v * (1 - cf) + e * r)) - beta d) /\
      Rabs (alpha * (1 / sp_A vsq cf * (v * (1 - cf) + e * r)) - beta d) <= alpha * sqrt gdd + Rabs (beta d)).
  { intros e He. set (x' := 1 / sp_A vsq cf * (v * (1 - cf) + e * r)).
    pose proof (front_wave _ _ _ _ _ _ _ _ H vp d cf x' Hd) as (E1 & _ & _). fold W v vsq ucon gdd in E1. split.
    - apply E1. exact (sp_root v vsq cf gdd Vr Cf r Er e He).
    - pose proof (sp_causal v vsq cf gdd Vr Cf Gp CSv r R0 Er e He) as Cz. fold x' in Cz.
      eapply Rle_trans; [apply Rabs_triang|]. rewrite Rabs_Ropp, Rabs_mult, (Rabs_pos_eq alpha) by lra.
      apply Rplus_le_compat_r, Rmult_le_compat_l; [lra|exact Cz]. }
  destruct (K 1 (or_introl eq_refl)) as [K1 K2]. destruct (K (-1) (or_intror eq_refl)) as [K3 K4].
  replace (v * (1 - cf) + 1 * r) with (v * (1 - cf) + r) in * by ring. fold xp in K1, K2.
  replace (v * (1 - cf) + -1 * r) with (v * (1 - cf) - r) in * by ring. fold xm in K3, K4.
  split; [|split; [|split]].
  - rewrite Esig. unfold Rmax. destruct Rle_dec; [exists xm|exists xp]; split; try assumption; reflexivity.
  - intros c x [C1 C2] Wx. apply Bd.
    pose proof (proj1 (front_wave _ _ _ _ _ _ _ _ H vp d c ((x + beta d) / alpha) Hd)) as [E _]. fold W v vsq ucon gdd in E.
    replace (alpha * ((x + beta d) / alpha) - beta d) with x in E by (field; lra). specialize (E Wx).
    pose proof (sp_between v vsq cf gdd Vr Cf _ r R0 Rd (sp_slower v vsq cf gdd Vr Gp CSv c _ C1 C2 E)) as [B1 B2].
    unfold xm, xp. replace x with (alpha * ((x + beta d) / alpha) - beta d) by (field; lra).
    split; apply Rplus_le_compat_r, Rmult_le_compat_l; lra.
  - apply Bd. pose proof (proj2 (proj2 (front_wave _ _ _ _ _ _ _ _ H vp d 0 0 Hd))) as E. fold W ucon v in E. rewrite E.
    pose proof (sp_bracket v vsq cf gdd Vr Cf Gp CSv r R0 Rd) as [B1 B2].
    unfold xm, xp. split; apply Rplus_le_compat_r, Rmult_le_compat_l; lra.
  - rewrite Esig. apply Rmax_lub; assumption.
Qed.
Print Assumptions C20_cell_speeds.

(** The guard on the radicand (make_positive, at least EPS) replaces a narrow cone by one
    that no longer depends on the metric: where g^{dd} < EPS (finely scaled coordinates)
    the face speeds of a fluid at rest exceed the speed of light. *)
Definition scaled (K : R) : mat := fun i j => if Nat.eqb i j then (if Nat.eqb i 0 then -1 else K * K) else 0.
Definition scaled_inv (K : R) : mat := fun i j => if Nat.eqb i j then (if Nat.eqb i 0 then -1 else / (K * K)) else 0.
Definition iso3 (k : R) : mat := fun i j => if Nat.eqb i j then k else 0.
Lemma scaled_consistent K : 0 < K ->
  adm_consistent 1 zero3 (scaled K) (scaled_inv K) (iso3 (K * K)) (iso3 (/ (K * K))) (K * K * K) (K * K * K).
Proof.
  intros Kp. assert (KK : 0 < K * K) by nra. split; try lra.
  - intros i j Hi Hj. idx; reflexivity.
  - intros x (k & Hk & Hx). unfold dot3, sum3, iso3; cbn [Nat.eqb].
    assert (Sq : forall y, 0 <= K * K * (y * y)) by (intros; apply Rmult_le_pos; [lra|apply Rle_0_sqr]).
    pose proof (Sq (x 0%nat)); pose proof (Sq (x 1%nat)); pose proof (Sq (x 2%nat)).
    assert (0 < K * K * (x k * x k)) by (apply Rmult_lt_0_compat; [lra|]; apply Rsqr_pos_lt in Hx; exact Hx).
    destruct k as [|[|[|]]]; try lia; lra.
  - intros i j Hi Hj. idx; reflexivity.
  - unfold scaled, dot3, sum3, zero3; cbn. ring.
  - intros i Hi. unfold scaled, lower3, sum3, zero3; cbn. ring.
  - intros i j Hi Hj. idx; reflexivity.
  - intros i j Hi Hj. idx; unfold mul4, sum4, scaled, scaled_inv, delta; cbn; split; field; lra.
  - intros i j Hi Hj. idx; unfold mul3, sum3, iso3, delta; cbn; split; field; lra.
  - split; [nra|unfold iso3; tensor; cbn; ring].
  - split; [nra|unfold scaled; tensor; cbn; ring].
Qed.
Definition q_rest : FaceState := mkState 1 zero3 (1/2) (1/3) (4/3) zero3 (1/2).
Theorem C20_causal_refuted :
  exists alpha beta g ginv gamma gi sg sgg, adm_consistent alpha beta g ginv gamma gi sg sgg /\
  within_limits gamma q_rest (1/100) (1/100) 10 10 /\
  let s := prim_to_flux true 0 (mkFace alpha sgg sg g beta (gi 0%nat 0%nat)) q_rest (1/100) (1/100) 10 10 in
  ~ causal_front ginv 0 (fo_vp s).
Proof.
  pose proof EPS_pos as Ep. set (K := / (EPS : R)). assert (Kp : 0 < K) by (apply Rinv_0_lt_compat; lra).
  assert (KE : K * EPS = 1) by (unfold K; apply Rinv_l; lra).
  exists 1, zero3, (scaled K), (scaled_inv K), (iso3 (K * K)), (iso3 (/ (K * K))), (K * K * K), (K * K * K).
  pose proof (scaled_consistent K Kp) as H. split; [exact H|].
  assert (W1 : GetLorentzFactor zero3 (iso3 (K * K)) = 1).
  { unfold GetLorentzFactor, zero3, sum3. replace (1 + _) with 1 by ring. apply sqrt_1. }
  split; [unfold within_limits, q_rest; cbn [q_rho q_vp q_eng q_prs]; rewrite W1; repeat split; lra|].
  intros s C.
  set (gdd := iso3 (/ (K * K)) 0%nat 0%nat) in *.
  set (fg := mkFace 1 (K * K * K) (K * K * K) (scaled K) zero3 gdd) in *.
  assert (Hg : 1 <= 10) by lra.
  assert (EV : forall i, face_vcon q_rest fg 10 i = 0).
  { intros i. transitivity (lim_vpcon q_rest fg 10 i / GetLorentzFactor zero3 (iso3 (K * K))); [exact (vcon_val _ _ _ _ _ _ _ _ gdd H q_rest 10 Hg i)|].
    assert (Q : lim_vpcon q_rest fg 10 = zero3).
    { refine (f_vpcon _ _ _ _ _ _ _ _ gdd H q_rest 10 _). cbn [q_rest q_vp]. rewrite W1. lra. }
    rewrite Q. unfold zero3, Rdiv. ring. }
  assert (ES : face_vsq q_rest fg 10 = 0).
  { transitivity (dot3 (iso3 (K * K)) (face_vcon q_rest fg 10) (face_vcon q_rest fg 10)); [exact (vsq_dot _ _ _ _ _ _ _ _ gdd H q_rest 10 Hg)|].
    unfold dot3, sum3. rewrite !EV. ring. }
  destruct (speeds _ _ _ _ _ _ _ _ gdd H q_rest (1/100) (1/100) 10 10 Hg true 0%nat) as (c & r & Hc & Hr & Er & E1 & _).
  fold fg in Er, E1. rewrite EV, ES in Er, E1. fold s in E1.
  assert (Gd : gdd = EPS * EPS).
  { unfold gdd, iso3, K; cbn [Nat.eqb]. field. lra. }
  assert (Er2 : r * r = EPS).
  { rewrite Er. apply Rmax_right. unfold sp_disc. rewrite Gd. set (e := EPS) in *.
    replace (c * (1 - 0) * (e * e * (1 - 0 * c) - 0 * (0 * (1 - c)))) with (c * e * e) by ring.
    assert (c * e <= 1 * 1) by (apply Rmult_le_compat; lra). nra. }
  assert (Ex : fo_vp s = 1 * r - zero3 0%nat).
  { rewrite E1. unfold sp_A, zero3. field. }
  pose proof (proj1 (proj2 (front_wave _ _ _ _ _ _ _ _ H zero3 0%nat 0 r ltac:(lia)))) as [F _].
  rewrite <- Ex in F. specialize (F C). fold gdd in F. rewrite Gd, Er2 in F. set (e := EPS) in *. nra.
Qed.
Print Assumptions C20_causal_refuted.

(** hot magnetised gas moving with Lorentz factor 5/4: all hypotheses of the face and cell
    theorems hold *)
Example C20_nonvacuous :
  let q := mkState 1 (v3 (3/4) 0 0) (1/2) (1/3) (4/3) (v3 1 0 0) (1/2) in
  let b2 := bsquared eta4 (comoving_field eta4 (GetLorentzFactor (q_vp q) delta) (GetFourVelocity (q_vp q) delta 1 zero3) (q_B q)) in
  let cf := fast2 (q_rho q) (q_eng q) (q_prs q) (q_gm1 q) b2 in
  adm_consistent 1 zero3 eta4 eta4 delta delta 1 1 /\ within_limits delta q (1/100) (1/100) 10 10 /\
  EPS <= q_rho q + q_eng q + q_prs q /\
  EPS <= sound2 (q_rho q) (q_eng q) (q_prs q) (q_gm1 q) <= 1 - EPS /\ cf = 26/51 /\ cf <= 1 - EPS /\
  EPS <= radicand delta delta (q_vp q) cf 0.
Proof.
  intros q b2 cf. pose proof EPS_pos as Ep.
  assert (W : GetLorentzFactor (v3 (3/4) 0 0) delta = 5/4).
  { unfold GetLorentzFactor, v3, sum3, delta; cbn. replace (1 + _) with (5/4 * (5/4)) by field. apply sqrt_square; lra. }
  assert (B : b2 = 1).
  { unfold b2. rewrite (bsq_eq _ _ _ _ _ _ _ _ eta4_consistent). cbn [q q_vp q_B]. rewrite W. unfold dot3, sum3, v3, delta; cbn. field. }
  assert (C : cf = 26/51) by (unfold cf, fast2, sound2, alfven2; rewrite B; cbn [q q_rho q_eng q_prs q_gm1]; field).
  split; [exact eta4_consistent|]. split; [unfold within_limits, q; cbn [q_rho q_vp q_eng q_prs]; rewrite W; repeat split; lra|].
  split; [unfold q; cbn [q_rho q_vp q_eng q_prs]; lra|].
  split; [unfold q, sound2; cbn [q_rho q_vp q_eng q_prs q_gm1]; split; lra|].
  split; [exact C|]. rewrite C. split; [lra|].
  unfold radicand, q; cbn [q_vp]. rewrite W. unfold v3, delta; cbn [Nat.eqb]. lra.
Qed.
