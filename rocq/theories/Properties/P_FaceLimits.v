(** C17: what the flux function does with a face state outside the limits: it is the flux of
    the state moved to the nearest admissible density, internal energy and pressure. *)
From Coq Require Import Reals Arith Lia Lra.
From Flocq Require Import Core.
From Verif.Spec Require Import Tensor GeomSpec SystemSpec Relativity GRMHD.
From Verif.Model Require Import Num Robust Geometry Relativity Prim2Con Riemann.
From Verif.Proofs Require Import NumR.
From Verif.Properties Require Import P_GRMHD.
Local Open Scope R_scope.

(** the state (rho, e = rho eps, p) with rho >= rf, sf <= eps <= sm and p >= 0 that takes the
    place of q: a density below the floor becomes the floor, a specific energy outside its
    range becomes the end of the range, a negative pressure becomes zero *)
Definition limited_face (q : FaceState) (rf sf sm : R) : FaceState :=
  let rho := Rmax (q_rho q) rf in
  mkState rho (q_vp q) (Rmax (rho * sf) (Rmin (rho * sm) (q_eng q))) (Rmax 0 (q_prs q))
    (q_gm1 q) (q_B q) (q_ye q).

Lemma lim_rho_max q rf : lim_rho q rf = Rmax (q_rho q) rf.
Proof. unfold lim_rho. apply std_max_R. Qed.

Lemma lim_eng_clamp q rho sf sm : 0 < rho -> sf <= sm ->
  lim_eng q rho sf sm = Rmax (rho * sf) (Rmin (rho * sm) (q_eng q)).
Proof.
  intros r0 S. unfold lim_eng.
  assert (SS : rho * sf <= rho * sm) by (apply Rmult_le_compat_l; lra).
  assert (E : q_eng q = rho * (q_eng q / rho)) by (field; lra).
  destruct (Rlt_bool_spec sf (q_eng q / rho)) as [a|a].
  - destruct (Rlt_bool_spec sm (q_eng q / rho)) as [b|b].
    + assert (rho * sm < q_eng q) by (rewrite E; apply Rmult_lt_compat_l; lra).
      rewrite Rmin_left by lra. rewrite Rmax_right by lra. reflexivity.
    + assert (q_eng q <= rho * sm) by (rewrite E at 1; apply Rmult_le_compat_l; lra).
      assert (rho * sf < q_eng q) by (rewrite E; apply Rmult_lt_compat_l; lra).
      rewrite Rmin_right by lra. rewrite Rmax_right by lra. reflexivity.
  - assert (q_eng q <= rho * sf) by (rewrite E at 1; apply Rmult_le_compat_l; lra).
    rewrite Rmin_right by lra. rewrite Rmax_left by lra. reflexivity.
Qed.

Lemma prim_to_flux_cong v dir g q q' rf sf sm rf' sf' sm' gm :
  q_vp q' = q_vp q -> q_B q' = q_B q -> q_gm1 q' = q_gm1 q -> q_ye q' = q_ye q ->
  lim_rho q' rf' = lim_rho q rf ->
  lim_eng q' (lim_rho q rf) sf' sm' = lim_eng q (lim_rho q rf) sf sm ->
  std_max (q_prs q') 0 = std_max (q_prs q) 0 ->
  prim_to_flux v dir g q' rf' sf' sm' gm = prim_to_flux v dir g q rf sf sm gm.
Proof.
  destruct q as [r vp e p g1 B y], q' as [r' vp' e' p' g1' B' y'].
  cbn [q_vp q_B q_gm1 q_ye q_prs]. intros -> -> -> -> E1 E2 E3.
  unfold prim_to_flux. cbn [q_vp q_B q_gm1 q_ye q_prs]. rewrite E1, E2, E3. reflexivity.
Qed.

(** Every face state, admissible or not: the densities, fluxes and signal speeds computed
    with the limits rf, sf, sm are those of the limited state, computed with any limits that
    do not reach it; and the limited state obeys the limits and is the given state when that
    obeys them already. *)
Theorem C17_face_limits : forall (valencia : bool) dir (g : FaceGeom) (q : FaceState) rf sf sm gm,
  0 < rf -> sf <= sm ->
  let q' := limited_face q rf sf sm in
  (forall rf' sf' sm', rf' <= rf -> sf' < sf -> sm <= sm' ->
     prim_to_flux valencia dir g q rf sf sm gm = prim_to_flux valencia dir g q' rf' sf' sm' gm) /\
  (rf <= q_rho q' /\ sf <= q_eng q' / q_rho q' <= sm /\ 0 <= q_prs q') /\
  (rf <= q_rho q -> q_rho q' = q_rho q) /\
  (rf <= q_rho q -> sf <= q_eng q / q_rho q <= sm -> q_eng q' = q_eng q) /\
  (0 <= q_prs q -> q_prs q' = q_prs q).
Proof.
  intros v dir g q rf sf sm gm rf0 S q'. set (rho := Rmax (q_rho q) rf).
  assert (R0 : rf <= rho) by apply Rmax_r.
  assert (SS : rho * sf <= rho * sm) by (apply Rmult_le_compat_l; lra).
  assert (I : rho * sf <= q_eng q' <= rho * sm).
  { unfold q', limited_face; cbn [q_eng]. fold rho. split; [apply Rmax_l|].
    apply Rmax_lub; [exact SS|apply Rmin_l]. }
  assert (EQ : q_rho q' = rho) by reflexivity.
  assert (J : sf <= q_eng q' / rho <= sm).
  { split.
    - apply (Rmult_le_reg_l rho); [lra|]. replace (rho * (q_eng q' / rho)) with (q_eng q') by (field; lra). lra.
    - apply (Rmult_le_reg_l rho); [lra|]. replace (rho * (q_eng q' / rho)) with (q_eng q') by (field; lra). lra. }
  split; [|split; [|split; [|split]]].
  - intros rf' sf' sm' Hr Hs Hm. symmetry. apply prim_to_flux_cong; try reflexivity.
    + rewrite !lim_rho_max, EQ. fold rho. apply Rmax_left. lra.
    + rewrite lim_rho_max. fold rho. rewrite !lim_eng_clamp by lra.
      change (Rmax (rho * sf) (Rmin (rho * sm) (q_eng q))) with (q_eng q').
      assert (rho * sf' <= rho * sf) by (apply Rmult_le_compat_l; lra).
      assert (rho * sm <= rho * sm') by (apply Rmult_le_compat_l; lra).
      rewrite Rmin_right by lra. apply Rmax_right. lra.
    + rewrite !std_max_R. unfold q', limited_face; cbn [q_prs].
      rewrite (Rmax_comm 0). apply Rmax_left. apply Rmax_r.
  - rewrite EQ. split; [exact R0|]. split; [exact J|]. apply Rmax_l.
  - intros H. rewrite EQ. apply Rmax_left. exact H.
  - intros H [H1 H2]. assert (Er : rho = q_rho q) by (apply Rmax_left; exact H).
    unfold q', limited_face; cbn [q_eng]. fold rho. rewrite Er in *.
    assert (E : q_eng q = q_rho q * (q_eng q / q_rho q)) by (field; lra).
    assert (q_eng q <= q_rho q * sm) by (rewrite E at 1; apply Rmult_le_compat_l; lra).
    assert (q_rho q * sf <= q_eng q) by (rewrite E; apply Rmult_le_compat_l; lra).
    rewrite Rmin_right by lra. apply Rmax_right. lra.
  - intros H. apply Rmax_right. exact H.
Qed.
Print Assumptions C17_face_limits.

(** With the velocity within its ceiling the state used by the solver is then the conserved
    state of the limited state, whatever density, energy and pressure the reconstruction
    gave. *)
Theorem C17_limited_face_state : forall alpha beta g ginv gamma gi sg sgg gdd,
  adm_consistent alpha beta g ginv gamma gi sg sgg ->
  forall (q : FaceState) rf sf sm gm, 0 < rf -> sf <= sm -> GetLorentzFactor (q_vp q) gamma <= gm ->
  forall dir, (dir < 3)%nat ->
  let out := prim_to_flux true dir (mkFace alpha sgg sg g beta gdd) q rf sf sm gm in
  let l := limited_face q rf sf sm in
  let C := p2c true (q_rho l) (q_vp q) (q_B q) (q_eng l) (q_ye q) (q_prs l) (q_gm1 q) g gi beta alpha sg in
  fo_U out vRho * sg = cD C /\ fo_U out vEng * sg = ctau C /\ fo_U out vYe * sg = cye C /\
  (forall m, (m < 3)%nat -> fo_U out (vMom m) * sg = cS C m /\ fo_U out (vB m) * sg = cB C m).
Proof.
  intros alpha beta g ginv gamma gi sg sgg gdd H q rf sf sm gm r0 S L dir Hd out l C.
  destruct (C17_face_limits true dir (mkFace alpha sgg sg g beta gdd) q rf sf sm gm r0 S) as (A & (B1 & (B2 & B3) & B4) & _).
  pose proof (A rf (sf - 1) sm ltac:(lra) ltac:(lra) ltac:(lra)) as A'. fold out l in A'. fold l in B1, B2, B3, B4.
  rewrite A'.
  apply (C17_face_state_is_p2c alpha beta g ginv gamma gi sg sgg gdd H l rf (sf - 1) sm gm); [|exact Hd].
  split; [exact B1|]. split; [exact L|]. split; [lra|]. split; [exact B3|exact B4].
Qed.
Print Assumptions C17_limited_face_state.

(** a state with density below the floor, specific energy above the ceiling and negative
    pressure in the flat metric of C17_nonvacuous: it becomes density 1/100, energy 1/100 *)
Example C17_face_limits_nonvacuous :
  let q := mkState (1/1000) (row3 (3/4) 0 0) 7 (-1) (4/3) (row3 1 0 0) (1/2) in
  let l := limited_face q (1/100) (1/10) 1 in
  adm_consistent 2 (fun _ => 0) gw gwi delta delta 1 2 /\ GetLorentzFactor (q_vp q) delta <= 10 /\
  q_rho l = 1/100 /\ q_eng l = 1/100 /\ q_prs l = 0.
Proof.
  intros q l. split; [exact gw_consistent|]. split.
  - change (q_vp q) with (q_vp qw). rewrite qw_W. lra.
  - unfold l, limited_face, q; cbn [q_rho q_eng q_prs].
    rewrite (Rmax_right (1/1000) (1/100)) by lra. rewrite Rmin_left by lra. rewrite (Rmax_right _ (1/100*1)) by lra.
    rewrite Rmax_left by lra. repeat split; lra.
Qed.
