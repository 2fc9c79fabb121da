(** C22: the floors that follow from the magnetic ceilings (fixup.cpp:411-432). *)
From Coq Require Import Reals Arith Lia Lra Psatz Bool.
From Flocq Require Import Core.
From Verif.Spec Require Import Tensor GeomSpec SystemSpec Relativity GRMHD FloorSpec.
From Verif.Model Require Import Num Robust Geometry Relativity Prim2Con Con2PrimRobust ApplyFloors.
From Verif.Proofs Require Import NumR RobustProofs TensorTac GeomBase AdmProofs RelProofs RelativityProofs Prim2ConProofs FlatWitness.
From Verif.Properties Require Import P_GRMHD P_Con2Prim P_Floors.
Local Open Scope R_scope.

(** b^2 of the comoving frame, for the velocity and field stored in a cell *)
Definition comoving_bsq (alpha : R) (beta : vec) (g gamma : mat) (c : FCell) : R :=
  bsquared g (comoving_field g (GetLorentzFactor (f_vel c) gamma) (GetFourVelocity (f_vel c) gamma alpha beta) (f_B c)).

Section Magnetic.
Variables (alpha : R) (beta : vec) (g ginv gamma gi : mat) (sg sgg : R).
Hypothesis H : adm_consistent alpha beta g ginv gamma gi sg sgg.
Variable c : FCell.
Let vp := f_vel c. Let B := f_B c.
Let W := GetLorentzFactor vp gamma.

Lemma used_bsq : af_bsq g alpha vp B = dot3 gamma B B / (W * W) + dot3 gamma B vp * dot3 gamma B vp.
Proof.
  pose proof (adm_lapse_pos _ _ _ _ _ _ _ _ H) as Ha.
  assert (W1 : 1 <= W) by exact (lorentz_ge1 _ _ _ _ vp (adm_tpo _ _ _ _ _ _ _ _ H)).
  assert (WE : GetLorentzFactor4 vp g = W) by exact (W_eq _ _ _ _ _ _ _ _ H vp).
  unfold af_bsq. rewrite WE.
  assert (E : forall a b : vec, sum3 (fun ii => sum3 (fun jj => g (ii + 1)%nat (jj + 1)%nat * a ii * b jj)) = dot3 gamma a b).
  { intros a b. unfold dot3, sum3. cbn [Nat.add]. pose proof (adm_gij _ _ _ _ _ _ _ _ H) as G. rewrite !G by lia. ring. }
  rewrite !E. field. split; lra.
Qed.
Lemma true_bsq : comoving_bsq alpha beta g gamma c = dot3 gamma B B / (W * W) + (dot3 gamma B vp / W) * (dot3 gamma B vp / W).
Proof.
  assert (W1 : 1 <= W) by exact (lorentz_ge1 _ _ _ _ vp (adm_tpo _ _ _ _ _ _ _ _ H)).
  unfold comoving_bsq. fold vp B. rewrite (bsq_eq _ _ _ _ _ _ _ _ H vp B). fold W. unfold dot3, sum3. field. lra.
Qed.
End Magnetic.

(** With the magnetic floors on, a cell that is left alone satisfies b^2 <= bsqorho_max rho, b^2 <=
    bsqou_max u and u <= e_max rho for the true comoving field strength; where the floors act, the
    mass and energy added suffice for all three (energy as before, or as required by b^2). *)
Theorem C22_magnetic : forall alpha beta g ginv gamma gi sg sgg,
  adm_consistent alpha beta g ginv gamma gi sg sgg ->
  forall rf sf emax b1 b2 c, 0 < sf -> 0 < b1 -> 0 < b2 -> 0 < emax ->
  let bb := comoving_bsq alpha beta g gamma c in
  let '(applied, drho, du) := af_increment true g alpha rf sf emax b1 b2 c in
  (applied = false -> bb <= b1 * f_rho c /\ bb <= b2 * f_eng c /\ f_eng c <= emax * f_rho c) /\
  (applied = true -> bb <= b1 * (f_rho c + drho) /\ bb <= b2 * (f_eng c + du) /\
     f_eng c <= emax * (f_rho c + drho) /\ rf * sf <= emax * (f_rho c + drho) /\ bb / b2 <= emax * (f_rho c + drho)).
Proof.
  intros alpha beta g ginv gamma gi sg sgg H rf sf emax b1 b2 c Hs H1 H2 He bb.
  pose proof (used_bsq _ _ _ _ _ _ _ _ H c) as U. pose proof (true_bsq _ _ _ _ _ _ _ _ H c) as V. fold bb in V.
  assert (W1 : 1 <= GetLorentzFactor (f_vel c) gamma) by exact (lorentz_ge1 _ _ _ _ (f_vel c) (adm_tpo _ _ _ _ _ _ _ _ H)).
  set (W := GetLorentzFactor (f_vel c) gamma) in *. set (bv := dot3 gamma (f_B c) (f_vel c)) in *.
  assert (L : bb <= af_bsq g alpha (f_vel c) (f_B c)).
  { rewrite U, V. apply Rplus_le_compat_l. unfold Rdiv.
    assert (I : 0 < / W <= 1). { split; [apply Rinv_0_lt_compat; lra|]. rewrite <- Rinv_1. apply Rinv_le_contravar; lra. }
    clearbody W bv. clear - I. set (w := / W) in *. clearbody w.
    replace (bv * w * (bv * w)) with ((bv * bv) * (w * w)) by ring.
    assert (0 <= bv * bv) by nra. assert (w * w <= 1) by nra. nra. }
  unfold af_increment, af_floor_max. rewrite !std_max_R.
  set (q := af_bsq g alpha (f_vel c) (f_B c)) in *. clearbody q. clear U V.
  set (um := Rmax (rf * sf) (q / b2)). set (rm := Rmax (Rmax rf (q / b1)) (Rmax (f_eng c) um / emax)).
  assert (P1 : bb <= b1 * rm).
  { assert (q / b1 <= rm). { unfold rm. eapply Rle_trans; [|apply Rmax_l]. apply Rmax_r. }
    assert (q = q / b1 * b1) by (field; lra). nra. }
  assert (P2 : q / b2 <= um /\ rf * sf <= um) by (unfold um; split; [apply Rmax_r|apply Rmax_l]).
  assert (P2' : bb <= b2 * um). { assert (q = q / b2 * b2) by (field; lra). nra. }
  assert (P2'' : bb / b2 <= q / b2). { unfold Rdiv. apply Rmult_le_compat_r; [|exact L]. left. apply Rinv_0_lt_compat, H2. }
  assert (P3 : Rmax (f_eng c) um <= emax * rm).
  { assert (K : Rmax (f_eng c) um / emax <= rm) by (unfold rm; apply Rmax_r).
    assert (Rmax (f_eng c) um = Rmax (f_eng c) um / emax * emax) by (field; lra). nra. }
  pose proof (Rmax_l (f_eng c) um). pose proof (Rmax_r (f_eng c) um). clearbody rm um.
  destruct (Rlt_bool 0 (rm - f_rho c) || Rlt_bool 0 (um - f_eng c)) eqn:E; (split; intros K; [try discriminate|try discriminate]).
  - rewrite ?std_max_R. pose proof (Rmax_l (rm - f_rho c) ((um - f_eng c) / sf)) as D1. set (dr := Rmax (rm - f_rho c) _) in *. clearbody dr.
    pose proof (Rmax_l (um - f_eng c) (sf * dr)) as D2. set (du := Rmax (um - f_eng c) _) in *. clearbody du.
    assert (b1 * rm <= b1 * (f_rho c + dr)) by (apply Rmult_le_compat_l; lra).
    assert (b2 * um <= b2 * (f_eng c + du)) by (apply Rmult_le_compat_l; lra).
    assert (emax * rm <= emax * (f_rho c + dr)) by (apply Rmult_le_compat_l; lra).
    lra.
  - apply orb_false_iff in E. destruct E as [E1 E2].
    destruct (Rlt_bool_spec 0 (rm - f_rho c)); [discriminate|]. destruct (Rlt_bool_spec 0 (um - f_eng c)); [discriminate|].
    assert (b1 * rm <= b1 * f_rho c) by (apply Rmult_le_compat_l; lra).
    assert (b2 * um <= b2 * f_eng c) by (apply Rmult_le_compat_l; lra).
    assert (emax * rm <= emax * f_rho c) by (apply Rmult_le_compat_l; lra).
    lra.
Qed.
Print Assumptions C22_magnetic.

(** Where the fluid is at rest or the field is orthogonal to the velocity, nothing else is asked:
    such a cell within all limits is left exactly as it is. *)
Theorem C22_magnetic_inside : forall alpha beta g ginv gamma gi sg sgg,
  adm_consistent alpha beta g ginv gamma gi sg sgg ->
  forall valencia hasye mhd eos bulk rf sf gmax emax b1 b2 yemin invert c,
  0 < b1 -> 0 < b2 -> 0 < emax -> 0 < f_rho c -> dot3 gamma (f_B c) (f_vel c) = 0 ->
  let bb := comoving_bsq alpha beta g gamma c in
  rf <= f_rho c -> rf * sf <= f_eng c -> bb <= b1 * f_rho c -> bb <= b2 * f_eng c -> f_eng c <= emax * f_rho c ->
  GetLorentzFactor (f_vel c) gamma <= gmax ->
  apply_floors valencia true mhd hasye eos bulk g gi beta alpha sg rf sf gmax emax b1 b2 yemin invert c = c.
Proof.
  intros alpha beta g ginv gamma gi sg sgg H valencia hasye mhd eos bulk rf sf gmax emax b1 b2 yemin invert c H1 H2 He Hr H0 bb R1 R2 R3 R4 R5 R6.
  pose proof (used_bsq _ _ _ _ _ _ _ _ H c) as U. pose proof (true_bsq _ _ _ _ _ _ _ _ H c) as V. fold bb in V.
  assert (W1 : 1 <= GetLorentzFactor (f_vel c) gamma) by exact (lorentz_ge1 _ _ _ _ (f_vel c) (adm_tpo _ _ _ _ _ _ _ _ H)).
  rewrite H0 in U, V. assert (Q : af_bsq g alpha (f_vel c) (f_B c) = bb) by (rewrite U, V; field; lra).
  unfold apply_floors, af_floors, af_increment, af_floor_max, af_ceiling. rewrite Q, !std_max_R.
  assert (K1 : bb / b1 <= f_rho c) by (apply Rmult_le_reg_r with b1; [lra|]; unfold Rdiv; rewrite Rmult_assoc, Rinv_l by lra; lra).
  assert (K2 : bb / b2 <= f_eng c) by (apply Rmult_le_reg_r with b2; [lra|]; unfold Rdiv; rewrite Rmult_assoc, Rinv_l by lra; lra).
  assert (K3 : Rmax (rf * sf) (bb / b2) <= f_eng c) by (apply Rmax_lub; assumption).
  assert (K4 : Rmax (Rmax rf (bb / b1)) (Rmax (f_eng c) (Rmax (rf * sf) (bb / b2)) / emax) <= f_rho c).
  { apply Rmax_lub; [apply Rmax_lub; assumption|]. rewrite (Rmax_left (f_eng c)) by exact K3.
    apply Rmult_le_reg_r with emax; [lra|]; unfold Rdiv; rewrite Rmult_assoc, Rinv_l by lra; lra. }
  rewrite (Rlt_bool_false 0 (_ - f_rho c)) by lra. rewrite (Rlt_bool_false 0 (_ - f_eng c)) by lra. cbn [orb].
  assert (WE : GetLorentzFactor4 (f_vel c) g = GetLorentzFactor (f_vel c) gamma) by exact (W_eq _ _ _ _ _ _ _ _ H (f_vel c)).
  rewrite WE. rewrite (Rlt_bool_false gmax) by lra.
  rewrite (Rlt_bool_false emax) by (apply Rmult_le_reg_r with (f_rho c); [lra|]; unfold Rdiv; rewrite Rmult_assoc, Rinv_l by lra; lra).
  reflexivity.
Qed.
Print Assumptions C22_magnetic_inside.

(** But the field strength the code compares with the limit is B^2/W^2 + (B.u)^2 instead of B^2/W^2 +
    (B.u)^2/W^2: in every moving cell whose field has a component along the flow the limit is
    effectively lower, and mass is added to cells that satisfy all the limits. *)
Theorem C22_magnetic_refuted : forall alpha beta g ginv gamma gi sg sgg,
  adm_consistent alpha beta g ginv gamma gi sg sgg ->
  forall c, 1 < GetLorentzFactor (f_vel c) gamma -> dot3 gamma (f_B c) (f_vel c) <> 0 ->
  let bb := comoving_bsq alpha beta g gamma c in
  exists q, bb < q /\
  forall rf sf emax b1 b2, 0 < b1 -> 0 < sf -> bb <= b1 * f_rho c -> b1 * f_rho c < q ->
    let '(applied, drho, _) := af_increment true g alpha rf sf emax b1 b2 c in applied = true /\ 0 < drho.
Proof.
  intros alpha beta g ginv gamma gi sg sgg H c HW Hb bb.
  pose proof (used_bsq _ _ _ _ _ _ _ _ H c) as U. pose proof (true_bsq _ _ _ _ _ _ _ _ H c) as V. fold bb in V.
  set (W := GetLorentzFactor (f_vel c) gamma) in *. set (bv := dot3 gamma (f_B c) (f_vel c)) in *.
  exists (af_bsq g alpha (f_vel c) (f_B c)). split.
  - rewrite U, V. apply Rplus_lt_compat_l. clearbody W bv.
    assert (I : 0 < / W < 1). { split; [apply Rinv_0_lt_compat; lra|]. rewrite <- Rinv_1. apply Rinv_lt_contravar; lra. }
    unfold Rdiv. set (w := / W) in *. clearbody w. replace (bv * w * (bv * w)) with ((bv * bv) * (w * w)) by ring.
    assert (0 < bv * bv) by nra. assert (w * w < 1) by nra. nra.
  - intros rf sf emax b1 b2 H1 Hs _ K. unfold af_increment, af_floor_max. set (q := af_bsq _ _ _ _) in *. clearbody q.
    rewrite !std_max_R. set (rm := Rmax (Rmax rf (q / b1)) _).
    assert (f_rho c < rm).
    { apply Rlt_le_trans with (q / b1); [|unfold rm; eapply Rle_trans; [|apply Rmax_l]; apply Rmax_r].
      apply Rmult_lt_reg_r with b1; [lra|]. unfold Rdiv. rewrite Rmult_assoc, Rinv_l by lra. lra. }
    rewrite (Rlt_bool_true 0 (rm - f_rho c)) by lra. cbn [orb]. split; [reflexivity|]. rewrite ?std_max_R.
    eapply Rlt_le_trans; [|apply Rmax_l]. lra.
Qed.
Print Assumptions C22_magnetic_refuted.

(** ApplyFloors leaves a cell exactly as it was or, where a floor or ceiling acted, with temperature, pressure and
    bulk modulus ratio that belong to the density, energy and composition it leaves. *)
Theorem C22_derived : forall valencia mf mhd eos bulk g gi beta alpha sg rf sf gmax emax b1 b2 yemin invert c,
  let c' := apply_floors valencia mf mhd true eos bulk g gi beta alpha sg rf sf gmax emax b1 b2 yemin invert c in
  c' = c \/
  (0 < f_rho c' ->
   f_tmp c' = eos_T eos (f_rho c') (f_eng c' / f_rho c') (f_ye c') /\
   f_prs c' = eos_PT eos (f_rho c') (f_tmp c') (f_ye c') /\
   (f_prs c' <> 0 -> f_gm1 c' = eos_BT eos (f_rho c') (f_tmp c') (f_ye c') / f_prs c')).
Proof.
  intros valencia mf mhd eos bulk g gi beta alpha sg rf sf gmax emax b1 b2 yemin invert c c'.
  assert (F : fst (af_floors valencia mf mhd true eos bulk g gi beta alpha sg rf sf emax b1 b2 yemin invert c) = false ->
    snd (af_floors valencia mf mhd true eos bulk g gi beta alpha sg rf sf emax b1 b2 yemin invert c) = c).
  { unfold af_floors. destruct (af_increment _ _ _ _ _ _ _ _ _) as [[ap dr] du]. destruct ap; [|reflexivity]. destruct (invert _) as [[] x]; cbn [fst]; discriminate. }
  assert (C : forall x, fst (af_ceiling valencia mhd true g gi beta alpha sg gmax emax x) = false -> snd (af_ceiling valencia mhd true g gi beta alpha sg gmax emax x) = x).
  { intros x. unfold af_ceiling. destruct (_ || _); [cbn [fst]; discriminate|reflexivity]. }
  unfold c', apply_floors. destruct (af_floors _ _ _ _ _ _ _ _ _ _ _ _ _ _ _ _ _ _ _) as [fa x]. cbn [fst snd] in F.
  specialize (C x). destruct (af_ceiling _ _ _ _ _ _ _ _ _ _ x) as [ca y]. cbn [fst snd] in C.
  destruct fa, ca; cbn [orb]; [right|right|right|left; rewrite (C eq_refl), (F eq_refl); reflexivity];
  unfold af_derived; cbn [f_rho f_eng f_ye f_tmp f_prs f_gm1]; intros P;
  (split; [rewrite gratio_nz by lra; reflexivity|split; [reflexivity|intros Lp]]);
  (rewrite (gratio_nz (eos_BT _ _ _ _)) by exact Lp; reflexivity).
Qed.
Print Assumptions C22_derived.

(** u-velocity 3/4 along x with B = 1 along x: b^2 = 1, the code uses 16/25 + 9/16 = 481/400 *)
Definition streaming (rho : R) : FCell := mkFCell rho (v3 (3/4) 0 0) 1 (v3 1 0 0) 0 1 1 1 (mkCons 0 zero3 zero3 0 0 zero3).
Example C22_magnetic_nonvacuous :
  1 < GetLorentzFactor (f_vel (streaming 1)) delta /\ dot3 delta (f_B (streaming 1)) (f_vel (streaming 1)) <> 0 /\
  comoving_bsq 1 zero3 eta4 delta (streaming 1) = 1 /\
  comoving_bsq 1 zero3 eta4 delta (streaming 1) <= 1 * f_rho (streaming 1) /\ 1 * f_rho (streaming 1) < 481/400 /\
  af_bsq eta4 1 (f_vel (streaming 1)) (f_B (streaming 1)) = 481/400 /\
  dot3 delta (f_B (streaming 1)) zero3 = 0.
Proof.
  assert (D : forall a b : R, dot3 delta (v3 a 0 0) (v3 b 0 0) = a * b) by (intros; unfold dot3, sum3, delta, v3; cbn [Nat.eqb]; ring).
  pose proof flat_W34 as W34.
  assert (E : comoving_bsq 1 zero3 eta4 delta (streaming 1) = 1).
  { rewrite (true_bsq _ _ _ _ _ _ _ _ eta4_consistent). unfold streaming; cbn [f_vel f_B]. rewrite W34, !D. lra. }
  assert (E' : af_bsq eta4 1 (f_vel (streaming 1)) (f_B (streaming 1)) = 481/400).
  { rewrite (used_bsq _ _ _ _ _ _ _ _ eta4_consistent). unfold streaming; cbn [f_vel f_B]. rewrite W34, !D. lra. }
  split; [unfold streaming; cbn [f_vel]; rewrite W34; lra|]. split; [unfold streaming; cbn [f_vel f_B]; rewrite D; lra|].
  split; [exact E|]. split; [rewrite E; unfold streaming; cbn [f_rho]; lra|]. split; [unfold streaming; cbn [f_rho]; lra|].
  split; [exact E'|]. unfold dot3, sum3, zero3. ring.
Qed.
