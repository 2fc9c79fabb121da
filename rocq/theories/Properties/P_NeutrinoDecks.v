(** C70: the neutrino test problems, and optically thin cooling over a whole run. *)
From Coq Require Import Reals ZArith List Lra Lia Psatz Bool.
From Flocq Require Import Core.
From Verif.Spec Require Import Tensor GeomSpec UnitsSpec Relativity RadSpec NeutrinoSpec.
From Verif.Model Require Import Num Units Relativity Prim2Con RadSource MonteCarlo NeutrinoDecks.
From Verif.Proofs Require Import NumR.
From Verif.Properties Require Import P_Units P_RadExchange P_TestFlows.
Import ListNotations.
Local Open Scope R_scope.

(** ** the composition boxes *)
Lemma Rle_bool_opp a b : Rle_bool (- a) (- b) = Rle_bool b a.
Proof. destruct (Rle_bool_spec b a); [apply Rle_bool_true; lra|apply Rle_bool_false; lra]. Qed.
Lemma box_off x : Rle_bool (1 / 4) x = true -> Rle_bool x (- (1 / 4)) = true -> False.
Proof. destruct (Rle_bool_spec (1 / 4) x), (Rle_bool_spec x (- (1 / 4))); intros; try discriminate; lra. Qed.

(** Every point: one of three values, and the point opposite has the complementary one. *)
Theorem C70_boxes : forall x y,
  leptoneq_ye x y + leptoneq_ye (- x) (- y) = 45 / 100 /\ 1 / 10 <= leptoneq_ye x y <= 35 / 100 /\
  (leptoneq_ye x y = 1 / 10 <-> Rabs (x + 1 / 2) <= 1 / 4 /\ Rabs (y + 1 / 2) <= 1 / 4) /\
  (leptoneq_ye x y = 35 / 100 <-> Rabs (x - 1 / 2) <= 1 / 4 /\ Rabs (y - 1 / 2) <= 1 / 4).
Proof.
  intros x y. assert (A : forall c, Rabs c <= 1 / 4 <-> - (1 / 4) <= c <= 1 / 4).
  { intros c. split; [apply Rabs_le_inv|apply Rabs_le]. }
  rewrite !A. unfold leptoneq_ye.
  destruct (Rle_bool_spec (- (75 / 100)) x), (Rle_bool_spec x (- (25 / 100))), (Rle_bool_spec (- (75 / 100)) y), (Rle_bool_spec y (- (25 / 100)));
  destruct (Rle_bool_spec (25 / 100) x), (Rle_bool_spec x (75 / 100)), (Rle_bool_spec (25 / 100) y), (Rle_bool_spec y (75 / 100)); cbn [andb]; try (exfalso; lra).
  all: destruct (Rle_bool_spec (- (75 / 100)) (- x)), (Rle_bool_spec (- x) (- (25 / 100))), (Rle_bool_spec (- (75 / 100)) (- y)), (Rle_bool_spec (- y) (- (25 / 100)));
    cbn [andb]; try (exfalso; lra).
  all: destruct (Rle_bool_spec (25 / 100) (- x)), (Rle_bool_spec (- x) (75 / 100)), (Rle_bool_spec (25 / 100) (- y)), (Rle_bool_spec (- y) (75 / 100));
    cbn [andb]; try (exfalso; lra); repeat split; try lra; intros; exfalso; lra.
Qed.
Print Assumptions C70_boxes.

Lemma add_up_ext n f g : (forall i, (i < n)%nat -> f i = g i) -> add_up n f = add_up n g.
Proof. induction n as [|n IH]; intros H; cbn; [reflexivity|]. rewrite IH, H by (intros; try apply H; lia). reflexivity. Qed.
Lemma add_up_plus n f g : add_up n (fun i => f i + g i) = add_up n f + add_up n g.
Proof. induction n as [|n IH]; cbn; [ring|]. rewrite IH. ring. Qed.
Lemma add_up_const n c : add_up n (fun _ => c) = INR n * c.
Proof. induction n as [|n IH]; [cbn; ring|]. cbn [add_up]. rewrite IH, S_INR. ring. Qed.
Lemma add_up_first n f : add_up (S n) f = f 0%nat + add_up n (fun i => f (S i)).
Proof. induction n as [|n IH]; [cbn; ring|]. change (add_up (S n) f + f (S n) = f 0%nat + (add_up n (fun i => f (S i)) + f (S n))). rewrite IH. ring. Qed.
Lemma add_up_rev n : forall f, add_up n (fun i => f (n - 1 - i)%nat) = add_up n f.
Proof.
  induction n as [|n IH]; intros f; [reflexivity|]. rewrite add_up_first. replace (S n - 1 - 0)%nat with n by lia.
  rewrite (add_up_ext n (fun i => f (S n - 1 - S i)%nat) (fun i => f (n - 1 - i)%nat)) by (intros; f_equal; lia). rewrite IH. cbn [add_up]. ring.
Qed.
Lemma centre_opp l n i : (i < n)%nat -> centre l n (n - 1 - i) = - centre l n i.
Proof.
  intros H. unfold centre. assert (0 < INR n) by (apply lt_0_INR; lia).
  replace (INR (n - 1 - i)) with (INR n - 1 - INR i); [field; lra|]. rewrite !minus_INR by lia. reflexivity.
Qed.
(** Every mesh centred on the origin, with any number of equal zones: the electrons and their
    number per baryon averaged over the mesh are those of the background, 0.225. *)
Theorem C70_boxes_total : forall lx ly n m,
  add_up n (fun i => add_up m (fun j => leptoneq_ye (centre lx n i) (centre ly m j))) = INR n * INR m * (225 / 1000).
Proof.
  intros lx ly n m. set (f := fun i j => leptoneq_ye (centre lx n i) (centre ly m j)).
  assert (D : add_up n (fun i => add_up m (fun j => f i j)) + add_up n (fun i => add_up m (fun j => f i j)) = INR n * INR m * (45 / 100)); [|change (add_up n (fun i => add_up m (fun j => f i j)) = INR n * INR m * (225 / 1000)); lra].
  rewrite <- (add_up_rev n (fun i => add_up m (fun j => f i j))) at 2.
  rewrite <- add_up_plus, (add_up_ext n _ (fun _ => INR m * (45 / 100))); [rewrite add_up_const; ring|].
  intros i Hi. rewrite <- (add_up_rev m (fun j => f (n - 1 - i)%nat j)), <- add_up_plus, (add_up_ext m _ (fun _ => 45 / 100)); [apply add_up_const|].
  intros j Hj. unfold f. rewrite !centre_opp by assumption. apply (C70_boxes (centre lx n i) (centre ly m j)).
Qed.
Print Assumptions C70_boxes_total.

(** Every system of units and equation of state: the gas has 10^10 g/cm^3 and k_B T = 2.5 MeV,
    is at rest, and energy and pressure belong to that density, temperature and composition. *)
Theorem C70_lepton_start : forall pc junk pin u eos eV x y, physical pc -> positive_input pin -> UnitConversions pc junk pin = Some u ->
  let z := leptoneq_zone eos pc eV u x y in
  n_rho z = in_code (base_of u) d_mass_density (10 ^ 10) /\
  n_T z = in_code (base_of u) d_temperature (25 / 10 * 10 ^ 6 * eV / k_b pc) /\ (forall i, n_v z i = 0) /\
  n_ye z = leptoneq_ye x y /\ n_u z = n_rho z * y_sie eos (n_rho z) (n_T z) (n_ye z) /\ n_P z = y_P eos (n_rho z) (n_T z) (n_ye z).
Proof.
  intros pc junk pin u eos eV x y P Q K z. destruct (C34_dimensions pc junk pin u P Q K) as (_ & _ & D & _).
  unfold z, leptoneq_zone. cbn [n_rho n_T n_ye n_u n_P n_v]. repeat split.
  - unfold leptoneq_rho0, in_code. rewrite <- D. unfold GetMassDensityCGSToCode, GetMassDensityCodeToCGS. num_R. unfold Rdiv. ring.
  - unfold leptoneq_T0, in_code, one_code_unit, base_of, d_temperature, dim. cbn [unit_M unit_L unit_T unit_K dM dL dT dK]. rewrite pz1, !pz0.
    unfold GetTemperatureCGSToCode, GetTemperatureCodeToCGS. num_R. unfold Rdiv. rewrite !Rmult_1_l. ring.
Qed.
Print Assumptions C70_lepton_start.

(** ** optically thin cooling *)
(** the set-up: exactly one kind of neutrino; 10^6 g/cm^3 and 10^20 erg/cm^3, equal numbers of
    protons and neutrons for neutrinos, neutrons only for antineutrinos *)
Theorem C70_thin_start : forall pc junk pin u eos nue nuebar, physical pc -> positive_input pin -> UnitConversions pc junk pin = Some u ->
  (thin_ye0 nue nuebar = None <-> nue = nuebar) /\
  (thin_ye0 true false = Some (1 / 2) /\ thin_ye0 false true = Some 0) /\
  forall ye0, let z := thin_zone eos u ye0 in
  n_rho z = in_code (base_of u) d_mass_density (10 ^ 6) /\ n_u z = in_code (base_of u) d_energy_density (10 ^ 20) /\ n_ye z = ye0 /\
  (let c := p2c true (n_rho z) (n_v z) (fun _ => 0) (n_u z) (n_ye z) (n_P z) (n_gam z) flat_g flat_g (fun _ => 0) 1 1 in
   cD c = n_rho z /\ (forall i, (i < 3)%nat -> cS c i = 0) /\ ctau c = n_u z /\ cye c = n_rho z * n_ye z).
Proof.
  intros pc junk pin u eos nue nuebar P Q K. destruct (C34_dimensions pc junk pin u P Q K) as (_ & _ & D & _ & _ & _ & E & _).
  split; [destruct nue, nuebar; cbn; split; congruence|]. split; [split; unfold thin_ye0; cbn [Bool.eqb]; f_equal; lra|].
  intros ye0 z. unfold z, thin_zone. cbn [n_rho n_u n_ye n_v n_P n_gam]. split; [|split; [|split]].
  - unfold in_code. rewrite <- D. unfold GetMassDensityCGSToCode, GetMassDensityCodeToCGS. num_R. unfold Rdiv. ring.
  - apply E.
  - reflexivity.
  - set (rho := 10 ^ 6 * _). set (uu := EnergyDensityInCode _ _). set (pp := y_Pe _ _ _ _). set (g1 := _ / _).
    assert (W : GetLorentzFactor4 (fun _ => 0) flat_g = 1).
    { unfold GetLorentzFactor4, sum3. etransitivity; [|exact sqrt_1]. f_equal. ring. }
    unfold p2c. cbv zeta. cbn [cD cS ctau cye]. rewrite !W. unfold sum3, sum4. cbn [Nat.add]. repeat split; intros; unfold Rdiv; rewrite ?Rinv_1; ring.
Qed.
Print Assumptions C70_thin_start.

Lemma flat_rest : dot4 flat_g rest_u rest_u = -1.
Proof. unfold dot4, sum4, flat_g, rest_u. cbn [Nat.eqb]. ring. Qed.
Lemma cool_one eos em mp s dt c : let rho := cD c in let ye := cye c / cD c in let T := y_T eos rho (ctau c / rho) ye in
  let c' := cool_zone eos em mp s dt c in
  cD c' = cD c /\ (forall i, cS c' i = cS c i) /\ cB c' = cB c /\ ctau c' = ctau c - dt * emissivity em rho T ye /\
  cye c' = cye c - dt * (LeptonSign s * mp * number_emissivity em rho T ye).
Proof.
  intros rho ye T c'. unfold c', cool_zone, ApplyRadiationFourForce, add_cooling. cbn [cD cS cB ctau cye fst snd].
  fold rho. change (cye c / rho) with ye. change (y_T eos rho (ctau c / rho) ye) with T. rewrite !(frame_time flat_g rest_u) by exact flat_rest.
  split; [reflexivity|]. split; [|split; [reflexivity|split]].
  - intros i. rewrite (frame_time flat_g rest_u) by exact flat_rest. unfold low, lower4, sum4, flat_g, rest_u. cbn [Nat.eqb]. ring.
  - unfold low, lower4, sum4, flat_g, rest_u. cbn [Nat.eqb]. ring.
  - ring.
Qed.

(** factor by which a list of steps multiplies the electron fraction *)
Definition decay_factor (k : R) (dts : list R) : R := fold_right (fun d f => (1 - k * d) * f) 1 dts.
(** the amount that decays: Ye for neutrinos, 1/2 - Ye for antineutrinos *)
Definition excess (s : Z) (ye : R) : R := match s with 0%Z => ye | _ => 1 / 2 - ye end.

Lemma tophat_step eos e a mp s dt c : s = 0%Z \/ s = 1%Z -> 0 < cD c ->
  let c' := cool_zone eos (tophat_emits e a s) mp s dt c in
  let k := 2 * mp * a / cD c in
  excess s (cye c' / cD c') = (1 - k * dt) * excess s (cye c / cD c) /\ ctau c' = ctau c - 2 * e * dt * excess s (cye c / cD c) /\
  cD c' = cD c /\ (forall i, cS c' i = cS c i).
Proof.
  intros Hs P c' k. destruct (cool_one eos (tophat_emits e a s) mp s dt c) as (D & M & _ & E & Y). fold c' in D, M, E, Y.
  rewrite D, E, Y. unfold tophat_emits. cbn [emissivity number_emissivity].
  destruct Hs as [-> | ->]; unfold excess, ye_factor, LeptonSign, k; cbn [Z.abs Z.ltb Z.compare Pos.compare Pos.compare_cont].
  - replace (IZR (-2 * 0 + 1)) with 1 by reflexivity. split; [field; lra|]. split; [ring|]. split; [reflexivity|exact M].
  - replace (IZR (-2 * 1 + 1)) with (-1) by reflexivity. split; [field; lra|]. split; [field; lra|]. split; [reflexivity|exact M].
Qed.

(** Any steps: density and momentum stay; the decaying electron fraction is multiplied by
    1 - (2 m_p a / rho) dt in each step; and whatever the steps were, every baryon that changed
    has cost the same energy. *)
Theorem C70_cooling : forall eos e a mp s dts c, s = 0%Z \/ s = 1%Z -> 0 < cD c -> 0 < mp -> 0 < a ->
  let c' := cool_steps eos (tophat_emits e a s) mp s dts c in
  let k := 2 * mp * a / cD c in let y z := excess s (cye z / cD z) in
  cD c' = cD c /\ (forall i, cS c' i = cS c i) /\ y c' = decay_factor k dts * y c /\
  ctau c - ctau c' = e / (mp * a) * cD c * (y c - y c').
Proof.
  intros eos e a mp s dts c Hs P Pm Pa. revert c P. induction dts as [|d l IH]; intros c P; cbn [cool_steps decay_factor fold_right].
  - repeat split; try ring.
  - destruct (tophat_step eos e a mp s d c Hs P) as (Y & E & D & M). set (c1 := cool_zone _ _ _ _ d c) in *.
    destruct (IH c1 ltac:(lra)) as (D1 & M1 & Y1 & E1). fold (decay_factor (2 * mp * a / cD c) l). rewrite D in D1, Y1, E1. cbv zeta.
    split; [exact D1|]. split; [intros i; rewrite M1; apply M|]. split.
    + rewrite D in Y. rewrite D1 in Y1. rewrite D1, Y1, Y. ring.
    + rewrite D in Y. rewrite D1 in Y1, E1. rewrite D1. rewrite Y in E1.
      replace (ctau c - ctau (cool_steps eos (tophat_emits e a s) mp s l c1)) with ((ctau c - ctau c1) + (ctau c1 - ctau (cool_steps eos (tophat_emits e a s) mp s l c1))) by ring.
      rewrite E1, E. field. lra.
Qed.
Print Assumptions C70_cooling.

Lemma exp_bounds x : 0 <= x -> 1 - x <= exp (- x) <= 1 - x + x * x.
Proof.
  intros P. split; [pose proof (exp_ineq1_le (- x)); lra|].
  rewrite exp_Ropp. pose proof (exp_ineq1_le x). apply Rle_trans with (/ (1 + x)); [apply Rinv_le_contravar; lra|].
  apply (Rmult_le_reg_l (1 + x)); [lra|]. rewrite Rinv_r by lra. nra.
Qed.
Lemma decay_bounds k dts : 0 <= k -> (forall d, In d dts -> 0 <= d /\ k * d <= 1) ->
  0 <= decay_factor k dts /\ decay_factor k dts <= exp (- (k * elapsed dts)) /\ exp (- (k * elapsed dts)) <= decay_factor k dts + k * k * squares dts /\ exp (- (k * elapsed dts)) <= 1.
Proof.
  intros Hk. induction dts as [|d l IH]; intros H; cbn [decay_factor elapsed squares fold_right].
  - rewrite Rmult_0_r, Ropp_0, exp_0. lra.
  - fold (decay_factor k l) (elapsed l) (squares l). destruct (H d (or_introl eq_refl)) as [d0 d1].
    destruct IH as (A & B & C & D); [intros; apply H; right; assumption|].
    replace (- (k * (d + elapsed l))) with (- (k * d) + - (k * elapsed l)) by ring. rewrite exp_plus.
    assert (P : 0 <= k * d) by nra. destruct (exp_bounds _ P) as [X Y]. set (ed := exp (- (k * d))) in *. set (el := exp (- (k * elapsed l))) in *.
    pose proof (exp_pos (- (k * d))). pose proof (exp_pos (- (k * elapsed l))). fold ed el in H0, H1.
    assert (E1 : ed <= 1) by (unfold ed; rewrite <- exp_0; destruct P as [P|P]; [left; apply exp_increasing; lra|right; f_equal; lra]).
    repeat split; nra.
Qed.
(** Steps that resolve the decay: Ye stays between the values 0 and 1/2, never overtakes the exact
    solution, and lags behind it by at most k^2 times the sum of the squared steps (first order);
    the same for the energy. *)
Theorem C70_cooling_accuracy : forall eos e a mp s dts c, s = 0%Z \/ s = 1%Z -> 0 < cD c -> 0 < mp -> 0 < a -> 0 <= e ->
  let k := 2 * mp * a / cD c in let y z := excess s (cye z / cD z) in
  (forall d, In d dts -> 0 <= d /\ k * d <= 1) -> 0 <= y c ->
  let c' := cool_steps eos (tophat_emits e a s) mp s dts c in
  let lag := k ^ 2 * squares dts * y c in
  0 <= y c' <= y c /\ y c' <= exact_decay k (y c) (elapsed dts) <= y c' + lag /\
  let lost := e / (mp * a) * cD c * (y c - exact_decay k (y c) (elapsed dts)) in
  ctau c - ctau c' - e / (mp * a) * cD c * lag <= lost <= ctau c - ctau c'.
Proof.
  intros eos e a mp s dts c Hs P Pm Pa Pe k y H Y c' lag.
  destruct (C70_cooling eos e a mp s dts c Hs P Pm Pa) as (_ & _ & E & T). fold c' k in E, T. change (excess s (cye c' / cD c')) with (y c') in E, T. change (excess s (cye c / cD c)) with (y c) in E, T.
  assert (Hk : 0 <= k) by (unfold k, Rdiv; pose proof (Rinv_0_lt_compat _ P); assert (0 < mp * a) by nra; nra).
  destruct (decay_bounds k dts Hk H) as (A & B & C & D).
  assert (F : 0 <= e / (mp * a) * cD c). { assert (0 < / (mp * a)) by (apply Rinv_0_lt_compat; nra). unfold Rdiv. assert (0 <= e * / (mp * a)) by nra. nra. }
  unfold exact_decay. rewrite T. set (f := decay_factor k dts) in *. set (x := exp (- (k * elapsed dts))) in *. set (r := e / (mp * a) * cD c) in *. clearbody f x r.
  assert (G : y c' <= y c * x <= y c' + lag) by (unfold lag; rewrite E; split; nra).
  split; [rewrite E; split; nra|]. split; [exact G|]. split; nra.
Qed.
Print Assumptions C70_cooling_accuracy.

(** VIOLATION: nothing ties the step to the cooling time: for every emitting gas there is a step
    after which its energy is negative. *)
Theorem C70_overcool_refuted : forall eos em mp s c,
  0 < emissivity em (cD c) (y_T eos (cD c) (ctau c / cD c) (cye c / cD c)) (cye c / cD c) ->
  exists dt, 0 < dt /\ ctau (cool_zone eos em mp s dt c) < 0.
Proof.
  intros eos em mp s c P. set (J := emissivity em _ _ _) in P. exists ((Rabs (ctau c) + 1) / J).
  pose proof (Rabs_pos (ctau c)). pose proof (Rle_abs (ctau c)). split; [apply Rdiv_lt_0_compat; lra|].
  destruct (cool_one eos em mp s ((Rabs (ctau c) + 1) / J) c) as (_ & _ & _ & E & _). cbv zeta in E. rewrite E. fold J.
  replace ((Rabs (ctau c) + 1) / J * J) with (Rabs (ctau c) + 1) by (field; lra). lra.
Qed.
Print Assumptions C70_overcool_refuted.

(** ** the sphere *)
(** With spherical coordinates the dense region is the ball of the given radius ... *)
Theorem C70_sphere : forall radius rho_min r theta phi, 0 <= r -> rho_min <> 1 ->
  (sphere_zone_rho radius rho_min r = 1 <-> ball_distance r theta phi < radius).
Proof.
  intros radius rho_min r theta phi Hr Hm.
  assert (E : ball_distance r theta phi = r).
  { unfold ball_distance. replace (_ + _) with (r * r).
    - apply sqrt_square. exact Hr.
    - pose proof (sin2_cos2 theta) as A. pose proof (sin2_cos2 phi) as B. unfold Rsqr in *.
      set (st := sin theta) in *. set (ct := cos theta) in *. set (sp := sin phi) in *. set (cp := cos phi) in *. clearbody st ct sp cp.
      replace ((r * st * cp) ^ 2 + (r * st * sp) ^ 2 + (r * ct) ^ 2) with (r * r * (st * st * (sp * sp + cp * cp) + ct * ct)) by ring. rewrite B, Rmult_1_r, A. ring. }
  rewrite E. unfold sphere_zone_rho. destruct (Rlt_bool_spec r radius) as [L|L]; split; intros; try tauto; try lra. 
Qed.
Print Assumptions C70_sphere.
(** ... VIOLATION: with Cartesian coordinates, which the problem accepts as well, it is the half
    space x < radius, *)
Theorem C70_sphere_cartesian_refuted : forall radius rho_min, 0 < radius -> rho_min <> 1 ->
  (forall x y z : R, sphere_zone_rho radius rho_min x = 1 <-> x < radius) /\
  exists x y z : R, sphere_zone_rho radius rho_min x = 1 /\ radius < sqrt (x ^ 2 + y ^ 2 + z ^ 2).
Proof.
  intros radius rho_min P Hm. split.
  - intros x _ _. unfold sphere_zone_rho. destruct (Rlt_bool_spec x radius) as [L|L]; split; intros; try tauto; try lra.
  - exists (- (2 * radius)), 0, 0. split; [unfold sphere_zone_rho; rewrite Rlt_bool_true by lra; reflexivity|].
    replace ((- (2 * radius)) ^ 2 + 0 ^ 2 + 0 ^ 2) with ((2 * radius) * (2 * radius)) by ring. rewrite sqrt_square; lra.
Qed.
Print Assumptions C70_sphere_cartesian_refuted.
(** and the parameter vx is not the velocity: the gas moves slower than asked, whatever is asked *)
Theorem C70_sphere_velocity_refuted : forall vx, vx <> 0 -> 
  Rabs (observed delta (sphere_zone_v vx) 0%nat) < Rabs vx /\ Rabs (observed delta (sphere_zone_v vx) 0%nat) < 1.
Proof.
  intros vx H. unfold observed. replace (dot3 delta (sphere_zone_v vx) (sphere_zone_v vx)) with (vx * vx) by (unfold dot3, sum3, delta, sphere_zone_v; cbn [Nat.eqb]; ring).
  cbn [sphere_zone_v]. assert (0 < vx * vx) by nra. set (w := sqrt (1 + vx * vx)). assert (W : w * w = 1 + vx * vx) by (apply sqrt_sqrt; lra).
  assert (W0 : 0 <= w) by apply sqrt_pos. assert (W1 : 1 < w) by nra. clearbody w. unfold Rdiv. rewrite Rabs_mult, (Rabs_pos_eq (/ w)) by (left; apply Rinv_0_lt_compat; lra).
  pose proof (Rabs_pos_lt vx H) as A. assert (B : Rabs vx * Rabs vx = vx * vx) by (rewrite <- Rabs_mult; apply Rabs_pos_eq; lra). set (b := Rabs vx) in *. clearbody b.
  split; apply (Rmult_lt_reg_r w); try lra; rewrite Rmult_assoc, Rinv_l by lra; nra.
Qed.
Print Assumptions C70_sphere_velocity_refuted.

(** neutrinos, three steps of a quarter of the decay time *)
Definition any_eos : EosYe := {| y_P := fun _ _ _ => 1; y_sie := fun _ _ _ => 1; y_bulk := fun _ _ _ => 1; y_T := fun _ _ _ => 1; y_Pe := fun _ _ _ => 1 |}.
Example C70_nonvacuous :
  let c := mkCons 1 (fun _ => 0) (fun _ => 0) 5 (1 / 2) (fun _ => 0) in
  (forall d, In d [1 / 4; 1 / 4; 1 / 4] -> 0 <= d /\ 2 * (1 / 2) * 1 / cD c * d <= 1) /\
  cye (cool_steps any_eos (tophat_emits 2 1 0) (1 / 2) 0 [1 / 4; 1 / 4; 1 / 4] c) = 27 / 128 /\
  exists x y, leptoneq_ye x y = 35 / 100.
Proof.
  intros c. split; [|split].
  - intros d [<-|[<-|[<-|[]]]]; cbn [cD c]; split; lra.
  - destruct (C70_cooling any_eos 2 1 (1 / 2) 0%Z [1 / 4; 1 / 4; 1 / 4] c ltac:(auto) ltac:(cbn; lra) ltac:(lra) ltac:(lra)) as (D & _ & Y & _).
    cbv zeta in Y. rewrite D in Y. unfold excess, c, decay_factor in Y. cbn [cD cye fold_right] in Y. fold c in Y. lra.
  - exists (1 / 2), (1 / 2). apply C70_boxes. rewrite Rminus_diag_eq, Rabs_R0 by reflexivity. lra.
Qed.
