(** C50: the MOCMC samples, part 1: the angular grid and the Eddington tensor. *)
From Coq Require Import Reals Arith ZArith Lia Lra Psatz List.
From Flocq Require Import Core.
From Verif.Model Require Import Num Robust Geometry Modified Interpolation RadClosure MOCMC.
From Verif.Spec Require Import Tensor SphereSpec.
From Verif.Proofs Require Import TransformProofs MOCMCProofs MOCMCGrid.
Local Open Scope R_scope.

(** ** The quadrature over a box *)
(** The six weights are the integrals of n_i n_j over the box, for every box of the sphere, also a reversed one; their trace is
    its solid angle. *)
Theorem C50_quadrature (xi0 xi1 phi0 phi1 : R) : 0 <= xi0 <= 2 -> 0 <= xi1 <= 2 ->
  (forall i j, (i <= j)%nat -> (j < 3)%nat -> ninj_quad xi0 xi1 phi0 phi1 i j = second_moment xi0 xi1 phi0 phi1 i j) /\
  ninj_quad xi0 xi1 phi0 phi1 0 0 + ninj_quad xi0 xi1 phi0 phi1 1 1 + ninj_quad xi0 xi1 phi0 phi1 2 2 = (xi1 - xi0) * (phi1 - phi0).
Proof.
  intros H0 H1. split; [|apply wgts_trace]. intros i j Hij Hj. symmetry. apply quad_moment; assumption.
Qed.
Print Assumptions C50_quadrature.
(** the octant n > 0: all three diagonal moments are pi/6 *)
Example C50_quadrature_octant : ninj_quad 0 1 0 (PI / 2) 0 0 = PI / 6 /\ ninj_quad 0 1 0 (PI / 2) 1 1 = PI / 6 /\ ninj_quad 0 1 0 (PI / 2) 1 2 = 1 / 3.
Proof.
  unfold ninj_quad. rewrite cos_0, sin_0, cos_PI2, sin_PI2. split; [|split]; field.
Qed.

(** ** The rectangles of a zone *)
(** the azimuth of the transverse part of a direction, in (-pi, pi] *)
Definition azimuth (n : vec) : R := atan2 (n 3%nat) (n 2%nat).
(** unit directions other than the poles, no two with the same n_1, and none a quarter turn behind an earlier one (nor at
    azimuth pi); the first sample is free *)
Definition general_position (nt : nat -> vec) (n : nat) : Prop :=
  (forall k, (0 < k < n)%nat -> -1 < nt k 1%nat < 1 /\ azimuth (nt k) < PI) /\
  (forall j k, (0 < j < k)%nat -> (k < n)%nat -> nt k 1%nat <> nt j 1%nat /\ azimuth (nt k) <> azimuth (nt j) - PI / 2).
Lemma gp_placed nt g0 n : general_position nt n -> placed nt g0 n.
Proof.
  intros (A & B). apply all_placed.
  - intros k Hk. destruct (A k Hk) as (M & F). unfold samp_mu, samp_phi. unfold azimuth in F. lra.
  - intros j k Hj Hk. destruct (B j k Hj Hk) as (M & F). unfold samp_mu, samp_phi. unfold azimuth in F. split; lra.
Qed.

(** Directions in general position all find a place: the solid angles of the samples add up to 4 pi and the weights to the
    isotropic ones, for every number of samples and whatever the fields held before. *)
Theorem C50_solid_angle (nt : nat -> vec) (g0 : nat -> Rect) (n : nat) : (0 < n)%nat -> general_position nt n ->
  let g := kd_grid nt g0 n in
  sum_to (fun k => rect_omega (g k)) n = 4 * PI /\
  forall i j, (i <= j)%nat -> (j < 3)%nat -> sum_to (fun k => rect_wgts (g k) i j) n = 4 * PI / 3 * kron i j.
Proof.
  intros Hn GP g. destruct n as [|n]; [lia|]. pose proof (gp_placed nt g0 _ GP) as P. split.
  - unfold g. rewrite (kd_sum rect_omega) by (exact omega_additive || exact P). unfold rect_omega, whole_sphere. cbn [mu_lo mu_hi phi_lo phi_hi]. ring.
  - intros i j Hij Hj. unfold g. rewrite (kd_sum (fun r => rect_wgts r i j)) by (exact (wgts_additive i j) || exact P).
    unfold rect_wgts, whole_sphere. cbn [mu_lo mu_hi phi_lo phi_hi]. unfold ninj_quad. cbv zeta.
    replace (1 - (1 - 0) * (1 - 0)) with 0 by ring. replace (1 - (1 - 2) * (1 - 2)) with 0 by ring. rewrite sqrt_0, sin_0, cos_0, sin_2PI, cos_2PI.
    destruct i as [|[|[|i]]]; destruct j as [|[|[|j]]]; try lia; unfold kron; cbn [Nat.eqb]; field.
Qed.
Print Assumptions C50_solid_angle.

(** Their ranges of n_1 are proper, and every direction off the cuts belongs to at least one sample; *)
Theorem C50_cover (nt : nat -> vec) (g0 : nat -> Rect) (n : nat) : (0 < n)%nat -> general_position nt n ->
  let g := kd_grid nt g0 n in
  (forall k, (k < n)%nat -> 0 <= mu_lo (g k) /\ mu_lo (g k) < mu_hi (g k) /\ mu_hi (g k) <= 2) /\
  forall x y, 0 < x < 2 -> 0 < y < 2 * PI ->
    (forall k, (0 < k < n)%nat -> x <> 1 - nt k 1%nat /\ y <> azimuth (nt k) + PI / 2) ->
    exists k, (k < n)%nat /\ mu_lo (g k) < x < mu_hi (g k) /\ phi_lo (g k) < y < phi_hi (g k).
Proof.
  intros Hn GP g. destruct n as [|n]; [lia|]. pose proof (gp_placed nt g0 _ GP) as P. split.
  - intros k Hk. destruct (grid_ok nt g0 (S n) P k Hk) as (A & B & C & _). unfold g. lra.
  - intros x y Hx Hy Off. destruct (cover nt g0 n x y P Hx Hy) as (k & Hk & I).
    + intros j Hj. unfold samp_mu. apply Off. exact Hj.
    + intros j Hj E. apply (proj2 (Off j Hj)). unfold samp_phi in E. unfold azimuth. lra.
    + exists k. split; [exact Hk|]. exact (inside_true _ _ _ I).
Qed.
Print Assumptions C50_cover.

Lemma signed_nonneg x y r : mu_lo r <= mu_hi r -> phi_lo r <= phi_hi r -> 0 <= signed x y r.
Proof.
  intros. unfold signed, lower. destruct (Rlt_dec (mu_lo r) x), (Rlt_dec (mu_hi r) x), (Rlt_dec (phi_lo r) y), (Rlt_dec (phi_hi r) y); lra.
Qed.
Lemma signed_inside x y r : mu_lo r < x < mu_hi r -> phi_lo r < y < phi_hi r -> signed x y r = 1.
Proof.
  intros. unfold signed, lower. destruct (Rlt_dec (mu_lo r) x), (Rlt_dec (mu_hi r) x), (Rlt_dec (phi_lo r) y), (Rlt_dec (phi_hi r) y); lra.
Qed.
Lemma sum_two f n i j : (forall k, (k < n)%nat -> 0 <= f k) -> (i < j)%nat -> (j < n)%nat -> f i + f j <= sum_to f n.
Proof.
  induction n as [|n IH]; intros H Hij Hj; [lia|]. cbn. destruct (Nat.eq_dec j n) as [->|D].
  - assert (Q : forall m, (i < m)%nat -> (m <= n)%nat -> f i <= sum_to f m).
    { induction m as [|m IHm]; intros A B; [lia|]. cbn. destruct (Nat.eq_dec i m) as [->|D].
      - pose proof (sum_nonneg f m ltac:(intros; apply H; lia)). lra.
      - pose proof (IHm ltac:(lia) ltac:(lia)). pose proof (H m ltac:(lia)). lra. }
    pose proof (Q n Hij ltac:(lia)). lra.
  - pose proof (IH ltac:(intros; apply H; lia) Hij ltac:(lia)). pose proof (H n ltac:(lia)). lra.
Qed.

(** a direction given by n_1 and the transverse components *)
Definition dir (a b c : R) : vec := fun m => match m with 0%nat => -1 | 1%nat => a | 2%nat => b | _ => c end.
Definition two (a b : vec) : nat -> vec := fun k => match k with O => a | _ => b end.
Lemma az_pos_x b c : 0 < b -> azimuth (dir 0 b c) = atan (c / b).
Proof. intros H. unfold azimuth, dir, atan2. rewrite Rlt_bool_true by exact H. reflexivity. Qed.
(** a proper tiling by two samples: the second at azimuth 0 *)
Example C50_tiling_nonvacuous (g0 : nat -> Rect) :
  general_position (two (dir 1 0 0) (dir (3 / 5) (4 / 5) 0)) 2 /\
  let g := kd_grid (two (dir 1 0 0) (dir (3 / 5) (4 / 5) 0)) g0 2 in
  forall k, (k < 2)%nat -> phi_lo (g k) <= phi_hi (g k).
Proof.
  assert (Az : azimuth (dir (3 / 5) (4 / 5) 0) = 0).
  { unfold azimuth, dir, atan2. rewrite Rlt_bool_true by lra. replace (0 / (4 / 5)) with 0 by field. apply atan_0. }
  pose proof PI_RGT_0 as HP. assert (P3 : 3 < PI) by (pose proof PI2_3_2; lra).
  split.
  - split; [|intros; lia]. intros k Hk. assert (k = 1)%nat by lia. subst k. cbn [two]. rewrite Az. cbn [dir]. lra.
  - cbv zeta. cbn [kd_grid kd_step two]. unfold kd_find. cbn [first_below].
    set (nt := dir (3 / 5) (4 / 5) 0). change (set_rect g0 0 whole_sphere 0%nat) with whole_sphere.
    assert (M : samp_mu nt = 2 / 5) by (unfold nt, samp_mu, dir; lra).
    assert (F : samp_phi nt = PI) by (unfold samp_phi; change (atan2 (nt 3%nat) (nt 2%nat)) with (azimuth nt); unfold nt; rewrite Az; ring).
    rewrite inside_intro by (rewrite ?M, ?F; cbn [mu_lo mu_hi phi_lo phi_hi whole_sphere]; lra).
    change (set_rect g0 0 whole_sphere 0%nat) with whole_sphere.
    pose proof (kd_split_eq (fun _ => nt) 0 whole_sphere) as K. cbv beta in K. rewrite K.
    cbn [mu_lo mu_hi phi_lo phi_hi whole_sphere]. rewrite Rlt_bool_false by lra.
    intros k Hk. assert (C : (k = 0 \/ k = 1)%nat) by lia. rewrite F. destruct C; subst k; unfold set_rect; cbn [Nat.eqb phi_lo phi_hi]; lra.
Qed.

(** The intended property - every sample owns a part of the sphere, of positive solid angle - fails: with two samples, a second one in
    the third quadrant gives the first a negative solid angle, whatever its n_1.  (phi_m and mu_m are computed from the new
    sample's own direction, phi_m without the shift by pi.) *)
Theorem C50_rectangles_refuted (nt : nat -> vec) (g0 : nat -> Rect) :
  -1 < nt 1%nat 1%nat < 1 -> azimuth (nt 1%nat) < - PI / 2 ->
  rect_omega (kd_grid nt g0 2 0%nat) = 2 * (azimuth (nt 1%nat) + PI / 2) /\ rect_omega (kd_grid nt g0 2 0%nat) < 0 /\
  rect_omega (kd_grid nt g0 2 1%nat) > 4 * PI.
Proof.
  intros Hm Ha. pose proof PI_RGT_0 as HP. assert (P3 : 3 < PI) by (pose proof PI2_3_2; lra).
  pose proof (atan2_range (nt 1%nat 3%nat) (nt 1%nat 2%nat)) as Rg. change (atan2 (nt 1%nat 3%nat) (nt 1%nat 2%nat)) with (azimuth (nt 1%nat)) in Rg.
  cbn [kd_grid kd_step]. unfold kd_find. cbn [first_below].
  change (set_rect g0 0 whole_sphere 0%nat) with whole_sphere.
  assert (F : samp_phi (nt 1%nat) = azimuth (nt 1%nat) + PI) by reflexivity.
  rewrite inside_intro by (rewrite ?F; unfold samp_mu; cbn [mu_lo mu_hi phi_lo phi_hi whole_sphere]; lra).
  change (set_rect g0 0 whole_sphere 0%nat) with whole_sphere.
  rewrite (kd_split_eq nt 1 whole_sphere).
  cbn [mu_lo mu_hi phi_lo phi_hi whole_sphere]. rewrite Rlt_bool_false by lra. rewrite F.
  unfold set_rect. cbn [Nat.eqb]. unfold rect_omega. cbn [mu_lo mu_hi phi_lo phi_hi]. split; [|split]; lra.
Qed.
Print Assumptions C50_rectangles_refuted.

(** ** Directions *)
(** The quadrature takes the direction at a sample's own coordinates to be (n_1, -n_2, -n_3): the azimuth is shifted by pi to make it
    positive and never shifted back.  So the 1-2 and 1-3 components of the tensor have the wrong sign for a given field. *)
Theorem C50_sign_refuted (n : vec) : n 1%nat * n 1%nat + n 2%nat * n 2%nat + n 3%nat * n 3%nat = 1 -> (n 2%nat, n 3%nat) <> (0, 0) ->
  ray (samp_mu n) (samp_phi n) 0 = n 1%nat /\ ray (samp_mu n) (samp_phi n) 1 = - n 2%nat /\ ray (samp_mu n) (samp_phi n) 2 = - n 3%nat.
Proof.
  intros U T. destruct (atan2_spec (n 2%nat) (n 3%nat) T) as (A & B). unfold ray, samp_mu, samp_phi.
  replace (1 - (1 - n 1%nat)) with (n 1%nat) by ring. rewrite neg_cos, neg_sin.
  replace (1 - n 1%nat * n 1%nat) with (n 2%nat * n 2%nat + n 3%nat * n 3%nat) by lra.
  split; [reflexivity|]. cbv zeta in A, B. split; lra.
Qed.
Print Assumptions C50_sign_refuted.
Example C50_sign_nonvacuous : let n := dir (3 / 5) (4 / 5) 0 in n 1%nat * n 1%nat + n 2%nat * n 2%nat + n 3%nat * n 3%nat = 1 /\ (n 2%nat, n 3%nat) <> (0, 0).
Proof. cbn. split; [field|]. intros E. injection E as E1. lra. Qed.

(** The tetrad components are used as they are, not divided by the frequency the fluid sees: a sample blue-shifted so that its n_1
    exceeds 1 in size finds no place and keeps the rectangle it had before - any rectangle. *)
Theorem C50_shift_refuted (nt : nat -> vec) (g0 : nat -> Rect) :
  1 < Rabs (nt 1%nat 1%nat) ->
  kd_grid nt g0 2 1%nat = g0 1%nat /\ rect_omega (kd_grid nt g0 2 0%nat) + rect_omega (kd_grid nt g0 2 1%nat) = 4 * PI + rect_omega (g0 1%nat).
Proof.
  intros H. assert (G : kd_grid nt g0 2 = set_rect g0 0 whole_sphere).
  { cbn [kd_grid kd_step]. unfold kd_find. cbn [first_below]. change (set_rect g0 0 whole_sphere 0%nat) with whole_sphere.
    destruct (inside (samp_mu (nt 1%nat)) (samp_phi (nt 1%nat)) whole_sphere) eqn:E; [|reflexivity].
    apply inside_true in E. destruct E as (E & _). unfold samp_mu, whole_sphere in E. cbn [mu_lo mu_hi] in E.
    exfalso. destruct (Rle_dec 0 (nt 1%nat 1%nat)); [rewrite Rabs_right in H by lra|rewrite Rabs_left in H by lra]; lra. }
  rewrite G. split; [reflexivity|]. change (set_rect g0 0 whole_sphere 0%nat) with whole_sphere.
  change (set_rect g0 0 whole_sphere 1%nat) with (g0 1%nat). unfold rect_omega at 1, whole_sphere. cbn [mu_lo mu_hi phi_lo phi_hi]. ring.
Qed.
Print Assumptions C50_shift_refuted.
(** a photon running along x^1, seen with twice the frequency *)
Example C50_shift_nonvacuous : let n := dir 2 0 0 in 1 < Rabs (n 1%nat).
Proof. cbn. rewrite Rabs_right; lra. Qed.

(** ** The Eddington tensor *)
Definition energy_of (nsamp : nat) (g : nat -> Rect) (I : nat -> R) : R := sum_to (fun n => rect_omega (g n) * I n) nsamp.
(** the stored tensor is the second moment of the intensity over its integral, less a third of the identity; its trace vanishes and it
    is symmetric *)
Theorem C50_traceless (nsamp : nat) (g : nat -> Rect) (I : nat -> R) :
  (0 < nsamp)%nat -> (forall n, (n < nsamp)%nat -> 0 <= mu_lo (g n) <= 2 /\ 0 <= mu_hi (g n) <= 2) ->
  energy_of nsamp g I <> 0 ->
  (forall i j, (i <= j)%nat -> (j < 3)%nat ->
     tilPi nsamp g I i j = sum_to (fun n => second_moment (mu_lo (g n)) (mu_hi (g n)) (phi_lo (g n)) (phi_hi (g n)) i j * I n) nsamp / energy_of nsamp g I - kron i j / 3) /\
  (forall i j, tilPi nsamp g I i j = tilPi nsamp g I j i) /\
  tilPi nsamp g I 0 0 + tilPi nsamp g I 1 1 + tilPi nsamp g I 2 2 = 0.
Proof.
  intros Hn Hb He. split; [|split].
  - intros i j Hij Hj. unfold tilPi. rewrite (proj2 (Nat.leb_le i j) Hij). unfold eddington_upper. rewrite (proj2 (Nat.ltb_lt 0 nsamp) Hn).
    fold (energy_of nsamp g I).
    rewrite (sum_ext _ (fun n => second_moment (mu_lo (g n)) (mu_hi (g n)) (phi_lo (g n)) (phi_hi (g n)) i j * I n)).
    + unfold kron. destruct (Nat.eqb i j); field; exact He.
    + intros k Hk. destruct (Hb k Hk) as (B1 & B2). unfold rect_wgts. rewrite quad_moment by assumption. reflexivity.
  - intros i j. unfold tilPi. destruct (Nat.leb_spec i j), (Nat.leb_spec j i); try reflexivity; try lia.
    assert (i = j) by lia. subst. reflexivity.
  - unfold tilPi, eddington_upper. cbn [Nat.leb Nat.eqb]. rewrite (proj2 (Nat.ltb_lt 0 nsamp) Hn). fold (energy_of nsamp g I).
    assert (T : sum_to (fun n => rect_wgts (g n) 0 0 * I n) nsamp + sum_to (fun n => rect_wgts (g n) 1 1 * I n) nsamp + sum_to (fun n => rect_wgts (g n) 2 2 * I n) nsamp = energy_of nsamp g I).
    { rewrite <- !sum_plus. unfold energy_of. apply sum_ext. intros k _. unfold rect_omega. rewrite <- wgts_trace. unfold rect_wgts. ring. }
    replace (sum_to (fun n => rect_wgts (g n) 0 0 * I n) nsamp) with (energy_of nsamp g I - sum_to (fun n => rect_wgts (g n) 1 1 * I n) nsamp - sum_to (fun n => rect_wgts (g n) 2 2 * I n) nsamp) by lra.
    field. exact He.
Qed.
Print Assumptions C50_traceless.

(** When the rectangles are proper and the intensities positive, the tensor plus a third of the identity is that of a radiation
    field; with no samples it is zero. *)
Theorem C50_realizable (nsamp : nat) (g : nat -> Rect) (I : nat -> R) :
  (0 < nsamp)%nat ->
  (forall n, (n < nsamp)%nat -> 0 <= mu_lo (g n) /\ mu_lo (g n) < mu_hi (g n) /\ mu_hi (g n) <= 2 /\ phi_lo (g n) < phi_hi (g n) /\ 0 < I n) ->
  realizable (fun i j => tilPi nsamp g I i j + kron i j / 3).
Proof.
  intros Hn H.
  assert (E : 0 < energy_of nsamp g I).
  { unfold energy_of. destruct nsamp as [|n]; [lia|]. cbn.
    assert (A : 0 <= sum_to (fun n0 => rect_omega (g n0) * I n0) n).
    { apply sum_nonneg. intros k Hk. destruct (H k ltac:(lia)) as (A & B & C & D & F). unfold rect_omega. apply Rmult_le_pos; [apply Rmult_le_pos|]; lra. }
    destruct (H n ltac:(lia)) as (A1 & B & C & D & F). unfold rect_omega at 2.
    assert (0 < (mu_hi (g n) - mu_lo (g n)) * (phi_hi (g n) - phi_lo (g n)) * I n) by (apply Rmult_lt_0_compat; [apply Rmult_lt_0_compat|]; lra). lra. }
  destruct (C50_traceless nsamp g I Hn ltac:(intros n Hk; destruct (H n Hk) as (A & B & C & D & F); split; lra) ltac:(lra)) as (_ & Sy & Tr).
  split; [|split].
  - intros i j _ _. rewrite Sy. unfold kron. rewrite Nat.eqb_sym. reflexivity.
  - unfold kron. cbn [Nat.eqb]. lra.
  - intros a b c. unfold tilPi, eddington_upper. cbn [Nat.leb Nat.eqb]. rewrite (proj2 (Nat.ltb_lt 0 nsamp) Hn). fold (energy_of nsamp g I). unfold kron. cbn [Nat.eqb].
    set (W := fun i j => sum_to (fun n => rect_wgts (g n) i j * I n) nsamp).
    assert (Q : 0 <= a * a * W 0%nat 0%nat + b * b * W 1%nat 1%nat + c * c * W 2%nat 2%nat + 2 * a * b * W 0%nat 1%nat + 2 * a * c * W 0%nat 2%nat + 2 * b * c * W 1%nat 2%nat).
    { replace (a * a * W 0%nat 0%nat + b * b * W 1%nat 1%nat + c * c * W 2%nat 2%nat + 2 * a * b * W 0%nat 1%nat + 2 * a * c * W 0%nat 2%nat + 2 * b * c * W 1%nat 2%nat)
        with (sum_to (fun n => (a * a * rect_wgts (g n) 0 0 + b * b * rect_wgts (g n) 1 1 + c * c * rect_wgts (g n) 2 2 + 2 * a * b * rect_wgts (g n) 0 1 + 2 * a * c * rect_wgts (g n) 0 2 + 2 * b * c * rect_wgts (g n) 1 2) * I n) nsamp).
      - apply sum_nonneg. intros k Hk. destruct (H k Hk) as (A & B & C & D & F). apply Rmult_le_pos; [|lra].
        apply wgts_form; lra.
      - unfold W. clear. induction nsamp as [|n IH]; cbn [sum_to]; [ring|]. rewrite IH. ring. }
    fold (W 0%nat 0%nat). fold (W 1%nat 1%nat). fold (W 2%nat 2%nat). fold (W 0%nat 1%nat). fold (W 0%nat 2%nat). fold (W 1%nat 2%nat).
    match goal with |- 0 <= ?x => replace x with ((a * a * W 0%nat 0%nat + b * b * W 1%nat 1%nat + c * c * W 2%nat 2%nat + 2 * a * b * W 0%nat 1%nat + 2 * a * c * W 0%nat 2%nat + 2 * b * c * W 1%nat 2%nat) / energy_of nsamp g I) by (field; lra) end.
    unfold Rdiv. apply Rmult_le_pos; [exact Q|]. left. apply Rinv_0_lt_compat. exact E.
Qed.
Print Assumptions C50_realizable.
Theorem C50_no_samples (g : nat -> Rect) (I : nat -> R) (i j : nat) : tilPi 0 g I i j = 0.
Proof. unfold tilPi, eddington_upper. cbn. destruct (Nat.leb i j); reflexivity. Qed.
Print Assumptions C50_no_samples.

(** An isotropic field has no anisotropic pressure: samples in general position with equal intensities. *)
Theorem C50_isotropic (nt : nat -> vec) (g0 : nat -> Rect) (n : nat) (I : nat -> R) (c : R) :
  (0 < n)%nat -> general_position nt n -> c <> 0 -> (forall k, (k < n)%nat -> I k = c) ->
  forall i j, (i < 3)%nat -> (j < 3)%nat -> tilPi n (kd_grid nt g0 n) I i j = 0.
Proof.
  intros Hn GP Hc HI. destruct (C50_solid_angle nt g0 n Hn GP) as (A & B). set (g := kd_grid nt g0 n) in *.
  assert (U : forall i j, (i <= j)%nat -> (j < 3)%nat -> eddington_upper n g I i j = 0).
  { intros i j Hij Hj. unfold eddington_upper. rewrite (proj2 (Nat.ltb_lt 0 n) Hn).
    rewrite (sum_ext (fun k => rect_wgts (g k) i j * I k) (fun k => rect_wgts (g k) i j * c)) by (intros k Hk; rewrite HI by exact Hk; reflexivity).
    rewrite (sum_ext (fun k => rect_omega (g k) * I k) (fun k => rect_omega (g k) * c)) by (intros k Hk; rewrite HI by exact Hk; reflexivity).
    rewrite !sum_scal, A, (B i j Hij Hj). unfold kron. pose proof PI_RGT_0.
    destruct (Nat.eqb i j); field; split; lra. }
  intros i j Hi Hj. unfold tilPi. destruct (Nat.leb_spec i j); apply U; lia.
Qed.
Print Assumptions C50_isotropic.

(** Positive intensities do not make the tensor one of a radiation field: two samples, the second in the third quadrant (azimuth -3 pi/4),
    the first eight times as bright, have a negative pressure along the second axis. *)
Definition third_quadrant : vec := dir 0 (- sqrt (1 / 2)) (- sqrt (1 / 2)).
Definition bright (k : nat) : R := match k with O => 8 | _ => 1 end.
Lemma third_quadrant_az : azimuth third_quadrant = PI / 4 - PI.
Proof.
  assert (Q : 0 < sqrt (1 / 2)) by (apply sqrt_lt_R0; lra).
  unfold azimuth, third_quadrant, dir, atan2. rewrite Rlt_bool_false by lra. rewrite Rlt_bool_true by lra. rewrite Rle_bool_false by lra.
  replace (- sqrt (1 / 2) / - sqrt (1 / 2)) with 1 by (field; lra). rewrite atan_1. reflexivity.
Qed.
Lemma third_quadrant_grid g0 :
  kd_grid (two third_quadrant third_quadrant) g0 2 0%nat = {| mu_lo := 0; mu_hi := 2; phi_lo := 0; phi_hi := - (PI / 4) |} /\
  kd_grid (two third_quadrant third_quadrant) g0 2 1%nat = {| mu_lo := 0; mu_hi := 2; phi_lo := - (PI / 4); phi_hi := 2 * PI |}.
Proof.
  pose proof PI_RGT_0 as HP. assert (P3 : 3 < PI) by (pose proof PI2_3_2; lra).
  cbn [kd_grid kd_step two]. unfold kd_find. cbn [first_below]. change (set_rect g0 0 whole_sphere 0%nat) with whole_sphere.
  assert (F : samp_phi third_quadrant = PI / 4) by (unfold samp_phi; change (atan2 (third_quadrant 3%nat) (third_quadrant 2%nat)) with (azimuth third_quadrant); rewrite third_quadrant_az; ring).
  assert (M : samp_mu third_quadrant = 1) by (unfold samp_mu, third_quadrant, dir; ring).
  rewrite inside_intro by (rewrite ?F, ?M; cbn [mu_lo mu_hi phi_lo phi_hi whole_sphere]; lra).
  change (set_rect g0 0 whole_sphere 0%nat) with whole_sphere.
  pose proof (kd_split_eq (fun _ => third_quadrant) 0 whole_sphere) as K. cbv beta in K. rewrite K. rewrite F.
  cbn [mu_lo mu_hi phi_lo phi_hi whole_sphere]. rewrite Rlt_bool_false by lra.
  unfold set_rect. cbn [Nat.eqb]. replace (PI / 4 - PI / 2) with (- (PI / 4)) by field. split; reflexivity.
Qed.
Theorem C50_eddington_refuted (g0 : nat -> Rect) :
  (forall k, 0 < bright k) /\
  let g := kd_grid (two third_quadrant third_quadrant) g0 2 in
  0 < energy_of 2 g bright /\ tilPi 2 g bright 1 1 + kron 1 1 / 3 < 0.
Proof.
  split; [intros [|k]; cbn; lra|]. cbv zeta. destruct (third_quadrant_grid g0) as (G0 & G1).
  pose proof PI_RGT_0 as HP. assert (P4 : PI < 4) by (pose proof PI_4; destruct (Req_dec PI 4) as [E|E]; [|lra]; exfalso; pose proof PI_ineq 1 as (_ & U); cbv [tg_alt PI_tg sum_f_R0] in U; cbn in U; lra).
  set (g := kd_grid (two third_quadrant third_quadrant) g0 2) in *.
  assert (En : energy_of 2 g bright = PI / 2).
  { unfold energy_of. cbn [sum_to]. rewrite G0, G1. unfold rect_omega, bright. cbn [mu_lo mu_hi phi_lo phi_hi]. field. }
  split; [rewrite En; lra|].
  unfold tilPi, eddington_upper. cbn [Nat.leb Nat.eqb Nat.ltb]. fold (energy_of 2 g bright). rewrite En. unfold kron. cbn [Nat.eqb sum_to].
  rewrite G0, G1. unfold rect_wgts, bright. cbn [mu_lo mu_hi phi_lo phi_hi]. unfold ninj_quad. cbv zeta.
  rewrite !sin_neg, !cos_neg, sin_PI4, cos_PI4, sin_0, cos_0, sin_2PI, cos_2PI.
  assert (S2 : sqrt 2 * sqrt 2 = 2) by (apply sqrt_sqrt; lra). assert (Sp : 0 < sqrt 2) by (apply sqrt_lt_R0; lra).
  assert (Q : 1 / sqrt 2 * (1 / sqrt 2) = / 2). { replace (1 / sqrt 2 * (1 / sqrt 2)) with (/ (sqrt 2 * sqrt 2)) by (field; lra). rewrite S2. reflexivity. }
  set (q := 1 / sqrt 2) in *. clearbody q.
  match goal with |- ?x < 0 => replace x with ((4 / 3 * (PI / 8 - 4 * (q * q) + / 2 * (q * q))) / (PI / 2)) by (field; lra) end.
  rewrite Q. apply Rmult_lt_reg_r with (PI / 2); [lra|]. unfold Rdiv at 1. rewrite Rmult_assoc, Rinv_l by lra. lra.
Qed.
Print Assumptions C50_eddington_refuted.
