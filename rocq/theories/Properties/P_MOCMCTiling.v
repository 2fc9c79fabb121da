(** C50, the angular grid without any proviso: how many samples own a direction. *)
From Coq Require Import Reals Arith ZArith Bool Lia Lra Psatz List.
From Flocq Require Import Core.
From Verif.Model Require Import Num Robust Geometry Modified Interpolation RadClosure MOCMC.
From Verif.Spec Require Import Tensor SphereSpec TilingSpec.
From Verif.Proofs Require Import TransformProofs MOCMCProofs MOCMCGrid.
From Verif.Properties Require Import P_MOCMC.
Local Open Scope R_scope.

(** a rectangle owns the direction (1 - x, y); it owns it in reverse when its azimuths are exchanged *)
Definition owns (x y : R) (r : Rect) : Prop := between (mu_lo r) x (mu_hi r) /\ between (phi_lo r) y (phi_hi r).
Definition owns_reversed (x y : R) (r : Rect) : Prop := between (mu_lo r) x (mu_hi r) /\ between (phi_hi r) y (phi_lo r).
Definition between_dec lo x hi : {between lo x hi} + {~ between lo x hi}.
Proof. unfold between. destruct (Rlt_dec lo x); destruct (Rle_dec x hi); [left; auto|right|right|right]; tauto. Defined.
Definition owns_dec x y r : {owns x y r} + {~ owns x y r}.
Proof. unfold owns. destruct (between_dec (mu_lo r) x (mu_hi r)); destruct (between_dec (phi_lo r) y (phi_hi r)); [left; auto|right|right|right]; tauto. Defined.
Definition reversed_dec x y r : {owns_reversed x y r} + {~ owns_reversed x y r}.
Proof. unfold owns_reversed. destruct (between_dec (mu_lo r) x (mu_hi r)); destruct (between_dec (phi_hi r) y (phi_lo r)); [left; auto|right|right|right]; tauto. Defined.
Definition owners (x y : R) (g : nat -> Rect) (n : nat) : nat := how_many (fun k => owns_dec x y (g k)) n.
Definition reversed (x y : R) (g : nat -> Rect) (n : nat) : nat := how_many (fun k => reversed_dec x y (g k)) n.

Lemma signed_counts x y r : mu_lo r <= mu_hi r ->
  signed x y r = (if owns_dec x y r then 1 else 0) - (if reversed_dec x y r then 1 else 0).
Proof.
  intros M. unfold signed, lower.
  destruct (owns_dec x y r) as [[[A1 A2] [B1 B2]]|N]; destruct (reversed_dec x y r) as [[[C1 C2] [D1 D2]]|Q];
  destruct (Rlt_dec (mu_lo r) x), (Rlt_dec (mu_hi r) x), (Rlt_dec (phi_lo r) y), (Rlt_dec (phi_hi r) y); try lra;
  exfalso; (try (apply N; split; split; lra)); (try (apply Q; split; split; lra)).
Qed.

(** For every number of samples in general position, whatever the fields held before, every
    direction: the number of samples that own it is one more than the number that own it in
    reverse - so it always has an owner, and has exactly one if and only if no sample owns it in
    reverse. *)
Theorem C50_owners (nt : nat -> vec) (g0 : nat -> Rect) (n : nat) : (0 < n)%nat -> general_position nt n ->
  let g := kd_grid nt g0 n in
  forall x y, 0 < x < 2 -> 0 < y < 2 * PI ->
    owners x y g n = S (reversed x y g n) /\
    (owners x y g n = 1%nat <-> forall k, (k < n)%nat -> ~ owns_reversed x y (g k)).
Proof.
  intros Hn GP g x y Hx Hy. destruct n as [|n]; [lia|].
  pose proof (gp_placed nt g0 _ GP) as P.
  pose proof (kd_sum (signed x y) nt g0 n (signed_additive x y) P) as Q. rewrite signed_whole in Q by assumption.
  destruct (C50_cover nt g0 (S n) Hn GP) as (Mu & _). fold g in Q.
  assert (G : forall m, (m <= S n)%nat -> sum_to (fun k => signed x y (g k)) m = INR (owners x y g m) - INR (reversed x y g m)).
  { induction m as [|m IH]; intros Hm; [unfold owners, reversed; cbn; lra|]. cbn [sum_to]. rewrite IH by lia.
    rewrite signed_counts by (destruct (Mu m ltac:(lia)) as (_ & M & _); fold g in M; lra).
    unfold owners, reversed. cbn [how_many]. rewrite !plus_INR.
    destruct (owns_dec x y (g m)), (reversed_dec x y (g m)); cbn [INR]; lra. }
  rewrite G in Q by lia.
  assert (E : owners x y g (S n) = S (reversed x y g (S n))) by (apply INR_eq; rewrite S_INR; lra).
  split; [exact E|]. rewrite E.
  assert (Z : forall m, reversed x y g m = 0%nat <-> forall k, (k < m)%nat -> ~ owns_reversed x y (g k)).
  { induction m as [|m IH]; [split; [intros _ k Hk; lia|reflexivity]|]. unfold reversed in *. cbn [how_many].
    destruct (reversed_dec x y (g m)) as [D|D]; split.
    - lia.
    - intros H. exfalso. exact (H m ltac:(lia) D).
    - intros H k Hk. destruct (Nat.eq_dec k m) as [->|Ne]; [exact D|]. apply (proj1 IH); lia.
    - intros H. rewrite (proj2 IH); [reflexivity|]. intros k Hk. apply H. lia. }
  rewrite <- Z. lia.
Qed.
Print Assumptions C50_owners.

(** In particular each direction has exactly one owner when no rectangle is reversed in azimuth. *)
Theorem C50_tiling (nt : nat -> vec) (g0 : nat -> Rect) (n : nat) : (0 < n)%nat -> general_position nt n ->
  let g := kd_grid nt g0 n in
  (forall k, (k < n)%nat -> phi_lo (g k) <= phi_hi (g k)) ->
  forall x y, 0 < x < 2 -> 0 < y < 2 * PI -> exists k, (k < n)%nat /\ owns x y (g k) /\
    forall j, (j < n)%nat -> owns x y (g j) -> j = k.
Proof.
  intros Hn GP g Pr x y Hx Hy. destruct (C50_owners nt g0 n Hn GP x y Hx Hy) as (_ & I). fold g in I. clearbody g.
  assert (O : owners x y g n = 1%nat).
  { apply I. intros k Hk [_ [R1 R2]]. pose proof (Pr k Hk). lra. }
  clear - O. unfold owners in O. revert O. induction n as [|n IH]; [discriminate|]. cbn [how_many].
  destruct (owns_dec x y (g n)) as [W|W]; intros O.
  - exists n. split; [lia|]. split; [exact W|]. intros j Hj Wj.
    assert (N : how_many (fun k => owns_dec x y (g k)) n = 0%nat) by lia. clear - N Hj Wj.
    destruct (Nat.eq_dec j n) as [->|Ne]; [reflexivity|]. exfalso. assert (Hj' : (j < n)%nat) by lia. clear Hj Ne.
    induction n as [|n IH]; [lia|]. cbn [how_many] in N. destruct (owns_dec x y (g n)) as [W|W]; [lia|].
    destruct (Nat.eq_dec j n) as [->|Ne]; [contradiction|]. apply IH; lia.
  - destruct IH as (k & Hk & Wk & U); [lia|]. exists k. split; [lia|]. split; [exact Wk|]. intros j Hj Wj.
    destruct (Nat.eq_dec j n) as [->|Ne]; [contradiction|]. apply U; [lia|exact Wj].
Qed.
Print Assumptions C50_tiling.


(** Outside the azimuths of the sphere nothing is owned on balance: whatever a sample owns there
    is owned in reverse by another. *)
Theorem C50_owners_outside (nt : nat -> vec) (g0 : nat -> Rect) (n : nat) : (0 < n)%nat -> general_position nt n ->
  forall x y, 0 < x < 2 -> y <= 0 \/ 2 * PI < y ->
    owners x y (kd_grid nt g0 n) n = reversed x y (kd_grid nt g0 n) n.
Proof.
  intros Hn GP x y Hx Hy. set (g := kd_grid nt g0 n). destruct n as [|n]; [lia|].
  pose proof (gp_placed nt g0 _ GP) as P. pose proof PI_RGT_0 as HP.
  pose proof (kd_sum (signed x y) nt g0 n (signed_additive x y) P) as Q. fold g in Q.
  assert (W : signed x y whole_sphere = 0).
  { unfold signed, lower, whole_sphere. cbn [mu_lo mu_hi phi_lo phi_hi].
    destruct (Rlt_dec 0 y), (Rlt_dec (2 * PI) y); lra. }
  rewrite W in Q. destruct (C50_cover nt g0 (S n) Hn GP) as (Mu & _).
  assert (G : forall m, (m <= S n)%nat -> sum_to (fun k => signed x y (g k)) m = INR (owners x y g m) - INR (reversed x y g m)).
  { induction m as [|m IH]; intros Hm; [unfold owners, reversed; cbn; lra|]. cbn [sum_to]. rewrite IH by lia.
    rewrite signed_counts by (destruct (Mu m ltac:(lia)) as (_ & M & _); fold g in M; lra).
    unfold owners, reversed. cbn [how_many]. rewrite !plus_INR.
    destruct (owns_dec x y (g m)), (reversed_dec x y (g m)); cbn [INR]; lra. }
  rewrite G in Q by lia. apply INR_eq. lra.
Qed.
Print Assumptions C50_owners_outside.

(** And it happens: a third sample less than a quarter turn behind the second turns the
    second's rectangle round, and every direction between the two cuts has two owners. *)
Theorem C50_two_owners_refuted (nt : nat -> vec) (g0 : nat -> Rect) :
  -1 < nt 1%nat 1%nat < 1 -> -1 < nt 2%nat 1%nat < 1 ->
  - PI / 2 < azimuth (nt 2%nat) -> azimuth (nt 1%nat) - PI / 2 < azimuth (nt 2%nat) ->
  azimuth (nt 2%nat) < azimuth (nt 1%nat) < PI / 2 ->
  forall x y, 0 < x < 2 -> azimuth (nt 2%nat) + PI / 2 < y < azimuth (nt 1%nat) + PI / 2 ->
  owners x y (kd_grid nt g0 3) 3 = 2%nat.
Proof.
  intros M1 M2 A2 A3 A1 x y Hx Hy. pose proof PI_RGT_0 as HP. assert (P3 : 3 < PI) by (pose proof PI2_3_2; lra).
  assert (F : forall k, samp_phi (nt k) = azimuth (nt k) + PI) by reflexivity.
  assert (G2 : kd_grid nt g0 2 = let r := kd_split (nt 1%nat) whole_sphere in set_rect (set_rect (set_rect g0 0 whole_sphere) 0 (snd r)) 1 (fst r)).
  { cbn [kd_grid kd_step]. unfold kd_find. cbn [first_below]. change (set_rect g0 0 whole_sphere 0%nat) with whole_sphere.
    rewrite inside_intro by (rewrite ?F; unfold samp_mu; cbn [mu_lo mu_hi phi_lo phi_hi whole_sphere]; lra).
    change (set_rect g0 0 whole_sphere 0%nat) with whole_sphere. destruct (kd_split (nt 1%nat) whole_sphere); reflexivity. }
  rewrite (kd_split_eq nt 1 whole_sphere) in G2. cbn [mu_lo mu_hi phi_lo phi_hi whole_sphere] in G2.
  rewrite Rlt_bool_false in G2 by lra. cbv zeta in G2. cbn [fst snd] in G2. rewrite F in G2.
  change (kd_grid nt g0 3) with (kd_step (nt 2%nat) 2 (kd_grid nt g0 2)).
  set (g2 := kd_grid nt g0 2) in *. clearbody g2.
  assert (R0 : g2 0%nat = {| mu_lo := 0; mu_hi := 2; phi_lo := 0; phi_hi := azimuth (nt 1%nat) + PI - PI / 2 |}) by (rewrite G2; reflexivity).
  assert (R1 : g2 1%nat = {| mu_lo := 0; mu_hi := 2; phi_lo := azimuth (nt 1%nat) + PI - PI / 2; phi_hi := 2 * PI |}) by (rewrite G2; reflexivity).
  clear G2. unfold kd_step, kd_find. cbn [first_below].
  assert (I0 : inside (samp_mu (nt 2%nat)) (samp_phi (nt 2%nat)) (g2 0%nat) = false).
  { rewrite R0, F. unfold inside. cbn [mu_lo mu_hi phi_lo phi_hi]. rewrite (Rlt_bool_false (azimuth (nt 2%nat) + PI)) by lra. apply andb_false_r. }
  assert (I1 : inside (samp_mu (nt 2%nat)) (samp_phi (nt 2%nat)) (g2 1%nat) = true).
  { apply inside_intro; rewrite R1, ?F; unfold samp_mu; cbn [mu_lo mu_hi phi_lo phi_hi]; lra. }
  rewrite I0, I1, R1, (kd_split_eq nt 2). cbn [mu_lo mu_hi phi_lo phi_hi]. rewrite Rlt_bool_false by lra. rewrite F.
  set (h := set_rect _ 2 _).
  assert (H0 : h 0%nat = g2 0%nat) by reflexivity.
  unfold owners. cbn [how_many]. rewrite H0, R0.
  change (h 1%nat) with {| mu_lo := 0; mu_hi := 2; phi_lo := azimuth (nt 1%nat) + PI - PI / 2; phi_hi := azimuth (nt 2%nat) + PI - PI / 2 |}.
  change (h 2%nat) with {| mu_lo := 0; mu_hi := 2; phi_lo := azimuth (nt 2%nat) + PI - PI / 2; phi_hi := 2 * PI |}.
  destruct (owns_dec x y _) as [_|N]; [|exfalso; apply N; split; split; cbn [mu_lo mu_hi phi_lo phi_hi]; lra].
  destruct (owns_dec x y _) as [[_ [N1 N2]]|_]; [exfalso; cbn [phi_lo phi_hi] in N1, N2; lra|].
  destruct (owns_dec x y _) as [_|N]; [reflexivity|exfalso; apply N; split; split; cbn [mu_lo mu_hi phi_lo phi_hi]; lra].
Qed.
Print Assumptions C50_two_owners_refuted.

(** three samples that do this, at azimuths 0 and -pi/4 *)
Example C50_two_owners_nonvacuous :
  let a := dir (3 / 5) (4 / 5) 0 in let b := dir 0 1 (-1) in
  azimuth a = 0 /\ azimuth b = - (PI / 4) /\ -1 < a 1%nat < 1 /\ -1 < b 1%nat < 1.
Proof.
  cbv zeta. unfold azimuth, dir, atan2. rewrite !Rlt_bool_true by lra.
  replace (0 / (4 / 5)) with 0 by field. replace (-1 / 1) with (- (1)) by field. rewrite atan_opp, atan_1, atan_0.
  repeat split; lra.
Qed.
