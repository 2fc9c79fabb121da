(** The angular grid: every sample in general position finds a place. *)
From Coq Require Import Reals Arith ZArith Lia Lra Psatz List.
From Flocq Require Import Core.
From Verif.Model Require Import Num Robust Geometry Modified Interpolation RadClosure MOCMC.
From Verif.Spec Require Import Tensor SphereSpec.
From Verif.Proofs Require Import TransformProofs MOCMCProofs.
Local Open Scope R_scope.

Lemma atan2_range y x : - PI < atan2 y x <= PI.
Proof.
  pose proof PI_RGT_0 as HP. unfold atan2.
  destruct (Rlt_bool_spec 0 x) as [A|A]; [destruct (atan_bound (y / x)); lra|].
  destruct (Rlt_bool_spec x 0) as [B|B].
  - destruct (Rle_bool_spec 0 y) as [C|C].
    + assert (y / x <= 0). { unfold Rdiv. rewrite <- (Rmult_0_r y). apply Rmult_le_compat_l; [exact C|]. left. apply Rinv_lt_0_compat. exact B. }
      assert (atan (y / x) <= 0). { rewrite <- atan_0. destruct H as [H|H]; [left; apply atan_increasing; exact H|rewrite H; lra]. }
      destruct (atan_bound (y / x)); lra.
    + assert (0 < y / x). { unfold Rdiv. replace (y * / x) with ((- y) * (- / x)) by ring. apply Rmult_lt_0_compat; [lra|]. pose proof (Rinv_lt_0_compat x B). lra. }
      assert (0 < atan (y / x)). { rewrite <- atan_0. apply atan_increasing. exact H. }
      destruct (atan_bound (y / x)); lra.
  - destruct (Rlt_bool_spec 0 y); [lra|]. destruct (Rlt_bool_spec y 0); lra.
Qed.

Section Grid.
  Variable nt : nat -> vec.
  Let mu k := samp_mu (nt k).
  Let ph k := samp_phi (nt k).
  Definition mu_edge (n : nat) (x : R) : Prop := x = 0 \/ x = 2 \/ exists j, (0 < j < n)%nat /\ x = samp_mu (nt j).
  Definition phi_edge (n : nat) (y : R) : Prop := y = 0 \/ y = 2 * PI \/ exists j, (0 < j < n)%nat /\ y = samp_phi (nt j) - PI / 2.
  Definition ok (n : nat) (r : Rect) : Prop :=
    0 <= mu_lo r /\ mu_lo r < mu_hi r /\ mu_hi r <= 2 /\
    mu_edge n (mu_lo r) /\ mu_edge n (mu_hi r) /\ phi_edge n (phi_lo r) /\ phi_edge n (phi_hi r).
  Lemma mu_edge_S n x : mu_edge n x -> mu_edge (S n) x.
  Proof. intros [H|[H|(j & H & E)]]; [left|right; left|right; right; exists j; split; [lia|]]; assumption. Qed.
  Lemma phi_edge_S n x : phi_edge n x -> phi_edge (S n) x.
  Proof. intros [H|[H|(j & H & E)]]; [left|right; left|right; right; exists j; split; [lia|]]; assumption. Qed.
  Lemma ok_S n r : ok n r -> ok (S n) r.
  Proof. unfold ok. intros (A & B & C & D & E & F & G). repeat match goal with |- _ /\ _ => split end; auto using mu_edge_S, phi_edge_S. Qed.
  Lemma inside_true x y r : inside x y r = true -> mu_lo r < x < mu_hi r /\ phi_lo r < y < phi_hi r.
  Proof.
    unfold inside. intros H. apply andb_prop in H as (H & H4). apply andb_prop in H as (H & H3). apply andb_prop in H as (H1 & H2).
    repeat match goal with K : Rlt_bool ?a ?b = true |- _ => destruct (Rlt_bool_spec a b); [clear K|discriminate] end. lra.
  Qed.
  Lemma inside_intro x y r : mu_lo r < x < mu_hi r -> phi_lo r < y < phi_hi r -> inside x y r = true.
  Proof. intros. unfold inside. rewrite !Rlt_bool_true by lra. reflexivity. Qed.
  (** the cut in mu is made at the new sample, the cut in phi a quarter turn before it *)
  Lemma kd_split_eq k r :
    kd_split (nt k) r =
    if Rlt_bool (phi_hi r - phi_lo r) (mu_hi r - mu_lo r) then
      ({| mu_lo := mu k; mu_hi := mu_hi r; phi_lo := phi_lo r; phi_hi := phi_hi r |},
       {| mu_lo := mu_lo r; mu_hi := mu k; phi_lo := phi_lo r; phi_hi := phi_hi r |})
    else
      ({| mu_lo := mu_lo r; mu_hi := mu_hi r; phi_lo := ph k - PI / 2; phi_hi := phi_hi r |},
       {| mu_lo := mu_lo r; mu_hi := mu_hi r; phi_lo := phi_lo r; phi_hi := ph k - PI / 2 |}).
  Proof.
    unfold kd_split. cbv zeta. destruct (Rlt_bool (phi_hi r - phi_lo r) (mu_hi r - mu_lo r)).
    - replace (/ 2 * (samp_mu (nt k) + (1 - nt k 1%nat))) with (mu k) by (unfold mu, samp_mu; field).
      rewrite Rlt_bool_false by (unfold mu; lra). reflexivity.
    - replace (/ 2 * (samp_phi (nt k) + atan2 (nt k 3%nat) (nt k 2%nat))) with (ph k - PI / 2) by (unfold ph, samp_phi; field).
      rewrite Rlt_bool_false by (pose proof PI_RGT_0; unfold ph; lra). reflexivity.
  Qed.
  Lemma ok_split k r : (0 < k)%nat -> ok k r -> inside (mu k) (ph k) r = true -> ok (S k) (fst (kd_split (nt k) r)) /\ ok (S k) (snd (kd_split (nt k) r)).
  Proof.
    intros Hk O I. apply inside_true in I. rewrite kd_split_eq. apply ok_S in O. destruct O as (A & B & C & D & E & F & G).
    assert (M : mu_edge (S k) (mu k)) by (right; right; exists k; split; [lia|reflexivity]).
    assert (N : phi_edge (S k) (ph k - PI / 2)) by (right; right; exists k; split; [lia|reflexivity]).
    destruct (Rlt_bool _ _); unfold ok; cbn [fst snd mu_lo mu_hi phi_lo phi_hi]; repeat match goal with |- _ /\ _ => split end; (assumption || lra).
  Qed.
  Lemma grid_ok g0 n : (forall k, (0 < k < n)%nat -> kd_find (nt k) (kd_grid nt g0 k) k <> None) ->
    forall k, (k < n)%nat -> ok n (kd_grid nt g0 n k).
  Proof.
    induction n as [|n IH]; intros P k Hk; [lia|]. cbn [kd_grid].
    assert (IH' : forall k, (k < n)%nat -> ok n (kd_grid nt g0 n k)) by (apply IH; intros j Hj; apply P; lia). clear IH.
    set (g := kd_grid nt g0 n) in *. unfold kd_step. destruct n as [|n].
    - assert (k = 0)%nat by lia. subst k. unfold set_rect. cbn. pose proof PI_RGT_0.
      unfold ok. cbn [mu_lo mu_hi phi_lo phi_hi whole_sphere]. repeat match goal with |- _ /\ _ => split end; try lra;
        solve [left; reflexivity | right; left; reflexivity].
    - specialize (P (S n) ltac:(lia)). fold g in P. destruct (kd_find (nt (S n)) g (S n)) as [m|] eqn:E; [|congruence].
      destruct (first_below_some _ _ _ E) as (Hm & Im).
      destruct (ok_split (S n) (g m) ltac:(lia) (IH' m Hm) Im) as (O1 & O2).
      destruct (kd_split (nt (S n)) (g m)) as [rn rm]. cbn [fst snd] in O1, O2.
      unfold set_rect. destruct (Nat.eqb_spec k (S n)); [exact O1|]. destruct (Nat.eqb_spec k m); [exact O2|].
      apply ok_S. apply IH'. lia.
  Qed.
  (** a point off every edge is inside some rectangle *)
  Lemma signed_whole x y : 0 < x < 2 -> 0 < y < 2 * PI -> signed x y whole_sphere = 1.
  Proof.
    intros Hx Hy. unfold signed, lower, whole_sphere. cbn [mu_lo mu_hi phi_lo phi_hi].
    destruct (Rlt_dec 0 x); [|lra]. destruct (Rlt_dec 2 x); [lra|]. destruct (Rlt_dec 0 y); [|lra]. destruct (Rlt_dec (2 * PI) y); [lra|]. ring.
  Qed.
  Lemma cover g0 n x y : placed nt g0 (S n) -> 0 < x < 2 -> 0 < y < 2 * PI ->
    (forall j, (0 < j < S n)%nat -> x <> mu j) -> (forall j, (0 < j < S n)%nat -> y <> ph j - PI / 2) ->
    exists k, (k < S n)%nat /\ inside x y (kd_grid nt g0 (S n) k) = true.
  Proof.
    intros P Hx Hy Ex Ey. pose proof (kd_sum (signed x y) nt g0 n (signed_additive x y) P) as Q.
    rewrite signed_whole in Q by assumption. destruct (sum_pos_term _ _ ltac:(rewrite Q; lra)) as (k & Hk & S).
    exists k. split; [exact Hk|]. destruct (grid_ok g0 (Datatypes.S n) P k Hk) as (A & B & C & D & E & F & G).
    set (r := kd_grid nt g0 (Datatypes.S n) k) in *.
    assert (NX : forall e, mu_edge (Datatypes.S n) e -> x <> e). { intros e [->|[->|(j & Hj & ->)]]; [lra|lra|]. apply Ex; exact Hj. }
    assert (NY : forall e, phi_edge (Datatypes.S n) e -> y <> e). { intros e [->|[->|(j & Hj & ->)]]; [lra|lra|]. apply Ey; exact Hj. }
    specialize (NX _ D) as X1. specialize (NX _ E) as X2. specialize (NY _ F) as Y1. specialize (NY _ G) as Y2.
    unfold signed, lower in S. apply inside_intro.
    - destruct (Rlt_dec (mu_lo r) x), (Rlt_dec (mu_hi r) x); lra.
    - destruct (Rlt_dec (mu_lo r) x), (Rlt_dec (mu_hi r) x), (Rlt_dec (phi_lo r) y), (Rlt_dec (phi_hi r) y); lra.
  Qed.
  Lemma all_placed g0 n :
    (forall k, (0 < k < n)%nat -> 0 < mu k < 2 /\ ph k < 2 * PI) ->
    (forall j k, (0 < j < k)%nat -> (k < n)%nat -> mu k <> mu j /\ ph k <> ph j - PI / 2) ->
    placed nt g0 n.
  Proof.
    intros H1 H2 k. induction k as [k IH] using lt_wf_ind. intros Hk.
    destruct k as [|k]; [lia|].
    assert (Pk : placed nt g0 (S k)) by (intros j Hj; apply IH; lia).
    destruct (H1 (S k) Hk) as (M & F).
    assert (F0 : 0 < ph (S k)). { unfold ph, samp_phi. pose proof (atan2_range (nt (S k) 3%nat) (nt (S k) 2%nat)). lra. }
    destruct (cover g0 k (mu (S k)) (ph (S k)) Pk M ltac:(lra)) as (m & Hm & I).
    - intros j Hj. apply H2; lia.
    - intros j Hj. apply H2; lia.
    - intros E. pose proof (first_below_none _ _ E m Hm) as C. unfold mu, ph in I. congruence.
  Qed.
End Grid.
