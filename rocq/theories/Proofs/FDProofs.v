(** Error of the central differences used for modified coordinate systems. *)
From Coq Require Import Reals Arith Lra Lia.
From Flocq Require Import Core.
From Coquelicot Require Import Coquelicot.
From Verif.Model Require Import Num Robust Geometry Modified.
From Verif.Spec Require Import Tensor GeomSpec SystemSpec.
From Verif.Proofs Require Import TensorTac GeomBase.
Local Open Scope R_scope.

Lemma bound_by_derivative psi dpsi c n h :
  psi 0 = 0 -> (forall u, 0 <= u <= h -> is_derive psi u (dpsi u)) ->
  (forall u, 0 <= u <= h -> Rabs (dpsi u) <= c * u ^ n) ->
  forall u, 0 <= u <= h -> Rabs (psi u) <= c * u ^ (S n) / INR (S n).
Proof.
  intros H0 Hd Hb u Hu.
  assert (Hn : 0 < INR (S n)) by (apply lt_0_INR; lia).
  assert (K : forall sg, (sg = 1 \/ sg = -1) -> sg * psi u <= c * u ^ S n / INR (S n)).
  { intros sg Hsg.
    destruct (MVT_gen (fun t => sg * psi t - c * t ^ S n / INR (S n)) 0 u (fun t => sg * dpsi t - c * t ^ n))
      as (z & Hz & E).
    - intros t Ht. rewrite Rmin_left, Rmax_right in Ht by lra.
      assert (D := Hd t ltac:(lra)).
      auto_derive.
      + exists (dpsi t). exact D.
      + assert (E : Derive (fun x : R => psi x) t = dpsi t) by now apply is_derive_unique.
        rewrite E. change (Init.Nat.pred (S n)) with n.
        change (match n with 0%nat => 1 | S _ => INR n + 1 end) with (INR (S n)).
        generalize dependent (INR (S n)). intros N HN. field. lra.
    - intros t Ht. rewrite Rmin_left, Rmax_right in Ht by lra.
      apply derivable_continuous_pt, ex_derive_Reals_0. auto_derive. exists (dpsi t). apply Hd. lra.
    - rewrite Rmin_left, Rmax_right in Hz by lra. rewrite H0 in E.
      rewrite pow_i in E by lia.
      assert (Hz' := Hb z ltac:(lra)).
      assert (sg * dpsi z <= c * z ^ n).
      { apply Rle_trans with (Rabs (dpsi z)); [|assumption].
        destruct Hsg as [->| ->]; [rewrite Rmult_1_l; apply Rle_abs|].
        rewrite <- Rabs_Ropp. replace (-1 * dpsi z) with (- dpsi z) by ring. apply Rle_abs. }
      assert ((sg * dpsi z - c * z ^ n) * (u - 0) <= 0).
      { replace 0 with (0 * (u - 0)) at 2 by ring. apply Rmult_le_compat_r; lra. }
      unfold Rdiv in *. rewrite ?Rmult_0_r, ?Rmult_0_l in E. lra. }
  apply Rabs_le. split.
  - pose proof (K (-1) ltac:(now right)). lra.
  - pose proof (K 1 ltac:(now left)). lra.
Qed.

(** f three times differentiable on [x - h, x + h] with third derivative bounded by M *)
Definition smooth3 (f f1 f2 f3 : R -> R) (x h M : R) : Prop :=
  forall t, x - h <= t <= x + h ->
    is_derive f t (f1 t) /\ is_derive f1 t (f2 t) /\ is_derive f2 t (f3 t) /\ Rabs (f3 t) <= M.

Lemma comp_add (f f1 : R -> R) x u : is_derive f (x + u) (f1 (x + u)) -> is_derive (fun v => f (x + v)) u (f1 (x + u)).
Proof.
  intros H. auto_derive. { exists (f1 (x + u)). exact H. }
  assert (E : Derive (fun y : R => f y) (x + u) = f1 (x + u)) by now apply is_derive_unique.
  rewrite E. ring.
Qed.
Lemma comp_sub (f f1 : R -> R) x u : is_derive f (x - u) (f1 (x - u)) -> is_derive (fun v => f (x - v)) u (- f1 (x - u)).
Proof.
  intros H. auto_derive. { exists (f1 (x - u)). exact H. }
  assert (E : Derive (fun y : R => f y) (x + - u) = f1 (x - u)) by now apply is_derive_unique.
  rewrite E. ring.
Qed.

Lemma central_difference_error (f f1 f2 f3 : R -> R) x h M : 0 < h -> smooth3 f f1 f2 f3 x h M ->
  Rabs ((f (x + h) - f (x - h)) / (2 * h) - f1 x) <= M * h ^ 2 / 6.
Proof.
  intros Hh Hs.
  set (p2 := fun u => f2 (x + u) - f2 (x - u)).
  set (p1 := fun u => f1 (x + u) + f1 (x - u) - 2 * f1 x).
  set (p0 := fun u => f (x + u) - f (x - u) - 2 * u * f1 x).
  assert (B2 : forall u, 0 <= u <= h -> Rabs (p2 u) <= 2 * M * u ^ 1 / INR 1).
  { apply bound_by_derivative with (dpsi := fun u => f3 (x + u) + f3 (x - u)).
    - unfold p2. rewrite Rplus_0_r, Rminus_0_r. ring.
    - intros u Hu. unfold p2.
      replace (f3 (x + u) + f3 (x - u)) with (f3 (x + u) - (- f3 (x - u))) by ring.
      apply (is_derive_minus (V:=R_NormedModule)); [apply comp_add|apply comp_sub]; apply Hs; lra.
    - intros u Hu. cbn [pow]. rewrite Rmult_1_r.
      eapply Rle_trans; [apply Rabs_triang|].
      destruct (Hs (x + u)) as (_ & _ & _ & ?); [lra|]. destruct (Hs (x - u)) as (_ & _ & _ & ?); [lra|]. lra. }
  assert (B1 : forall u, 0 <= u <= h -> Rabs (p1 u) <= 2 * M * u ^ 2 / INR 2).
  { apply bound_by_derivative with (dpsi := p2).
    - unfold p1. rewrite Rplus_0_r, Rminus_0_r. ring.
    - intros u Hu. unfold p1, p2.
      replace (f2 (x + u) - f2 (x - u)) with (f2 (x + u) + - f2 (x - u) - 0) by ring.
      apply (is_derive_minus (V:=R_NormedModule)); [|apply (is_derive_const (V:=R_NormedModule))].
      apply (is_derive_plus (V:=R_NormedModule)); [apply comp_add|apply comp_sub]; apply Hs; lra.
    - intros u Hu. eapply Rle_trans; [apply B2; assumption|]. cbn. lra. }
  assert (B0 : forall u, 0 <= u <= h -> Rabs (p0 u) <= M * u ^ 3 / INR 3).
  { apply bound_by_derivative with (dpsi := p1).
    - unfold p0. rewrite Rplus_0_r, Rminus_0_r. ring.
    - intros u Hu. unfold p0, p1.
      replace (f1 (x + u) + f1 (x - u) - 2 * f1 x) with (f1 (x + u) - (- f1 (x - u)) - 2 * f1 x) by ring.
      apply (is_derive_minus (V:=R_NormedModule)); [apply (is_derive_minus (V:=R_NormedModule)); [apply comp_add|apply comp_sub]; apply Hs; lra|].
      auto_derive; trivial. ring.
    - intros u Hu. eapply Rle_trans; [apply B1; assumption|]. cbn. lra. }
  specialize (B0 h ltac:(lra)). unfold p0 in B0. cbn [INR] in B0.
  replace ((f (x + h) - f (x - h)) / (2 * h) - f1 x) with ((f (x + h) - f (x - h) - 2 * h * f1 x) / (2 * h)) by (field; lra).
  unfold Rdiv at 1. rewrite Rabs_mult, (Rabs_pos_eq (/ (2 * h))) by (left; apply Rinv_0_lt_compat; lra).
  apply Rle_trans with (M * h ^ 3 / (1 + 1 + 1) * / (2 * h)).
  - apply Rmult_le_compat_r; [left; apply Rinv_0_lt_compat; lra|exact B0].
  - right. field. lra.
Qed.

(** the symmetric mean differs from the value at second order *)
Lemma symmetric_mean_error (f f1 f2 : R -> R) x h M : 0 < h ->
  (forall t, x - h <= t <= x + h -> is_derive f t (f1 t) /\ is_derive f1 t (f2 t) /\ Rabs (f2 t) <= M) ->
  Rabs ((f (x + h) + f (x - h)) / 2 - f x) <= M * h ^ 2 / 2.
Proof.
  intros Hh Hs.
  set (p1 := fun u => f1 (x + u) - f1 (x - u)).
  set (p0 := fun u => f (x + u) + f (x - u) - 2 * f x).
  assert (B1 : forall u, 0 <= u <= h -> Rabs (p1 u) <= 2 * M * u ^ 1 / INR 1).
  { apply bound_by_derivative with (dpsi := fun u => f2 (x + u) + f2 (x - u)).
    - unfold p1. rewrite Rplus_0_r, Rminus_0_r. ring.
    - intros u Hu. unfold p1.
      replace (f2 (x + u) + f2 (x - u)) with (f2 (x + u) - (- f2 (x - u))) by ring.
      apply (is_derive_minus (V:=R_NormedModule)); [apply comp_add|apply comp_sub]; apply Hs; lra.
    - intros u Hu. cbn [pow]. rewrite Rmult_1_r.
      eapply Rle_trans; [apply Rabs_triang|].
      destruct (Hs (x + u)) as (_ & _ & ?); [lra|]. destruct (Hs (x - u)) as (_ & _ & ?); [lra|]. lra. }
  assert (B0 : forall u, 0 <= u <= h -> Rabs (p0 u) <= 2 * M * u ^ 2 / INR 2).
  { apply bound_by_derivative with (dpsi := p1).
    - unfold p0. rewrite Rplus_0_r, Rminus_0_r. ring.
    - intros u Hu. unfold p1, p0.
      replace (f1 (x + u) - f1 (x - u)) with (f1 (x + u) + - f1 (x - u) - 0) by ring.
      apply (is_derive_minus (V:=R_NormedModule)); [|apply (is_derive_const (V:=R_NormedModule))].
      apply (is_derive_plus (V:=R_NormedModule)); [apply comp_add|apply comp_sub]; apply Hs; lra.
    - intros u Hu. eapply Rle_trans; [apply B1; assumption|]. cbn. lra. }
  specialize (B0 h ltac:(lra)). unfold p0 in B0. cbn [INR] in B0.
  replace ((f (x + h) + f (x - h)) / 2 - f x) with ((f (x + h) + f (x - h) - 2 * f x) / 2) by field.
  unfold Rdiv at 1. rewrite Rabs_mult, (Rabs_pos_eq (/ 2)) by lra. lra.
Qed.

Lemma fd_dx_pos x : 0 < fd_dx x.
Proof.
  unfold fd_dx. apply Rmult_lt_0_compat; [|apply exp_pos].
  apply Rlt_le_trans with 1; [lra|apply Rmax_r].
Qed.

Lemma shifted_moved X d h (f : vec -> R) (Hext : forall Y Z, (forall i, Y i = Z i) -> f Y = f Z) :
  f (shifted X d h) = f (moved X d (X d + h)).
Proof. apply Hext. intros i. unfold shifted, moved. destruct (Nat.eqb_spec i d); [now subst|reflexivity]. Qed.

(** shifted and moved are the same function up to eta; use functional extensionality *)
From Coq Require Import FunctionalExtensionality.
Lemma shifted_eq X d h : shifted X d h = moved X d (X d + h).
Proof. extensionality i. unfold shifted, moved. destruct (Nat.eqb_spec i d); [now subst|reflexivity]. Qed.

Lemma fd_metric_error (g : point -> mat) X mu nu d f1 f2 f3 M :
  (d <> 0)%nat ->
  smooth3 (fun t => g (moved X d t) mu nu) f1 f2 f3 (X d) (fd_dx (X d)) M ->
  Rabs (SetMetricGradientByFD g X mu nu d - f1 (X d)) <= M * fd_dx (X d) ^ 2 / 6.
Proof.
  intros Hd Hs. unfold SetMetricGradientByFD. destruct (Nat.eqb_spec d 0); [contradiction|].
  pose proof (fd_dx_pos (X d)). rewrite gratio_nz by lra. rewrite !shifted_eq.
  exact (central_difference_error (fun t => g (moved X d t) mu nu) f1 f2 f3 (X d) _ M H Hs).
Qed.

Lemma fd_lapse_error (al : point -> R) X d f1 f2 f3 M2 M3 m :
  (d <> 0)%nat -> 0 < m ->
  (forall t, X d - fd_dx (X d) <= t <= X d + fd_dx (X d) -> m <= al (moved X d t)) ->
  smooth3 (fun t => al (moved X d t)) f1 f2 f3 (X d) (fd_dx (X d)) M3 ->
  (forall t, X d - fd_dx (X d) <= t <= X d + fd_dx (X d) -> Rabs (f2 t) <= M2) ->
  Rabs (SetGradLnAlphaByFD al X d - f1 (X d) / al (moved X d (X d)))
    <= fd_dx (X d) ^ 2 * (M3 / (6 * m) + Rabs (f1 (X d)) * M2 / (2 * (m * m))).
Proof.
  intros Hd Hm Hpos Hs H2. unfold SetGradLnAlphaByFD. destruct (Nat.eqb_spec d 0); [contradiction|].
  pose proof (fd_dx_pos (X d)) as Hh. set (h := fd_dx (X d)) in *. rewrite !shifted_eq.
  set (f := fun t => al (moved X d t)) in *.
  change (al (moved X d (X d + - h))) with (f (X d - h)).
  change (al (moved X d (X d + h))) with (f (X d + h)).
  change (al (moved X d (X d))) with (f (X d)).
  assert (P1 : m <= f (X d + h)) by (apply Hpos; lra).
  assert (P2 : m <= f (X d - h)) by (apply Hpos; lra).
  assert (P3 : m <= f (X d)) by (apply Hpos; lra).
  pose proof (central_difference_error f f1 f2 f3 (X d) h M3 Hh Hs) as E1.
  assert (E2 : Rabs ((f (X d + h) + f (X d - h)) / 2 - f (X d)) <= M2 * h ^ 2 / 2).
  { apply symmetric_mean_error with (f1 := f1) (f2 := f2); [assumption|].
    intros t Ht. destruct (Hs t Ht) as (D1 & D2 & _). exact (conj D1 (conj D2 (H2 t Ht))). }
  set (x := X d) in *. set (fp := f (x + h)) in *. set (fm := f (x - h)) in *. set (f0 := f x) in *.
  set (A := (fp - fm) / (2 * h)) in *. set (B := (fp + fm) / 2) in *.
  assert (PB : m <= B) by (unfold B; lra).
  rewrite gratio_nz by (apply Rgt_not_eq, Rmult_lt_0_compat; lra).
  replace ((fp - fm) / (h * (fm + fp)) - f1 x / f0)
    with ((A - f1 x) / B + - (f1 x) * (B - f0) / (B * f0)).
  2:{ unfold A, B. field. repeat split; lra. }
  eapply Rle_trans; [apply Rabs_triang|].
  assert (T1 : Rabs ((A - f1 x) / B) <= M3 * h ^ 2 / 6 / m).
  { unfold Rdiv at 1. rewrite Rabs_mult, Rabs_inv, (Rabs_pos_eq B) by lra.
    apply Rmult_le_compat; [apply Rabs_pos|left; apply Rinv_0_lt_compat; lra|assumption|].
    apply Rinv_le_contravar; lra. }
  assert (T2 : Rabs (- (f1 x) * (B - f0) / (B * f0)) <= Rabs (f1 x) * (M2 * h ^ 2 / 2) / (m * m)).
  { unfold Rdiv at 1. rewrite !Rabs_mult, Rabs_Ropp, Rabs_inv, (Rabs_pos_eq (B * f0)).
    2:{ left. apply Rmult_lt_0_compat; lra. }
    apply Rmult_le_compat.
    - apply Rmult_le_pos; apply Rabs_pos.
    - left. apply Rinv_0_lt_compat. apply Rmult_lt_0_compat; lra.
    - apply Rmult_le_compat_l; [apply Rabs_pos|assumption].
    - apply Rinv_le_contravar; [apply Rmult_lt_0_compat; lra|]. apply Rmult_le_compat; lra. }
  eapply Rle_trans; [apply Rplus_le_compat; [exact T1|exact T2]|]. right. field. lra.
Qed.
