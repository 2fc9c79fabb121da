(** C32: the spherically symmetric metric solver. *)
From Coq Require Import Reals ZArith List Lia Lra.
From Coquelicot Require Import Coquelicot.
From Flocq Require Import Core.
From Verif.Model Require Import Num Robust Geometry MonopoleGR.
From Verif.Spec Require Import Tensor GeomSpec Hypersurface.
From Verif.Proofs Require Import TensorTac CurvatureProofs ThomasProofs NumR.
Local Open Scope R_scope.

Lemma ARHS_pos a K r rho : 0 < r -> GetARHS a K r rho = a * (4 + a * a * (- 4 + r * r * (3 * K * K + 32 * PI * rho))) / (8 * r).
Proof.
  intros H. unfold GetARHS, gratio. rewrite Rlt_bool_true by exact H. rewrite Req_bool_false by lra. reflexivity.
Qed.
Lemma KRHS_pos a K r j : 0 < r -> GetKRHS a K r j = 8 * PI * a * a * j - 3 * K / r.
Proof.
  intros H. unfold GetKRHS, gratio. rewrite Rlt_bool_true by exact H. rewrite Req_bool_false by lra. reflexivity.
Qed.
Lemma ARHS_zero a K rho : GetARHS a K 0 rho = 0.
Proof. unfold GetARHS. rewrite Rlt_bool_false by lra. reflexivity. Qed.
Lemma KRHS_zero a K j : GetKRHS a K 0 j = 0.
Proof. unfold GetKRHS. rewrite Rlt_bool_false by lra. reflexivity. Qed.

(** The metric the rest of the code uses (geometry/monopole.hpp) restricted to a slice is the
    areal metric of the specification, and [areal_inverse] is its inverse. *)
Theorem C32_slice_metric (P : MonopoleProfiles) (X : vec) :
  0 < X 1%nat ->
  (forall i j, (i < 3)%nat -> (j < 3)%nat ->
     Metric (MonopoleSph P) X i j = areal_metric (mp_a P (X 0%nat)) (fun i => X (S i)) i j) /\
  (forall a Y, 0 < Y 0%nat -> sin (Y 1%nat) <> 0 -> a (Y 0%nat) <> 0 -> inverse3 (areal_metric a Y) (areal_inverse a Y)).
Proof.
  intros Hr. split.
  - intros i j Hi Hj. cbn [Metric MonopoleSph]. rewrite (Rabs_pos_eq (X 1%nat)) by lra. unfold areal_metric.
    idx; cbn [rows3 row3 Nat.eqb]; ring.
  - intros a Y H0 H1 H2 i j Hi Hj. unfold mul3, sum3, delta, areal_metric, areal_inverse.
    idx; cbn [Nat.eqb]; split; field; repeat split; auto; lra.
Qed.
Print Assumptions C32_slice_metric.

(** The radial equations integrated for a and K hold at a point exactly when the Hamiltonian
    constraint and all three components of the momentum constraint hold there. *)
Theorem C32_constraints (a a' a'' K K' : R -> R) (rho j : R) (X : vec) :
  let r := X 0%nat in
  0 < r -> sin (X 1%nat) <> 0 -> a r <> 0 -> smooth_at a a' a'' r -> is_derive K r (K' r) ->
  (hamiltonian_constraint (areal_metric a) (areal_inverse a) (areal_K K) rho X /\
   momentum_constraint (areal_metric a) (areal_inverse a) (areal_K K) (along_r j) X) <->
  (a' r = GetARHS (a r) (K r) r rho /\ K' r = GetKRHS (a r) (K r) r j).
Proof.
  intros r Hr Hs Ha [Hl Hd2] HK. subst r.
  assert (Hd : is_derive a (X 0%nat) (a' (X 0%nat))) by (apply (locally_singleton _ _ Hl)).
  assert (G : good a a' X) by (repeat (split; [assumption|]); assumption).
  assert (DK : forall i k s, (i < 3)%nat -> (k < 3)%nat -> (s < 3)%nat ->
    partial (fun Z => areal_K K Z i k) s X =
    if Nat.eqb i k then if Nat.eqb s 0 then match i with 0%nat => K' (X 0%nat) | _ => - / 2 * K' (X 0%nat) end else 0 else 0).
  { intros i k s Hi Hk Hks. apply partial_is. unfold is_partial, areal_K.
    assert (Dx : ex_derive K (X 0%nat)) by (eexists; exact HK).
    assert (De : Derive (fun x => K x) (X 0%nat) = K' (X 0%nat)) by (apply is_derive_unique; exact HK).
    idx; cbn [Nat.eqb]; unfold moved; cbn [Nat.eqb];
      try apply (is_derive_const (K := R_AbsRing)); try exact HK;
      auto_derive; try (repeat split; exact Dx); rewrite De; ring. }
  assert (TR : forall s, partial (fun Z => trace3 (areal_K K Z)) s X = 0).
  { intros s. apply partial_is. unfold is_partial, trace3, sum3, areal_K. cbn [Nat.eqb].
    apply (is_derive_ext (fun _ => 0)); [intros t; match goal with |- @eq _ ?x ?y => change (@eq R x y) end; field | auto_derive; auto]. }
  rewrite ARHS_pos, KRHS_pos by exact Hr.
  assert (HH : hamiltonian_constraint (areal_metric a) (areal_inverse a) (areal_K K) rho X <->
               a' (X 0%nat) = a (X 0%nat) * (4 + a (X 0%nat) * a (X 0%nat) * (- 4 + X 0%nat * X 0%nat * (3 * K (X 0%nat) * K (X 0%nat) + 32 * PI * rho))) / (8 * X 0%nat)).
  { unfold hamiltonian_constraint, RicciScalar, RicciMixed, sum3.
    rewrite !(Ricci_closed a a' a'' X G Hl Hd2) by lia.
    unfold square3, trace3, sum3, areal_K, areal_inverse. cbn [Nat.eqb].
    match goal with |- ?L = _ <-> _ =>
      replace L with (16 * PI * rho + 4 / (X 0%nat * (a (X 0%nat) * a (X 0%nat) * a (X 0%nat))) *
        (a' (X 0%nat) - a (X 0%nat) * (4 + a (X 0%nat) * a (X 0%nat) * (- 4 + X 0%nat * X 0%nat * (3 * K (X 0%nat) * K (X 0%nat) + 32 * PI * rho))) / (8 * X 0%nat)))
      by (field; repeat split; auto; lra) end.
    assert (NZ : 4 / (X 0%nat * (a (X 0%nat) * a (X 0%nat) * a (X 0%nat))) <> 0).
    { apply Rmult_integral_contrapositive_currified; [lra|]. apply Rinv_neq_0_compat.
      repeat apply Rmult_integral_contrapositive_currified; auto; lra. }
    split; intros H.
    - assert (E : 4 / (X 0%nat * (a (X 0%nat) * a (X 0%nat) * a (X 0%nat))) *
        (a' (X 0%nat) - a (X 0%nat) * (4 + a (X 0%nat) * a (X 0%nat) * (- 4 + X 0%nat * X 0%nat * (3 * K (X 0%nat) * K (X 0%nat) + 32 * PI * rho))) / (8 * X 0%nat)) = 0) by lra.
      apply Rmult_integral in E. destruct E as [E|E]; [contradiction | lra].
    - rewrite H. ring. }
  assert (HM : momentum_constraint (areal_metric a) (areal_inverse a) (areal_K K) (along_r j) X <->
               K' (X 0%nat) = 8 * PI * a (X 0%nat) * a (X 0%nat) * j - 3 * K (X 0%nat) / X 0%nat).
  { unfold momentum_constraint. split.
    - intros H. specialize (H 0%nat ltac:(lia)). rewrite TR in H. unfold DivMixed, sum3 in H.
      rewrite !DK in H by lia. rewrite !(Gam_closed a a') in H by (auto; lia).
      unfold areal_K, areal_metric, along_r in H. cbn [Nat.eqb closedG] in H.
      match type of H with ?L = ?Rr => replace L with (K' (X 0%nat) + 3 * K (X 0%nat) / X 0%nat) in H by (field; repeat split; auto; lra) end.
      lra.
    - intros H k Hk. rewrite TR. unfold DivMixed, sum3.
      rewrite !DK by lia. rewrite !(Gam_closed a a') by (auto; lia).
      unfold areal_K, areal_metric, along_r.
      idx; cbn [Nat.eqb closedG]; try rewrite H; field; repeat split; auto; lra. }
  rewrite HH, HM. tauto.
Qed.
Print Assumptions C32_constraints.

(** A star of uniform density rho = 3/(8 pi): a = 1/sqrt(1 - r^2), K = 0. *)
Definition star_a (x : R) : R := / sqrt (1 - x * x).
Lemma star_a_derive x : -1 < x < 1 -> is_derive star_a x (x * star_a x * star_a x * star_a x).
Proof.
  intros H. assert (P : 0 < 1 - x * x) by nra. assert (S : 0 < sqrt (1 - x * x)) by (apply sqrt_lt_R0; exact P).
  unfold star_a. auto_derive; replace (1 + - (x * x)) with (1 - x * x) by ring.
  - repeat split; lra.
  - assert (Q : sqrt (1 - x * x) * sqrt (1 - x * x) = 1 - x * x) by (apply sqrt_sqrt; lra).
    field [Q]. lra.
Qed.
Example C32_constraints_nonvacuous : forall X : vec, X 0%nat = / 2 -> X 1%nat = PI / 2 ->
  let a' x := x * star_a x * star_a x * star_a x in
  let a'' x := star_a x * star_a x * star_a x + 3 * x * x * star_a x * star_a x * star_a x * star_a x * star_a x in
  smooth_at star_a a' a'' (/ 2) /\
  hamiltonian_constraint (areal_metric star_a) (areal_inverse star_a) (areal_K (fun _ => 0)) (3 / (8 * PI)) X /\
  ~ hamiltonian_constraint (areal_metric star_a) (areal_inverse star_a) (areal_K (fun _ => 0)) 0 X.
Proof.
  intros X E0 E1 a' a''. pose proof PI_RGT_0 as PP.
  assert (SM : smooth_at star_a a' a'' (/ 2)).
  { split.
    - apply (filter_imp (fun x => -1 < x < 1)); [intros x Hx; apply star_a_derive; exact Hx|].
      apply (open_and (fun x => -1 < x) (fun x => x < 1)); [apply open_gt | apply open_lt | lra].
    - unfold a', a''. pose proof (star_a_derive (/ 2) ltac:(lra)) as D.
      assert (Dx : ex_derive star_a (/ 2)) by (eexists; exact D).
      auto_derive; [repeat split; exact Dx|]. assert (De : Derive (fun x => star_a x) (/ 2) = / 2 * star_a (/ 2) * star_a (/ 2) * star_a (/ 2)) by (apply is_derive_unique; exact D). rewrite De. field. }
  assert (AP : 0 < star_a (/ 2)) by (apply Rinv_0_lt_compat, sqrt_lt_R0; lra).
  assert (A2 : star_a (/ 2) * star_a (/ 2) = 4 / 3).
  { unfold star_a. rewrite <- Rinv_mult. rewrite sqrt_sqrt by lra. field. }
  assert (SN : sin (X 1%nat) <> 0) by (rewrite E1, sin_PI2; lra).
  assert (DK : is_derive (fun _ : R => 0) (X 0%nat) 0) by (auto_derive; auto).
  rewrite <- E0 in SM, AP.
  pose proof (fun rho => C32_constraints star_a a' a'' (fun _ => 0) (fun _ => 0) rho 0 X ltac:(lra) SN ltac:(lra) SM DK) as T.
  rewrite E0 in SM, AP.
  assert (HK : 0 = GetKRHS (star_a (X 0%nat)) 0 (X 0%nat) 0) by (rewrite KRHS_pos by lra; field; lra).
  split; [exact SM|]. split.
  - apply (T (3 / (8 * PI))). split; [|exact HK]. rewrite ARHS_pos by lra. rewrite E0. unfold a'.
    set (s := star_a (/ 2)) in *. replace (s * (4 + s * s * _)) with (s * (4 + 4 / 3 * (- 4 + / 2 * / 2 * (12)))).
    + replace (/ 2 * s * s * s) with (/ 2 * s * (s * s)) by ring. rewrite A2. field.
    + rewrite A2. field. lra.
  - intros H. assert (A : a' (X 0%nat) = GetARHS (star_a (X 0%nat)) 0 (X 0%nat) 0).
    { apply (T 0). split; [exact H|]. apply (proj2 (T (3 / (8 * PI)))).
      split; [|exact HK]. rewrite ARHS_pos by lra. rewrite E0. unfold a'.
      set (s := star_a (/ 2)) in *. replace (s * (4 + s * s * _)) with (s * (4 + 4 / 3 * (- 4 + / 2 * / 2 * (12)))).
      + replace (/ 2 * s * s * s) with (/ 2 * s * (s * s)) by ring. rewrite A2. field.
      + rewrite A2. field. lra. }
    rewrite ARHS_pos in A by lra. rewrite E0 in A. unfold a' in A. set (s := star_a (/ 2)) in *.
    replace (/ 2 * s * s * s) with (/ 2 * s * (s * s)) in A by ring.
    replace (s * (4 + s * s * (-4 + / 2 * / 2 * (3 * 0 * 0 + 32 * PI * 0))) / (8 * / 2)) with (s * (4 + - 4 * (s * s)) / 4) in A by field.
    rewrite A2 in A. nra.
Qed.

(** Row i of the lapse system, for any arrays: r dr times the central-difference form of
    alpha'' + (2/r - a'/a) alpha' = a^2 alpha (3 K^2/2 + 4 pi (rho + S)); the first row sets equal values, the last
    is the one-sided form of alpha + r alpha' = 1. *)
Theorem C32_slicing_rows (G : Grid) (a K : nat -> R) (M : Matter) (alpha : nat -> R) :
  (2 <= g_n G)%nat -> 0 < g_dx G ->
  let row := tridiagonal_row (row_l G a K M) (row_d G a K M) (row_u G a K M) (g_n G) alpha in
  row 0%nat = alpha 1%nat - alpha 0%nat /\ row_b G 0%nat = 0 /\
  (forall i, (0 < i < g_n G - 1)%nat -> 0 < grid_x G i -> a i <> 0 ->
     let r := grid_x G i in
     row i = r * g_dx G * (second_difference (g_dx G) alpha i
              + (2 / r - GetARHS (a i) (K i) r (m_rho M i) / a i) * first_difference (g_dx G) alpha i
              - a i * a i * (alpha i * (3 / 2 * (K i * K i) + 4 * PI * (m_rho M i + m_trcS M i)))) /\
     row_b G i = 0) /\
  (let i := (g_n G - 1)%nat in
   row i - row_b G i = - g_dx G * (alpha i + grid_x G i * ((alpha i - alpha (i - 1)%nat) / g_dx G) - 1)).
Proof.
  intros Hn Hd row. unfold row, tridiagonal_row.
  assert (N1 : Nat.eqb 0 (g_n G - 1) = false) by (apply Nat.eqb_neq; lia).
  repeat split.
  - rewrite N1. unfold row_d, row_u. rewrite Nat.eqb_refl. ring.
  - unfold row_b. rewrite N1. reflexivity.
  - unfold row_l, row_d, row_u, first_difference, second_difference.
    assert (E1 : Nat.eqb i 0 = false) by (apply Nat.eqb_neq; lia).
    assert (E2 : Nat.eqb i (g_n G - 1) = false) by (apply Nat.eqb_neq; lia).
    rewrite E1, E2. replace (i + 1)%nat with (S i) by lia.
    set (q := GetARHS _ _ _ _). field. repeat split; auto; lra.
  - unfold row_b. assert (E2 : Nat.eqb i (g_n G - 1) = false) by (apply Nat.eqb_neq; lia). rewrite E2. reflexivity.
  - cbv zeta. assert (E1 : Nat.eqb (g_n G - 1) 0 = false) by (apply Nat.eqb_neq; lia).
    rewrite E1, Nat.eqb_refl. unfold row_l, row_d, row_b. rewrite E1, Nat.eqb_refl. field. lra.
Qed.
Print Assumptions C32_slicing_rows.

Lemma radial_partial f f' s Y : is_derive f (Y 0%nat) (f' (Y 0%nat)) -> (s < 3)%nat ->
  partial (radial f) s Y = if Nat.eqb s 0 then f' (Y 0%nat) else 0.
Proof.
  intros H Hs. apply partial_is. unfold is_partial, radial.
  idx; unfold moved; cbn [Nat.eqb]; [exact H | |]; auto_derive; auto.
Qed.
Lemma Hessian_radial (a a' f f' f'' : R -> R) X i j :
  good a a' X -> locally (X 0%nat) (fun x => is_derive f x (f' x)) -> is_derive f' (X 0%nat) (f'' (X 0%nat)) -> (i < 3)%nat -> (j < 3)%nat ->
  Hessian (areal_metric a) (areal_inverse a) (radial f) X i j =
  (if Nat.eqb i 0 then if Nat.eqb j 0 then f'' (X 0%nat) else 0 else 0) - closedG a a' X 0 i j * f' (X 0%nat).
Proof.
  intros G Hl Hd2 Hi Hj.
  assert (H1 : forall s, (s < 3)%nat -> partial (radial f) s X = if Nat.eqb s 0 then f' (X 0%nat) else 0).
  { intros s Hs. apply radial_partial; [apply (locally_singleton _ _ Hl) | exact Hs]. }
  assert (H2 : partial (fun Z => partial (radial f) j Z) i X = if Nat.eqb i 0 then if Nat.eqb j 0 then f'' (X 0%nat) else 0 else 0).
  { rewrite (partial_loc _ (fun Z => if Nat.eqb j 0 then f' (Z 0%nat) else 0)).
    - destruct (Nat.eqb j 0) eqn:Ej.
      + replace (fun Z : vec => f' (Z 0%nat)) with (radial f') by reflexivity. rewrite (radial_partial f' f'') by assumption. reflexivity.
      + rewrite partial_const. destruct (Nat.eqb i 0); reflexivity.
    - assert (LL : locally (X i) (fun h => is_derive f (moved X i h 0%nat) (f' (moved X i h 0%nat)))).
      { destruct (lt3_cases i Hi) as [E|[E|E]]; rewrite E; unfold moved; cbn [Nat.eqb].
        - exact Hl.
        - apply filter_forall. intros h. apply (locally_singleton _ _ Hl).
        - apply filter_forall. intros h. apply (locally_singleton _ _ Hl). }
      revert LL. apply filter_imp. intros h Hh. apply radial_partial; assumption. }
  unfold Hessian, sum3. rewrite H2, !H1 by lia. rewrite !(Gam_closed a a') by (auto; lia). cbn [Nat.eqb].
  destruct (Nat.eqb i 0), (Nat.eqb j 0); ring.
Qed.

(** On every lapse profile that is quadratic across three neighbouring points the row vanishes exactly when the
    slicing stays maximal (D^2 alpha = alpha (K_ij K^ij + 4 pi (rho + S))) at the middle point. *)
Theorem C32_slicing (G : Grid) (a K alpha : nat -> R) (M : Matter) (i : nat)
        (af a' a'' Kf : R -> R) (c0 c1 c2 : R) (X : vec) :
  let r := grid_x G i in let q x := c0 + c1 * x + c2 * (x * x) in
  (2 <= g_n G)%nat -> 0 < g_dx G -> (0 < i < g_n G - 1)%nat -> 0 < r ->
  X 0%nat = r -> sin (X 1%nat) <> 0 -> a i <> 0 -> af r = a i -> Kf r = K i -> smooth_at af a' a'' r ->
  a' r = GetARHS (a i) (K i) r (m_rho M i) ->
  (forall k, (i - 1 <= k <= i + 1)%nat -> alpha k = q (grid_x G k)) ->
  (tridiagonal_row (row_l G a K M) (row_d G a K M) (row_u G a K M) (g_n G) alpha i = row_b G i <->
   maximal_slicing (areal_metric af) (areal_inverse af) (radial q) (areal_K Kf) (m_rho M i) (m_trcS M i) X).
Proof.
  intros r q Hn Hdx Hi Hr EX Hs Ha Eaf EK [Hl Hd2] Ea' Hq.
  destruct (C32_slicing_rows G a K M alpha Hn Hdx) as (_ & _ & Row & _).
  destruct (Row i Hi Hr Ha) as [R1 R2]. rewrite R1, R2.
  assert (Hd : is_derive af r (a' r)) by (apply (locally_singleton _ _ Hl)).
  assert (Gd : good af a' X).
  { unfold good. rewrite EX, Eaf. split; [exact Hr|]. split; [exact Hs|]. split; [exact Ha|]. exact Hd. }
  assert (Lap : Laplacian (areal_metric af) (areal_inverse af) (radial q) X =
     (2 * c2 + (2 / r - a' r / a i) * (c1 + 2 * c2 * r)) / (a i * a i)).
  { unfold Laplacian, HessianMixed, sum3.
    assert (Q1 : locally (X 0%nat) (fun x => is_derive q x (c1 + 2 * c2 * x))).
    { apply filter_forall. intros x. unfold q. auto_derive; [exact I |]. match goal with |- @eq _ ?x ?y => change (@eq R x y) end. ring. }
    assert (Q2 : is_derive (fun x => c1 + 2 * c2 * x) (X 0%nat) (2 * c2)) by (auto_derive; [exact I | ring]).
    assert (HE : forall k l, (k < 3)%nat -> (l < 3)%nat -> Hessian (areal_metric af) (areal_inverse af) (radial q) X k l =
      (if Nat.eqb k 0 then if Nat.eqb l 0 then 2 * c2 else 0 else 0) - closedG af a' X 0 k l * (c1 + 2 * c2 * X 0%nat))
      by (intros k l Hk Hl'; exact (Hessian_radial af a' q (fun x => c1 + 2 * c2 * x) (fun _ => 2 * c2) X k l Gd Q1 Q2 Hk Hl')).
    rewrite !HE by lia. unfold areal_inverse. cbn [Nat.eqb closedG]. rewrite EX, Eaf. field. repeat split; auto; lra. }
  unfold maximal_slicing. rewrite Lap.
  assert (SQ : square3 (areal_K Kf X) = 3 / 2 * (K i * K i)).
  { unfold square3, sum3, areal_K. cbn [Nat.eqb]. rewrite EX, EK. field. }
  rewrite SQ. unfold radial. rewrite EX.
  assert (F1 : first_difference (g_dx G) alpha i = c1 + 2 * c2 * r).
  { unfold first_difference. rewrite !Hq by lia. unfold q, r, grid_x. rewrite plus_INR, minus_INR by lia. cbn [INR]. field. lra. }
  assert (F2 : second_difference (g_dx G) alpha i = 2 * c2).
  { unfold second_difference. rewrite !Hq by lia. unfold q, r, grid_x. rewrite plus_INR, minus_INR by lia. cbn [INR]. field. lra. }
  fold r in R1 |- *. rewrite F1, F2. rewrite (Hq i) by lia. fold r. rewrite <- Ea'.
  assert (NZ : r * g_dx G * (a i * a i) <> 0) by (repeat apply Rmult_integral_contrapositive_currified; auto; lra).
  set (src := q r * (3 / 2 * (K i * K i) + 4 * PI * (m_rho M i + m_trcS M i))).
  assert (E : r * g_dx G * (2 * c2 + (2 / r - a' r / a i) * (c1 + 2 * c2 * r) - a i * a i * src) =
              r * g_dx G * (a i * a i) * ((2 * c2 + (2 / r - a' r / a i) * (c1 + 2 * c2 * r)) / (a i * a i) - src))
    by (field; repeat split; auto; lra).
  rewrite E. split; intros H.
  - apply Rmult_integral in H. destruct H as [H|H]; [contradiction | lra].
  - rewrite H. ring.
Qed.
Print Assumptions C32_slicing.

(** ** The lapse *)
(** radial scale of a at point i, in units of the spacing rule below: r a' / (2 a) *)
Definition stretch (G : Grid) (a K : nat -> R) (M : Matter) (i : nat) : R :=
  GetARHS (a i) (K i) (grid_x G i) (m_rho M i) * grid_x G i / (2 * a i).
Lemma mono_rows G a K M :
  (2 <= g_n G)%nat -> 0 < g_dx G -> 0 <= g_min G ->
  (forall i, (0 < i < g_n G - 1)%nat -> 1 - grid_x G i / g_dx G <= stretch G a K M i < 1 + grid_x G i / g_dx G) ->
  (forall i, (0 < i < g_n G - 1)%nat -> 0 <= 3 * K i * K i + 8 * PI * (m_trcS M i + m_rho M i)) ->
  (row_d G a K M 0%nat = - 1 /\ row_u G a K M 0%nat = 1 /\ row_b G 0%nat = 0) /\
  (forall i, (0 < i < g_n G - 1)%nat -> 0 < row_u G a K M i /\ 0 <= row_l G a K M i /\
     row_l G a K M i + row_u G a K M i + row_d G a K M i <= 0 /\ row_b G i = 0) /\
  (0 <= row_l G a K M (g_n G - 1)%nat /\
   row_l G a K M (g_n G - 1)%nat + row_d G a K M (g_n G - 1)%nat = row_b G (g_n G - 1)%nat /\ row_b G (g_n G - 1)%nat < 0).
Proof.
  intros Hn Hd Hm Hst Hsrc.
  assert (Hx : forall i, 0 <= grid_x G i).
  { intros i. unfold grid_x. assert (0 <= INR i * g_dx G) by (apply Rmult_le_pos; [apply pos_INR | lra]). lra. }
  assert (N1 : Nat.eqb 0 (g_n G - 1) = false) by (apply Nat.eqb_neq; lia).
  assert (N2 : Nat.eqb (g_n G - 1) 0 = false) by (apply Nat.eqb_neq; lia).
  split; [|split].
  - unfold row_d, row_u, row_b. rewrite N1. cbn [Nat.eqb]. repeat split.
  - intros i Hi. specialize (Hst i Hi). specialize (Hsrc i Hi).
    assert (E1 : Nat.eqb i 0 = false) by (apply Nat.eqb_neq; lia).
    assert (E2 : Nat.eqb i (g_n G - 1) = false) by (apply Nat.eqb_neq; lia).
    unfold row_d, row_u, row_l, row_b. rewrite E1, E2. unfold stretch in Hst. cbv zeta.
    unfold Rdiv in Hst |- *. rewrite Rmult_1_l.
    set (t := GetARHS (a i) (K i) (grid_x G i) (m_rho M i) * grid_x G i * / (2 * a i)) in *.
    split; [lra|]. split; [lra|]. split; [|reflexivity].
    assert (E : - 1 + t + grid_x G i * / g_dx G + (1 - t + grid_x G i * / g_dx G) +
                - grid_x G i * (4 + a i * a i * g_dx G * g_dx G * (3 * K i * K i + 8 * PI * (m_trcS M i + m_rho M i))) * / (2 * g_dx G) =
                - (grid_x G i * ((a i * a i) * (g_dx G * (3 * K i * K i + 8 * PI * (m_trcS M i + m_rho M i)))) / 2)) by (field; lra).
    rewrite E.
    assert (P : 0 <= grid_x G i * ((a i * a i) * (g_dx G * (3 * K i * K i + 8 * PI * (m_trcS M i + m_rho M i))))).
    { apply Rmult_le_pos; [apply Hx|]. apply Rmult_le_pos; [apply Rle_0_sqr|]. apply Rmult_le_pos; [lra | exact Hsrc]. }
    lra.
  - unfold row_l, row_d, row_b. rewrite N2, Nat.eqb_refl. split; [apply Hx|]. split; lra.
Qed.

(** The substitution sweeps solve every row of the system, the solution is unique, and the lapse is positive,
    at most one and grows outwards, whenever 3 K^2 + 8 pi (rho + S) >= 0 and the grid resolves a. *)
Theorem C32_lapse (G : Grid) (a K : nat -> R) (M : Matter) (alpha0 : nat -> R) :
  (2 <= g_n G)%nat -> 0 < g_dx G -> 0 <= g_min G ->
  (forall i, (0 < i < g_n G - 1)%nat -> 1 - grid_x G i / g_dx G <= stretch G a K M i < 1 + grid_x G i / g_dx G) ->
  (forall i, (0 < i < g_n G - 1)%nat -> 0 <= 3 * K i * K i + 8 * PI * (m_trcS M i + m_rho M i)) ->
  let alpha := LinearSolveForAlpha G a K M alpha0 in
  let rows := solves_tridiagonal (row_l G a K M) (row_d G a K M) (row_u G a K M) (row_b G) (g_n G) in
  rows alpha /\
  (forall y, rows y -> forall i, (i < g_n G)%nat -> y i = alpha i) /\
  (forall i, (i < g_n G)%nat -> 0 < alpha i <= 1) /\
  (forall i, (S i < g_n G)%nat -> alpha i <= alpha (S i)).
Proof.
  intros Hn Hd Hm Hst Hsrc alpha rows. destruct (mono_rows G a K M Hn Hd Hm Hst Hsrc) as (R0 & Ri & Rl).
  pose proof (pivots_nonzero _ _ _ _ _ Hn R0 Ri Rl) as PN.
  split; [|split; [|split]].
  - apply thomas_solves; [lia | exact PN].
  - intros y Hy i Hi. apply thomas_unique; [lia | exact PN | exact Hy | exact Hi].
  - intros i Hi. apply (values _ _ _ _ _ Hn R0 Ri Rl alpha0 (g_n G - 1 - i)). lia.
  - intros i Hi. apply (values _ _ _ _ _ Hn R0 Ri Rl alpha0 (g_n G - 1 - i)); lia.
Qed.
Print Assumptions C32_lapse.
