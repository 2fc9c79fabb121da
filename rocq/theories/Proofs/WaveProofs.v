(** Linearising the flat-space conservation laws along a plane wave. *)
From Coq Require Import Reals Arith Lia Lra Machin.
From Coquelicot Require Import Coquelicot.
From Verif.Spec Require Import Tensor GeomSpec Relativity GRMHD WaveSpec.
Local Open Scope R_scope.

Lemma PI_bounds : 3141592653589793 / 1000000000000000 < PI < 3141592653589794 / 1000000000000000.
Proof.
  pose proof (PI_2_3_7_ineq 9) as K. simpl in K. unfold tg_alt, PI_2_3_7_tg, Ratan_seq in K.
  simpl in K. split; lra.
Qed.

(** G is differentiable with derivative continuous at 0, value v and slope d there *)
Definition c1 (G : R -> R) (v d : R) : Prop :=
  (forall s, ex_derive G s) /\ continuous (Derive G) 0 /\ G 0 = v /\ Derive G 0 = d.
Lemma c1_const (a : R) : c1 (fun _ => a) a 0.
Proof.
  refine (conj _ (conj _ (conj eq_refl _))).
  - intros s. apply ex_derive_const.
  - apply (continuous_ext (U := R_UniformSpace) (fun _ : R => 0)).
    + intros x. symmetry. apply Derive_const.
    + apply continuous_const.
  - apply Derive_const.
Qed.
Lemma c1_id : c1 (fun s => s) 0 1.
Proof.
  refine (conj _ (conj _ (conj eq_refl _))).
  - intros s. apply ex_derive_id.
  - apply (continuous_ext (U := R_UniformSpace) (fun _ : R => 1)).
    + intros x. symmetry. apply Derive_id.
    + apply continuous_const.
  - apply Derive_id.
Qed.
Lemma c1_plus (F G : R -> R) (v d v' d' : R) :
  c1 F v d -> c1 G v' d' -> c1 (fun s => F s + G s) (v + v') (d + d').
Proof.
  intros (A1 & A2 & A3 & A4) (B1 & B2 & B3 & B4).
  refine (conj _ (conj _ (conj _ _))).
  - intros s. apply (ex_derive_plus (V := R_NormedModule)); auto.
  - apply (continuous_ext (U := R_UniformSpace) (fun x : R => Derive F x + Derive G x)).
    + intros x. symmetry. apply Derive_plus; auto.
    + apply (continuous_plus (V := R_NormedModule)); auto.
  - congruence.
  - rewrite Derive_plus by auto. congruence.
Qed.
Lemma c1_opp (F : R -> R) (v d : R) : c1 F v d -> c1 (fun s => - F s) (- v) (- d).
Proof.
  intros (A1 & A2 & A3 & A4). refine (conj _ (conj _ (conj _ _))).
  - intros s. apply (ex_derive_opp (V := R_NormedModule)); auto.
  - apply (continuous_ext (U := R_UniformSpace) (fun x : R => - Derive F x)).
    + intros x. symmetry. apply Derive_opp.
    + apply (continuous_opp (V := R_NormedModule)); auto.
  - congruence.
  - rewrite Derive_opp. congruence.
Qed.
Lemma c1_minus (F G : R -> R) (v d v' d' : R) :
  c1 F v d -> c1 G v' d' -> c1 (fun s => F s - G s) (v + - v') (d + - d').
Proof. intros A B. exact (c1_plus _ _ _ _ _ _ A (c1_opp _ _ _ B)). Qed.
Lemma c1_mult (F G : R -> R) (v d v' d' : R) :
  c1 F v d -> c1 G v' d' -> c1 (fun s => F s * G s) (v * v') (d * v' + v * d').
Proof.
  intros (A1 & A2 & A3 & A4) (B1 & B2 & B3 & B4).
  refine (conj _ (conj _ (conj _ _))).
  - intros s. apply ex_derive_mult; auto.
  - apply (continuous_ext (U := R_UniformSpace) (fun x : R => Derive F x * G x + F x * Derive G x)).
    + intros x. symmetry. apply Derive_mult; auto.
    + apply (continuous_plus (V := R_NormedModule)); apply (continuous_mult (K := R_AbsRing)); auto.
      * apply (ex_derive_continuous (V := R_NormedModule)); auto.
      * apply (ex_derive_continuous (V := R_NormedModule)); auto.
  - congruence.
  - rewrite Derive_mult by auto. congruence.
Qed.
Lemma c1_ext (F G : R -> R) (v d v' d' : R) :
  (forall s, F s = G s) -> v = v' -> d = d' -> c1 F v d -> c1 G v' d'.
Proof.
  intros E -> -> (A1 & A2 & A3 & A4). refine (conj _ (conj _ (conj _ _))).
  - intros s. apply (ex_derive_ext F); auto.
  - apply (continuous_ext (U := R_UniformSpace) (Derive F)); auto. intros x. apply Derive_ext; auto.
  - rewrite <- E. auto.
  - rewrite <- A4. symmetry. apply Derive_ext; auto.
Qed.
(** the Lorentz factor of a gas that is at rest at s = 0 *)
Lemma W_arg (a b c s : R) : 0 < 1 + ((0 + s * a) * (0 + s * a) + (0 + s * b) * (0 + s * b) + (0 + s * c) * (0 + s * c)).
Proof. nra. Qed.
Lemma W_deriv (a b c s : R) :
  is_derive (fun s : R => sqrt (1 + ((0 + s * a) * (0 + s * a) + (0 + s * b) * (0 + s * b) + (0 + s * c) * (0 + s * c)))) s
    (s * (a * a + b * b + c * c)
       / sqrt (1 + ((0 + s * a) * (0 + s * a) + (0 + s * b) * (0 + s * b) + (0 + s * c) * (0 + s * c)))).
Proof.
  pose proof (W_arg a b c s) as P. auto_derive; [exact P|].
  pose proof (sqrt_lt_R0 _ P) as Q.
  match goal with |- @eq _ ?x ?y => change (@eq R x y) end.
  field. lra.
Qed.
Lemma c1_W (a b c : R) :
  c1 (fun s : R => sqrt (1 + ((0 + s * a) * (0 + s * a) + (0 + s * b) * (0 + s * b) + (0 + s * c) * (0 + s * c)))) 1 0.
Proof.
  refine (conj _ (conj _ (conj _ _))).
  - intros s. eexists. apply W_deriv.
  - apply (continuous_ext (U := R_UniformSpace)
      (fun s : R => s * (a * a + b * b + c * c)
        / sqrt (1 + ((0 + s * a) * (0 + s * a) + (0 + s * b) * (0 + s * b) + (0 + s * c) * (0 + s * c))))).
    + intros x. symmetry. apply is_derive_unique, W_deriv.
    + apply (ex_derive_continuous (V := R_NormedModule)).
      pose proof (W_arg a b c 0) as P. pose proof (sqrt_lt_R0 _ P) as Q.
      auto_derive. split; [exact P|]. split; [lra|exact I].
  - replace (1 + _) with 1 by ring. apply sqrt_1.
  - etransitivity; [apply is_derive_unique, (W_deriv a b c 0)|]. unfold Rdiv. ring.
Qed.
Lemma c1_inv (F : R -> R) (v d : R) : (forall s, F s <> 0) -> c1 F v d -> c1 (fun s => / F s) (/ v) (- d / v ^ 2).
Proof.
  intros N (A1 & A2 & A3 & A4). refine (conj _ (conj _ (conj _ _))).
  - intros s. apply ex_derive_inv; auto.
  - apply (continuous_ext (U := R_UniformSpace) (fun x : R => - Derive F x * / (F x * F x))).
    + intros x. symmetry. rewrite Derive_inv by auto.
      match goal with |- @eq _ ?x ?y => change (@eq R x y) end. field. auto.
    + assert (C : continuous F 0) by (apply (ex_derive_continuous (V := R_NormedModule)); auto).
      apply (continuous_mult (K := R_AbsRing)).
      * apply (continuous_opp (V := R_NormedModule)); auto.
      * apply (continuous_comp (fun x => F x * F x) Rinv).
        { apply (continuous_mult (K := R_AbsRing)); auto. }
        { apply continuous_Rinv. apply Rmult_integral_contrapositive; auto. }
  - congruence.
  - rewrite Derive_inv by auto. congruence.
Qed.

(** ** plane waves *)
Lemma phase_moved (k : vec) (c : R) (X : vec) (mu : nat) (h : R) : (mu < 4)%nat ->
  phase k c (moved X mu h) = phase k c X + k mu * (h - X mu).
Proof.
  intros H. unfold phase, sum4, moved.
  destruct mu as [|[|[|[|]]]]; try lia; cbn [Nat.eqb]; ring.
Qed.
Lemma partial_wave (G : R -> R) (k : vec) (c e : R) (X : vec) (mu : nat) :
  (mu < 4)%nat -> (forall s, ex_derive G s) ->
  partial (fun Y => G (e * cos (phase k c Y))) mu X
  = - (k mu * sin (phase k c X)) * (e * Derive G (e * cos (phase k c X))).
Proof.
  intros H D. unfold partial. apply is_derive_unique.
  apply (is_derive_ext (fun h : R => G (e * cos (phase k c X + k mu * (h - X mu))))).
  { intros t. rewrite phase_moved; auto. }
  assert (E : phase k c X + k mu * (X mu - X mu) = phase k c X) by ring.
  auto_derive.
  - rewrite !Rplus_opp_r, Rmult_0_r, Rplus_0_r. auto.
  - match goal with |- @eq _ ?x ?y => change (@eq R x y) end.
    replace (phase k c X + k mu * (X mu + - X mu)) with (phase k c X) by ring.
    change (fun x : R => G x) with G. ring.
Qed.
Lemma slope_at_0 (g : R -> R) : continuous g 0 -> is_derive (fun e : R => e * g e) 0 (g 0).
Proof.
  intros C. apply is_derive_Reals. unfold derivable_pt_lim.
  intros eps He.
  destruct (proj1 (filterlim_locally g (g 0)) C (mkposreal eps He)) as [dl Hd].
  exists dl. intros h Hh Hl. rewrite Rplus_0_l, Rmult_0_l.
  replace ((h * g h - 0) / h - g 0) with (g h - g 0) by (field; auto).
  apply Hd. unfold ball; simpl; unfold AbsRing_ball, abs, minus, plus, opp; simpl.
  rewrite Ropp_0, Rplus_0_r. exact Hl.
Qed.
Lemma slope_wave (G : R -> R) (v d a b : R) : c1 G v d ->
  is_derive (fun e : R => a * (e * Derive G (e * b))) 0 (a * d).
Proof.
  intros (A1 & A2 & A3 & A4).
  assert (K : is_derive (fun e : R => e * (a * Derive G (e * b))) 0 (a * Derive G (0 * b))).
  { apply (slope_at_0 (fun e => a * Derive G (e * b))).
    apply (continuous_mult (K := R_AbsRing)); [apply continuous_const|].
    apply (continuous_comp (fun e => e * b) (Derive G)).
    - apply (continuous_mult (K := R_AbsRing)); [apply continuous_id|apply continuous_const].
    - rewrite Rmult_0_l. exact A2. }
  rewrite Rmult_0_l, A4 in K.
  apply (is_derive_ext (fun e : R => e * (a * Derive G (e * b)))); [|exact K].
  intros t. match goal with |- @eq _ ?x ?y => change (@eq R x y) end. ring.
Qed.
Lemma defect_of_slopes (gam : R) (n : nat) (q0 dq : Gas) (k : vec) (c : R) (X : vec) (v d : nat -> R) :
  (forall mu, (mu < 4)%nat -> c1 (fun s => current gam n (along q0 dq s) mu) (v mu) (d mu)) ->
  linear_defect gam n q0 dq k c X (- sin (phase k c X) * sum4 (fun mu => k mu * d mu)).
Proof.
  intros H. unfold linear_defect.
  apply (is_derive_ext (fun e : R => sum4 (fun mu =>
     - (k mu * sin (phase k c X)) * (e * Derive (fun s => current gam n (along q0 dq s) mu) (e * cos (phase k c X)))))).
  { intros e. unfold divergence, plane_wave. unfold sum4.
    assert (P : forall mu, (mu < 4)%nat ->
      partial (fun Y => current gam n (along q0 dq (e * cos (phase k c Y))) mu) mu X
      = - (k mu * sin (phase k c X)) * (e * Derive (fun s => current gam n (along q0 dq s) mu) (e * cos (phase k c X)))).
    { intros mu L. apply (partial_wave (fun s => current gam n (along q0 dq s) mu)); auto.
      intros s. exact (proj1 (H mu L) s). }
    rewrite !P by lia. reflexivity. }
  unfold sum4.
  set (S := sin (phase k c X)).
  replace (- S * (k 0%nat * d 0%nat + k 1%nat * d 1%nat + k 2%nat * d 2%nat + k 3%nat * d 3%nat))
    with (- (k 0%nat * S) * d 0%nat + - (k 1%nat * S) * d 1%nat + - (k 2%nat * S) * d 2%nat + - (k 3%nat * S) * d 3%nat) by ring.
  apply (is_derive_plus (V := R_NormedModule)); [apply (is_derive_plus (V := R_NormedModule));
    [apply (is_derive_plus (V := R_NormedModule))|]|];
    eapply slope_wave; apply H; lia.
Qed.
Lemma c1_lin (a b : R) : c1 (fun s => a + s * b) a b.
Proof.
  apply (c1_ext (fun s => a + s * b) _ (a + 0 * b) (0 + (1 * b + 0 * 0))); [reflexivity|ring|ring|].
  apply c1_plus; [apply c1_const|apply c1_mult; [apply c1_id|apply c1_const]].
Qed.
Lemma W_nz (a b c s : R) :
  sqrt (1 + ((0 + s * a) * (0 + s * a) + (0 + s * b) * (0 + s * b) + (0 + s * c) * (0 + s * c))) <> 0.
Proof. pose proof (sqrt_lt_R0 _ (W_arg a b c s)). lra. Qed.

Lemma c1_eqd (F : R -> R) (v d d' : R) : c1 F v d -> d = d' -> c1 F v d'.
Proof. intros H <-. exact H. Qed.
(** ** the currents of a gas at rest with density r, energy u and field (B,0,0) *)
Definition rest (r u B : R) : Gas := mkGas r u (row3 0 0 0) (row3 B 0 0).
Section Rest.
Variables (gam r u B dr du : R) (v b : vec).
Let q (s : R) : Gas := along (rest r u B) (mkGas dr du v b) s.
Lemma rest_W : c1 (fun s => gas_W (q s)) 1 0.
Proof. exact (c1_W (v 0%nat) (v 1%nat) (v 2%nat)). Qed.
Definition du4 : vec := fun mu => match mu with O => 0 | S i => v i end.
Definition u4 : vec := fun mu => match mu with O => 1 | S i => 0 end.
Lemma rest_u (mu : nat) : (mu < 4)%nat -> c1 (fun s => gas_ucon (q s) mu) (u4 mu) (du4 mu).
Proof.
  intros H. destruct mu as [|[|[|[|]]]]; try lia; [exact rest_W| | |];
    apply (c1_lin 0).
Qed.
(** b^0 = B v^1, b^i = B^i to first order *)
Definition db4 : vec := fun mu => match mu with O => B * v 0%nat | S i => b i end.
Definition b4 : vec := fun mu => match mu with 1%nat => B | _ => 0 end.
Lemma rest_Bu : c1 (fun s => dot4 eta (spatial4 (g_B (q s))) (gas_ucon (q s))) 0 (B * v 0%nat).
Proof.
  apply (c1_ext (fun s => (B + s * b 0%nat) * (0 + s * v 0%nat) + (0 + s * b 1%nat) * (0 + s * v 1%nat)
                          + (0 + s * b 2%nat) * (0 + s * v 2%nat)) _
     (B * 0 + 0 * 0 + 0 * 0) ((b 0%nat * 0 + B * v 0%nat) + (b 1%nat * 0 + 0 * v 1%nat) + (b 2%nat * 0 + 0 * v 2%nat))).
  - intros s. unfold dot4, sum4, eta, spatial4; cbn [Nat.eqb].
    unfold q, gas_ucon, along, rest; cbn [g_B g_vp row3]. ring.
  - ring.
  - ring.
  - apply c1_plus; [apply c1_plus|]; apply c1_mult; apply c1_lin.
Qed.
Lemma rest_b (mu : nat) : (mu < 4)%nat -> c1 (fun s => gas_bcon (q s) mu) (b4 mu) (db4 mu).
Proof.
  intros H. unfold gas_bcon, comoving_field, Rdiv.
  assert (I : c1 (fun s => / gas_W (q s)) (/ 1) (- 0 / 1 ^ 2)).
  { apply c1_inv; [|exact rest_W]. intros s. exact (W_nz (v 0%nat) (v 1%nat) (v 2%nat) s). }
  pose proof (c1_mult _ _ _ _ _ _ rest_Bu (rest_u mu H)) as K.
  assert (SP : c1 (fun s => spatial4 (g_B (q s)) mu) (b4 mu) (match mu with O => 0 | S i => b i end)).
  { destruct mu as [|[|[|[|]]]]; try lia; [exact (c1_const 0)|apply (c1_lin B)|apply (c1_lin 0)|apply (c1_lin 0)]. }
  refine (c1_ext _ _ _ _ _ _ (fun s => eq_refl) _ _ (c1_mult _ _ _ _ _ _ (c1_plus _ _ _ _ _ _ SP K) I)).
  - field.
  - destruct mu as [|[|[|[|]]]]; try lia; unfold u4, du4, db4, b4; field.
Qed.
Lemma rest_b2 : c1 (fun s => bsquared eta (gas_bcon (q s))) (B * B) (2 * (B * b 0%nat)).
Proof.
  assert (K : forall mu, (mu < 4)%nat ->
     c1 (fun s => gas_bcon (q s) mu * gas_bcon (q s) mu) (b4 mu * b4 mu) (db4 mu * b4 mu + b4 mu * db4 mu)).
  { intros mu H. apply c1_mult; apply rest_b; auto. }
  refine (c1_ext _ _ _ _ _ _ _ _ _ (c1_plus _ _ _ _ _ _ (c1_plus _ _ _ _ _ _
     (c1_minus _ _ _ _ _ _ (K 1%nat ltac:(lia)) (K 0%nat ltac:(lia))) (K 2%nat ltac:(lia))) (K 3%nat ltac:(lia)))).
  - intros s. unfold bsquared, dot4, sum4, eta; cbn [Nat.eqb]. ring.
  - unfold b4. ring.
  - unfold b4, db4. ring.
Qed.
Lemma rest_rho : c1 (fun s => g_rho (q s)) r dr.  Proof. apply (c1_lin r). Qed.
Lemma rest_ug : c1 (fun s => g_u (q s)) u du.  Proof. apply (c1_lin u). Qed.
Definition dmass (mu : nat) : R := match mu with O => dr | S i => r * v i end.
Lemma rest_mass (mu : nat) : (mu < 4)%nat ->
  exists w, c1 (fun s => g_rho (q s) * gas_ucon (q s) mu) w (dmass mu).
Proof.
  intros H. eexists. eapply c1_eqd; [exact (c1_mult _ _ _ _ _ _ rest_rho (rest_u mu H))|].
  destruct mu as [|[|[|[|]]]]; try lia; unfold u4, du4, dmass; ring.
Qed.
Definition dT (mu nu : nat) : R :=
  (dr + du + (gam - 1) * du + 2 * (B * b 0%nat)) * (u4 mu * u4 nu)
  + (r + u + (gam - 1) * u + B * B) * (du4 mu * u4 nu + u4 mu * du4 nu)
  + ((gam - 1) * du + B * b 0%nat) * eta mu nu - (db4 mu * b4 nu + b4 mu * db4 nu).
Lemma rest_T (mu nu : nat) : (mu < 4)%nat -> (nu < 4)%nat ->
  exists w, c1 (fun s => Tcon eta eta (g_rho (q s)) (g_u (q s)) ((gam - 1) * g_u (q s)) (gas_ucon (q s)) (gas_bcon (q s)) mu nu)
     w (dT mu nu).
Proof.
  intros H H'. eexists. unfold Tcon, Rdiv.
  pose proof (c1_mult _ _ _ _ _ _ (c1_const (gam - 1)) rest_ug) as P.
  eapply c1_eqd.
  - refine (c1_minus _ _ _ _ _ _ (c1_plus _ _ _ _ _ _ (c1_mult _ _ _ _ _ _ (c1_mult _ _ _ _ _ _
       (c1_plus _ _ _ _ _ _ (c1_plus _ _ _ _ _ _ (c1_plus _ _ _ _ _ _ rest_rho rest_ug) P) rest_b2) (rest_u mu H)) (rest_u nu H'))
       (c1_mult _ _ _ _ _ _ (c1_plus _ _ _ _ _ _ P (c1_mult _ _ _ _ _ _ rest_b2 (c1_const (/ 2)))) (c1_const (eta mu nu))))
       (c1_mult _ _ _ _ _ _ (rest_b mu H) (rest_b nu H'))).
  - unfold dT. field.
Qed.
Definition dF (mu nu : nat) : R :=
  db4 mu * u4 nu + b4 mu * du4 nu - (db4 nu * u4 mu + b4 nu * du4 mu).
Lemma rest_F (mu nu : nat) : (mu < 4)%nat -> (nu < 4)%nat ->
  exists w, c1 (fun s => dualF (gas_ucon (q s)) (gas_bcon (q s)) mu nu) w (dF mu nu).
Proof.
  intros H H'. eexists. unfold dualF. eapply c1_eqd.
  - exact (c1_minus _ _ _ _ _ _ (c1_mult _ _ _ _ _ _ (rest_b mu H) (rest_u nu H'))
       (c1_mult _ _ _ _ _ _ (rest_b nu H') (rest_u mu H))).
  - unfold dF. ring.
Qed.
(** slope of the four-current of law n *)
Definition dcurrent (n mu : nat) : R :=
  match n with
  | 0%nat => dmass mu
  | 1%nat | 2%nat | 3%nat | 4%nat => dT mu (n - 1)
  | _ => dF mu (n - 5)
  end.
Lemma rest_current (n mu : nat) : (n < 9)%nat -> (mu < 4)%nat ->
  exists w, c1 (fun s => current gam n (q s) mu) w (dcurrent n mu).
Proof.
  intros Hn Hm. unfold current, dcurrent.
  destruct n as [|[|[|[|[|[|[|[|[|]]]]]]]]]; try lia;
    [apply rest_mass; auto | apply rest_T; simpl; lia .. | | | |]; apply rest_F; simpl; lia.
Qed.
Lemma rest_defect (n : nat) (k : vec) (c : R) (X : vec) : (n < 9)%nat ->
  linear_defect gam n (rest r u B) (mkGas dr du v b) k c X
    (- sin (phase k c X) * sum4 (fun mu => k mu * dcurrent n mu)).
Proof.
  intros Hn.
  destruct (rest_current n 0 Hn ltac:(lia)) as [w0 C0]. destruct (rest_current n 1 Hn ltac:(lia)) as [w1 C1].
  destruct (rest_current n 2 Hn ltac:(lia)) as [w2 C2]. destruct (rest_current n 3 Hn ltac:(lia)) as [w3 C3].
  apply (defect_of_slopes gam n _ _ k c X (row4 w0 w1 w2 w3)).
  intros mu H. destruct mu as [|[|[|[|]]]]; try lia; assumption.
Qed.
End Rest.
