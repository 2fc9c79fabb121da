(** C47: the relativistic star the code builds as initial data. *)
From Coq Require Import Reals ZArith List Lia Lra.
From Coquelicot Require Import Coquelicot.
From Flocq Require Import Core.
From Verif.Model Require Import Num Robust Geometry MonopoleGR TOV.
From Verif.Spec Require Import Tensor GeomSpec Hypersurface StarSpec.
From Verif.Proofs Require Import TensorTac CurvatureProofs ThomasProofs NumR.
From Verif.Properties Require Import P_Monopole P_MonopoleRates P_MonopoleData.
Local Open Scope R_scope.

(** ** Thermodynamics *)
Lemma cpow_pos x y : 0 < x -> cpow x y = Rpower x y.
Proof. intros H. unfold cpow. rewrite Req_bool_false by lra. reflexivity. Qed.
Lemma cpow_nonneg x y : 0 <= cpow x y.
Proof. unfold cpow. destruct (Req_bool x 0); [lra|]. left. apply exp_pos. Qed.
Lemma poly_rho_nonneg P K Gamma : 0 <= poly_rho P K Gamma.
Proof. apply cpow_nonneg. Qed.
Lemma poly_eps_nonneg P K Gamma : 0 < K -> 1 < Gamma -> 0 <= poly_eps P K Gamma.
Proof.
  intros HK HG. unfold poly_eps. apply Rmult_le_pos; [|apply cpow_nonneg].
  apply Rmult_le_pos; [lra | left; apply Rinv_0_lt_compat; lra].
Qed.
Lemma rho_derive P K Gamma : 0 < P -> 0 < K -> 1 < Gamma ->
  is_derive (fun p => poly_rho p K Gamma) P (poly_rho P K Gamma / (Gamma * P)).
Proof.
  intros HP HK HG.
  apply (is_derive_ext_loc (fun p => exp (1 / Gamma * ln (p / K)))).
  - assert (L : locally P (fun p => 0 < p)) by (apply open_gt; exact HP).
    revert L. apply filter_imp. intros p Hp. unfold poly_rho. rewrite cpow_pos by (apply Rdiv_lt_0_compat; assumption). reflexivity.
  - unfold poly_rho. rewrite cpow_pos by (apply Rdiv_lt_0_compat; assumption). unfold Rpower.
    auto_derive; [apply Rdiv_lt_0_compat; assumption|]. unfold Rdiv at 5. field. split; lra.
Qed.
Lemma eps_derive P K Gamma : 0 < P -> 0 < K -> 1 < Gamma ->
  is_derive (fun p => poly_eps p K Gamma) P (poly_eps P K Gamma * (Gamma - 1) / (Gamma * P)).
Proof.
  intros HP HK HG.
  apply (is_derive_ext_loc (fun p => K / (Gamma - 1) * exp ((Gamma - 1) / Gamma * ln (p / K)))).
  - assert (L : locally P (fun p => 0 < p)) by (apply open_gt; exact HP).
    revert L. apply filter_imp. intros p Hp. unfold poly_eps. rewrite cpow_pos by (apply Rdiv_lt_0_compat; assumption). reflexivity.
  - unfold poly_eps. rewrite cpow_pos by (apply Rdiv_lt_0_compat; assumption). unfold Rpower.
    auto_derive; [apply Rdiv_lt_0_compat; assumption|]. unfold Rdiv at 7. field. repeat split; lra.
Qed.

(** At every pressure p > 0 the density and specific energy used by the star are those of the ideal gas with that pressure, on the
    adiabat p = K rho^Gamma, with the first law; p = 0 is empty space. *)
Theorem C47_thermo (P K Gamma : R) :
  0 < K -> 1 < Gamma ->
  (0 < P ->
     0 < poly_rho P K Gamma /\ 0 < poly_eps P K Gamma /\
     P = ideal_pressure Gamma (poly_rho P K Gamma) (poly_eps P K Gamma) /\
     P = K * Rpower (poly_rho P K Gamma) Gamma /\
     first_law (fun p => poly_rho p K Gamma) (fun p => poly_eps p K Gamma) P) /\
  poly_rho 0 K Gamma = 0 /\ poly_eps 0 K Gamma = 0.
Proof.
  intros HK HG. split.
  - intros HP. assert (PK : 0 < P / K) by (apply Rdiv_lt_0_compat; assumption).
    assert (R1 : poly_rho P K Gamma = Rpower (P / K) (1 / Gamma)) by (apply cpow_pos; exact PK).
    assert (R2 : poly_eps P K Gamma = K / (Gamma - 1) * Rpower (P / K) ((Gamma - 1) / Gamma)) by (unfold poly_eps; rewrite cpow_pos by exact PK; reflexivity).
    assert (Q : P = ideal_pressure Gamma (poly_rho P K Gamma) (poly_eps P K Gamma)).
    { unfold ideal_pressure. rewrite R1, R2.
      replace ((Gamma - 1) * Rpower (P / K) (1 / Gamma) * (K / (Gamma - 1) * Rpower (P / K) ((Gamma - 1) / Gamma)))
        with (K * (Rpower (P / K) (1 / Gamma) * Rpower (P / K) ((Gamma - 1) / Gamma))) by (field; lra).
      rewrite <- Rpower_plus. replace (1 / Gamma + (Gamma - 1) / Gamma) with 1 by (field; lra). rewrite Rpower_1 by exact PK. field. lra. }
    assert (rp : 0 < poly_rho P K Gamma) by (rewrite R1; apply exp_pos).
    assert (ep : 0 < poly_eps P K Gamma).
    { rewrite R2. apply Rmult_lt_0_compat; [apply Rdiv_lt_0_compat; lra | apply exp_pos]. }
    split; [exact rp|]. split; [exact ep|]. split; [exact Q|]. split.
    + rewrite R1, Rpower_mult. replace (1 / Gamma * Gamma) with 1 by (field; lra). rewrite Rpower_1 by exact PK. field. lra.
    + exists (poly_rho P K Gamma / (Gamma * P)), (poly_eps P K Gamma * (Gamma - 1) / (Gamma * P)).
      split; [apply rho_derive; assumption|]. split; [apply eps_derive; assumption|].
      unfold ideal_pressure in Q. set (a := poly_rho P K Gamma) in *. set (b := poly_eps P K Gamma) in *. clearbody a b.
      match goal with |- @eq _ ?x ?y => change (@eq R x y) end. rewrite Q at 2. field. repeat split; lra.
  - unfold poly_rho, poly_eps, cpow. replace (0 / K) with 0 by (field; lra). rewrite !Req_bool_true by reflexivity. split; ring.
Qed.
Print Assumptions C47_thermo.
(** The adiabat of the user's entropy s: p = exp(s (Gamma - 1)) rho^Gamma, so that ln(p / rho^Gamma) / (Gamma - 1) = s at every pressure. *)
Theorem C47_entropy (s Gamma P : R) : 1 < Gamma -> 0 < P ->
  0 < PolytropeK s Gamma /\ ln (P / Rpower (poly_rho P (PolytropeK s Gamma) Gamma) Gamma) / (Gamma - 1) = s.
Proof.
  intros HG HP. assert (HK : 0 < PolytropeK s Gamma) by apply exp_pos. split; [exact HK|].
  destruct (C47_thermo P (PolytropeK s Gamma) Gamma HK HG) as (T & _). destruct (T HP) as (_ & _ & _ & E & _).
  set (r := Rpower (poly_rho P (PolytropeK s Gamma) Gamma) Gamma) in *. assert (Hr : 0 < r) by apply exp_pos.
  rewrite E. replace (PolytropeK s Gamma * r / r) with (PolytropeK s Gamma) by (field; lra).
  unfold PolytropeK. rewrite ln_exp. field. lra.
Qed.
Print Assumptions C47_entropy.

(** ** The star is a static solution of Einstein's equations *)
Section Star.
  Variables m p e Phi : R -> R.
  Variable X : vec.
  Let r := X 0%nat.
  Hypothesis Hr : 0 < r.
  Hypothesis Hs : sin (X 1%nat) <> 0.
  Definition phi_rate (x : R) : R := (m x + 4 * PI * x * x * x * p x) / (x * (x - 2 * m x)).
  Hypothesis Hm : locally r (fun x => 2 * m x < x /\ is_derive m x (4 * PI * x * x * e x)).
  Hypothesis HPhi : locally r (fun x => is_derive Phi x (phi_rate x)).
  Hypothesis He : ex_derive e r.
  Hypothesis Hp : is_derive p r (- (e r + p r) * phi_rate r).

  Definition radial_stretch' (x : R) : R := radial_stretch m x * radial_stretch m x * radial_stretch m x * (4 * PI * x * e x - m x / (x * x)).
  Definition lapse' (x : R) : R := lapse_of Phi x * phi_rate x.

  Lemma xpos : locally r (fun x => 0 < x).
  Proof. apply open_gt. exact Hr. Qed.
  Lemma inside x : 0 < x -> 2 * m x < x -> 0 < 1 - 2 * m x / x.
  Proof.
    intros H1 H2. replace (1 - 2 * m x / x) with ((x - 2 * m x) / x) by (field; lra). apply Rdiv_lt_0_compat; lra.
  Qed.
  Lemma stretch_derive x : 0 < x -> 2 * m x < x -> is_derive m x (4 * PI * x * x * e x) -> is_derive (radial_stretch m) x (radial_stretch' x).
  Proof.
    intros H1 H2 D. pose proof (inside x H1 H2) as I. pose proof (sqrt_lt_R0 _ I) as I2.
    assert (Dm : Derive (fun x => m x) x = 4 * PI * x * x * e x) by (apply is_derive_unique; exact D).
    assert (Em : ex_derive (fun x => m x) x) by (eexists; exact D).
    unfold radial_stretch. auto_derive.
    - split; [exact Em|]. split; [lra|]. split; [exact I|]. split; [apply Rgt_not_eq; exact I2 | exact Logic.I].
    - rewrite Dm. unfold radial_stretch', radial_stretch. change (2 * m x * / x) with (2 * m x / x). set (q := sqrt (1 + - (2 * m x / x))).
      replace (sqrt (1 - 2 * m x / x)) with q by reflexivity. assert (0 < q) by exact I2. clearbody q. field. split; lra.
  Qed.
  Lemma a_smooth : smooth_at (radial_stretch m) radial_stretch' (fun _ => Derive radial_stretch' r) r.
  Proof.
    split.
    - generalize (filter_and _ _ Hm xpos). apply filter_imp. intros x [[A B] C]. apply stretch_derive; assumption.
    - apply Derive_correct. destruct (locally_singleton _ _ Hm) as [A B].
      pose proof (stretch_derive r Hr A B) as D.
      assert (E1 : ex_derive (radial_stretch m) r) by (eexists; exact D). assert (E2 : ex_derive m r) by (eexists; exact B).
      unfold radial_stretch'. auto_derive. repeat split; auto. apply Rgt_not_eq, Rmult_lt_0_compat; exact Hr.
  Qed.
  Definition lapse'' : R :=
    lapse_of Phi r * (phi_rate r * phi_rate r +
      ((4 * PI * r * r * e r + 12 * PI * r * r * p r + 4 * PI * r * r * r * (- (e r + p r) * phi_rate r)) * (r * (r - 2 * m r))
       - (m r + 4 * PI * r * r * r * p r) * (2 * r - 2 * m r - 2 * r * (4 * PI * r * r * e r))) / (r * (r - 2 * m r)) / (r * (r - 2 * m r))).
  Lemma alpha_smooth : smooth_at (lapse_of Phi) lapse' (fun _ => lapse'') r.
  Proof.
    split.
    - revert HPhi. apply filter_imp. intros x D. unfold lapse_of, lapse'.
      assert (Dm : Derive (fun x => Phi x) x = phi_rate x) by (apply is_derive_unique; exact D).
      assert (Em : ex_derive (fun x => Phi x) x) by (eexists; exact D).
      auto_derive; [exact Em|]. rewrite Dm. unfold lapse_of. ring.
    - destruct (locally_singleton _ _ Hm) as [A B]. pose proof (locally_singleton _ _ HPhi) as D.
      assert (D1 : Derive (fun x => Phi x) r = phi_rate r) by (apply is_derive_unique; exact D).
      assert (E1 : ex_derive (fun x => Phi x) r) by (eexists; exact D).
      assert (D2 : Derive (fun x => m x) r = 4 * PI * r * r * e r) by (apply is_derive_unique; exact B).
      assert (E2 : ex_derive (fun x => m x) r) by (eexists; exact B).
      assert (D3 : Derive (fun x => p x) r = - (e r + p r) * phi_rate r) by (apply is_derive_unique; exact Hp).
      assert (E3 : ex_derive (fun x => p x) r) by (eexists; exact Hp).
      unfold lapse', lapse'', lapse_of. unfold phi_rate at 1.
      assert (N : r * (r - 2 * m r) <> 0) by (apply Rgt_not_eq, Rmult_lt_0_compat; lra).
      auto_derive; [repeat split; auto|].
      rewrite D1, D2, D3. set (g := exp (Phi r)). clearbody g.
      match goal with |- @eq _ ?x ?y => change (@eq R x y) end. unfold phi_rate. field. repeat split; lra.
  Qed.
  Lemma star_good : good (radial_stretch m) radial_stretch' X.
  Proof.
    destruct (locally_singleton _ _ Hm) as [A B]. pose proof (inside r Hr A) as I. pose proof (sqrt_lt_R0 _ I) as I2.
    split; [exact Hr|]. split; [exact Hs|]. split; [|apply stretch_derive; assumption].
    unfold radial_stretch. apply Rinv_neq_0_compat. apply Rgt_not_eq. exact I2.
  Qed.
  Lemma mass_of_stretch : m r = r * (1 - / (radial_stretch m r * radial_stretch m r)) / 2 /\ 0 < radial_stretch m r.
  Proof.
    destruct (locally_singleton _ _ Hm) as [A B]. pose proof (inside r Hr A) as I. pose proof (sqrt_lt_R0 _ I) as I2.
    assert (P : 0 < radial_stretch m r) by (apply Rinv_0_lt_compat; exact I2).
    split; [|exact P]. unfold radial_stretch. rewrite <- Rinv_mult, Rinv_inv. rewrite sqrt_sqrt by lra. field. lra.
  Qed.
  Lemma stretch_rhs : radial_stretch' r = GetARHS (radial_stretch m r) 0 r (e r).
  Proof.
    destruct mass_of_stretch as [E P]. rewrite ARHS_pos by exact Hr. unfold radial_stretch'. rewrite E.
    set (a := radial_stretch m r) in *. clearbody a. field. split; lra.
  Qed.
  Lemma hess k l : (k < 3)%nat -> (l < 3)%nat ->
    Hessian (areal_metric (radial_stretch m)) (areal_inverse (radial_stretch m)) (radial (lapse_of Phi)) X k l =
    (if Nat.eqb k 0 then if Nat.eqb l 0 then lapse'' else 0 else 0) - closedG (radial_stretch m) radial_stretch' X 0 k l * lapse' r.
  Proof.
    intros Hk Hl. destruct alpha_smooth as [L1 L2].
    exact (Hessian_radial (radial_stretch m) radial_stretch' (lapse_of Phi) lapse' (fun _ => lapse'') X k l star_good L1 L2 Hk Hl).
  Qed.
  Lemma star_curvature i j : (i < 3)%nat -> (j < 3)%nat ->
    curvature_rate (areal_metric (radial_stretch m)) (areal_inverse (radial_stretch m)) (radial (lapse_of Phi)) (radial_vector (fun _ => 0))
      (areal_K (fun _ => 0)) (e r) (stress_diag (p r) (p r)) X i j = 0.
  Proof.
    intros Hi Hj. destruct a_smooth as [A1 A2]. pose proof star_good as G.
    assert (DC : is_derive (fun _ : R => 0) (X 0%nat) 0) by (auto_derive; auto).
    unfold curvature_rate, HessianMixed, RicciMixed, trace3, sum3.
    rewrite !hess by lia. rewrite !(areal_K_partial (fun _ => 0) (fun _ => 0) X) by (assumption || lia).
    rewrite !(radial_vector_partial (fun _ => 0) (fun _ => 0)) by (assumption || lia).
    rewrite !(Ricci_closed (radial_stretch m) radial_stretch' (fun _ => Derive radial_stretch' r) X G A1 A2) by lia.
    pose proof stretch_rhs as SR. rewrite ARHS_pos in SR by exact Hr. destruct mass_of_stretch as [EM PA].
    unfold areal_inverse, areal_K, radial, radial_vector, stress_diag, delta. fold r. unfold closedG. fold r. rewrite SR.
    unfold lapse'', lapse', phi_rate. rewrite EM. set (a := radial_stretch m r) in *. clearbody a.
    set (al := lapse_of Phi r). clearbody al. clear EM SR.
    idx; cbn [Nat.eqb]; field; repeat split; try lra; try exact Hs.
  Qed.
  Lemma star_slicing : maximal_slicing (areal_metric (radial_stretch m)) (areal_inverse (radial_stretch m)) (radial (lapse_of Phi))
    (areal_K (fun _ => 0)) (e r) (3 * p r) X.
  Proof.
    unfold maximal_slicing, Laplacian, HessianMixed, square3, sum3. rewrite !hess by lia.
    pose proof stretch_rhs as SR. rewrite ARHS_pos in SR by exact Hr. destruct mass_of_stretch as [EM PA].
    unfold areal_inverse, areal_K, radial. unfold closedG. fold r. rewrite SR.
    unfold lapse'', lapse', phi_rate. rewrite EM. set (a := radial_stretch m r) in *. clearbody a.
    set (al := lapse_of Phi r). clearbody al. clear EM SR.
    cbn [Nat.eqb]; field; repeat split; try lra; try exact Hs.
  Qed.
  Lemma star_metric i j : (i < 3)%nat -> (j < 3)%nat ->
    metric_rate (areal_metric (radial_stretch m)) (radial (lapse_of Phi)) (radial_vector (fun _ => 0)) (areal_K (fun _ => 0)) X i j = 0.
  Proof.
    intros Hi Hj. assert (DC : is_derive (fun _ : R => 0) (X 0%nat) 0) by (auto_derive; auto).
    unfold metric_rate, sum3. rewrite !(radial_vector_partial (fun _ => 0) (fun _ => 0)) by (assumption || lia).
    unfold areal_K, radial_vector, radial. idx; cbn [Nat.eqb]; ring.
  Qed.
  Lemma star_static : static_einstein m Phi (e r) (p r) X.
  Proof.
    unfold static_einstein. cbv zeta.
    assert (C : hamiltonian_constraint (areal_metric (radial_stretch m)) (areal_inverse (radial_stretch m)) (areal_K (fun _ => 0)) (e r) X /\
                momentum_constraint (areal_metric (radial_stretch m)) (areal_inverse (radial_stretch m)) (areal_K (fun _ => 0)) (along_r 0) X).
    { apply (C32_constraints (radial_stretch m) radial_stretch' (fun _ => Derive radial_stretch' r) (fun _ => 0) (fun _ => 0) (e r) 0 X).
      - exact Hr.
      - exact Hs.
      - apply star_good.
      - exact a_smooth.
      - auto_derive; auto.
      - split; [exact stretch_rhs|]. fold r. rewrite KRHS_pos by exact Hr. field. lra. }
    split; [apply C|]. split; [apply C|]. split; [exact star_slicing|].
    intros i j Hi Hj. split; [apply star_metric | apply star_curvature]; assumption.
  Qed.
End Star.

(** the pressure and energy density in effect: zero below the threshold Pmin *)
Definition acting_pressure (Pmin P : R) : R := if Rlt_bool P Pmin then 0 else P.
Definition acting_energy (K Gamma Pmin P : R) : R :=
  let p := acting_pressure Pmin P in poly_rho p K Gamma * (1 + poly_eps p K Gamma).

(** Wherever mass, pressure and Phi follow the right-hand sides the code integrates, the star they describe is a static solution of
    Einstein's equations with the energy density rho (1 + eps) and the pressure handed to the metric solver, in the star and
    outside it (where the solution is vacuum). *)
Theorem C47_static_star (K Gamma Pmin : R) (m P Phi : R -> R) (X : vec) :
  let r := X 0%nat in let rhs x := TovRHS x {| t_m := m x; t_p := P x; t_phi := Phi x |} K Gamma Pmin in
  0 < K -> 1 < Gamma -> 0 < Pmin -> 0 < r -> sin (X 1%nat) <> 0 ->
  locally r (fun x => 2 * m x < x /\ is_derive m x (t_m (rhs x)) /\ is_derive Phi x (t_phi (rhs x))) ->
  is_derive P r (t_p (rhs r)) ->
  locally r (fun x => Pmin <= P x) \/ locally r (fun x => P x < Pmin) ->
  static_einstein m Phi (acting_energy K Gamma Pmin (P r)) (acting_pressure Pmin (P r)) X.
Proof.
  intros r rhs HK HG HPm Hr Hs HL HP Hcase.
  set (p := fun x => acting_pressure Pmin (P x)). set (e := fun x => acting_energy K Gamma Pmin (P x)).
  assert (XP : locally r (fun x => 0 < x)) by (apply open_gt; exact Hr).
  assert (Eq : forall x, 0 < x -> t_m (rhs x) = 4 * PI * x * x * e x /\ t_phi (rhs x) = phi_rate m p x).
  { intros x Hx. unfold rhs, TovRHS, GetMRHS, GetPhiRHS, e, acting_energy, phi_rate, p, acting_pressure. cbn [t_m t_p t_phi].
    rewrite Req_bool_false by lra. split; reflexivity. }
  apply (star_static m p e Phi X Hr Hs).
  - generalize (filter_and _ _ HL XP). apply filter_imp. intros x [(A & B & C) D]. split; [exact A|]. rewrite <- (proj1 (Eq x D)). exact B.
  - generalize (filter_and _ _ HL XP). apply filter_imp. intros x [(A & B & C) D]. rewrite <- (proj2 (Eq x D)). exact C.
  - destruct Hcase as [H|H].
    + pose proof (locally_singleton _ _ H) as H0. cbv beta in H0.
      apply (ex_derive_ext_loc (fun x => poly_rho (P x) K Gamma * (1 + poly_eps (P x) K Gamma))).
      { revert H. apply filter_imp. intros x Hx. unfold e, acting_energy, acting_pressure. rewrite Rlt_bool_false by exact Hx. reflexivity. }
      assert (E1 : ex_derive (fun x => poly_rho (P x) K Gamma) r).
      { eexists. apply (is_derive_comp (fun q => poly_rho q K Gamma) P); [apply rho_derive; lra | exact HP]. }
      assert (E2 : ex_derive (fun x => poly_eps (P x) K Gamma) r).
      { eexists. apply (is_derive_comp (fun q => poly_eps q K Gamma) P); [apply eps_derive; lra | exact HP]. }
      apply (ex_derive_mult (fun x => poly_rho (P x) K Gamma) (fun x => 1 + poly_eps (P x) K Gamma)); [exact E1|].
      apply (ex_derive_plus (K := R_AbsRing) (V := R_NormedModule) (fun _ => 1) (fun x => poly_eps (P x) K Gamma)); [apply ex_derive_const | exact E2].
    + apply (ex_derive_ext_loc (fun _ => acting_energy K Gamma Pmin 0)).
      { revert H. apply filter_imp. intros x Hx. unfold e, acting_energy, acting_pressure. rewrite !Rlt_bool_true by assumption. reflexivity. }
      apply ex_derive_const.
  - fold r. destruct Hcase as [H|H].
    + apply (is_derive_ext_loc P).
      { revert H. apply filter_imp. intros x Hx. unfold p, acting_pressure. rewrite Rlt_bool_false by exact Hx. reflexivity. }
      replace (- (e r + p r) * phi_rate m p r) with (t_p (rhs r)); [exact HP|].
      pose proof (locally_singleton _ _ H) as H0. cbv beta in H0.
      unfold rhs, TovRHS, GetPRHS. cbn [t_m t_p t_phi].
      unfold e, p, acting_energy, phi_rate, acting_pressure, GetPhiRHS. rewrite !(Rlt_bool_false (P r)) by exact H0. rewrite Req_bool_false by lra.
      reflexivity.
    + pose proof (locally_singleton _ _ H) as H0. cbv beta in H0.
      assert (Z : p r = 0) by (unfold p, acting_pressure; rewrite Rlt_bool_true by exact H0; reflexivity).
      assert (Z2 : e r = 0).
      { unfold e, acting_energy. change (acting_pressure Pmin (P r)) with (p r). rewrite Z.
        destruct (C47_thermo 0 K Gamma HK HG) as (_ & -> & _). ring. }
      rewrite Z, Z2. replace (- (0 + 0) * phi_rate m p r) with 0 by ring.
      apply (is_derive_ext_loc (fun _ => 0)).
      { revert H. apply filter_imp. intros x Hx. unfold p, acting_pressure. rewrite Rlt_bool_true by exact Hx. reflexivity. }
      auto_derive; auto.
Qed.
Print Assumptions C47_static_star.

Lemma integral_derive (f : R -> R) (r0 : R) :
  locally r0 (fun x => continuous f x) -> locally r0 (fun x => is_derive (fun y => RInt f r0 y) x (f x)).
Proof.
  intros [eps H]. exists eps. intros x Bx. apply (is_derive_RInt f (fun y => RInt f r0 y) r0 x); [|apply H; exact Bx].
  assert (L : locally x (fun y => ball r0 eps y)).
  { apply (locally_open (fun y => ball r0 eps y)); auto.
    intros z Hz. unfold ball in *. cbn in *. unfold AbsRing_ball, abs, minus, plus, opp in *. cbn in *.
    assert (D : 0 < eps - Rabs (z + - r0)) by lra. exists (mkposreal _ D). intros y Hy. unfold ball in Hy. cbn in Hy.
    unfold AbsRing_ball, abs, minus, plus, opp in Hy. cbn in Hy.
    replace (y + - r0) with ((y + - z) + (z + - r0)) by ring. apply Rle_lt_trans with (1 := Rabs_triang _ _). lra. }
  revert L. apply filter_imp. intros y By. apply (RInt_correct (V := R_CompleteNormedModule)).
  apply (ex_RInt_continuous (V := R_CompleteNormedModule)). intros z Hz. apply H.
  unfold ball in *. cbn in *. unfold AbsRing_ball, abs, minus, plus, opp in *. cbn in *.
  unfold Rmin, Rmax in Hz. destruct (Rle_dec r0 y) as [A|A].
  - rewrite Rabs_right in By by lra. apply Rabs_lt_between'. lra.
  - rewrite Rabs_left in By by lra. apply Rabs_lt_between'. lra.
Qed.

(** the hypotheses of [C47_static_star] can be met inside a star with any mass, radius and pressure *)
Theorem C47_static_star_nonvacuous (K Gamma Pmin r0 m0 P0 : R) (X : vec) :
  X 0%nat = r0 -> 0 < K -> 1 < Gamma -> 0 < Pmin -> 0 < r0 -> 2 * m0 < r0 -> Pmin < P0 ->
  exists m P Phi : R -> R,
    let rhs x := TovRHS x {| t_m := m x; t_p := P x; t_phi := Phi x |} K Gamma Pmin in
    m r0 = m0 /\ P r0 = P0 /\ 0 < acting_energy K Gamma Pmin P0 /\
    locally r0 (fun x => 2 * m x < x /\ is_derive m x (t_m (rhs x)) /\ is_derive Phi x (t_phi (rhs x))) /\
    is_derive P r0 (t_p (rhs r0)) /\ locally r0 (fun x => Pmin <= P x).
Proof.
  intros EX HK HG HPm Hr Hm HP.
  set (s := t_p (TovRHS r0 {| t_m := m0; t_p := P0; t_phi := 0 |} K Gamma Pmin)).
  set (P := fun x => P0 + s * (x - r0)).
  set (f := fun x => 4 * PI * x * x * acting_energy K Gamma Pmin (P x)).
  set (m := fun x => m0 + RInt f r0 x).
  set (g := fun x => GetPhiRHS x (m x) (acting_pressure Pmin (P x))).
  set (Phi := fun x => RInt g r0 x).
  assert (EP : P r0 = P0) by (unfold P; ring).
  assert (Em : m r0 = m0) by (unfold m; rewrite RInt_point; unfold zero; cbn; ring).
  assert (DP : forall x, is_derive P x s) by (intros x; unfold P; auto_derive; [exact I | ring]).
  assert (CP : forall x, continuous P x) by (intros x; apply (ex_derive_continuous P); eexists; apply DP).
  assert (LP : locally r0 (fun x => Pmin < P x)).
  { apply (CP r0). apply open_gt. rewrite EP. exact HP. }
  assert (LPP : locally r0 (fun x => locally x (fun y => Pmin < P y))) by (apply locally_locally; exact LP).
  assert (LX : locally r0 (fun x => locally x (fun y => 0 < y))) by (apply locally_locally, open_gt; exact Hr).
  assert (Cf : locally r0 (fun x => continuous f x)).
  { revert LPP. apply filter_imp. intros x Hx. apply (ex_derive_continuous f).
    pose proof (locally_singleton _ _ Hx) as H0. cbv beta in H0.
    apply (ex_derive_ext_loc (fun x => 4 * PI * x * x * (poly_rho (P x) K Gamma * (1 + poly_eps (P x) K Gamma)))).
    { revert Hx. apply filter_imp. intros y Hy. unfold f, acting_energy, acting_pressure. rewrite Rlt_bool_false by lra. reflexivity. }
    assert (E1 : ex_derive (fun x => poly_rho (P x) K Gamma) x).
    { eexists. apply (is_derive_comp (fun q => poly_rho q K Gamma) P); [apply rho_derive; lra | apply DP]. }
    assert (E2 : ex_derive (fun x => poly_eps (P x) K Gamma) x).
    { eexists. apply (is_derive_comp (fun q => poly_eps q K Gamma) P); [apply eps_derive; lra | apply DP]. }
    apply (ex_derive_mult (fun x => 4 * PI * x * x)); [auto_derive; exact I|].
    apply (ex_derive_mult (fun x => poly_rho (P x) K Gamma) (fun x => 1 + poly_eps (P x) K Gamma)); [exact E1|].
    apply (ex_derive_plus (K := R_AbsRing) (V := R_NormedModule) (fun _ => 1) (fun x => poly_eps (P x) K Gamma)); [apply ex_derive_const | exact E2]. }
  assert (Dm : locally r0 (fun x => is_derive m x (f x))).
  { generalize (integral_derive f r0 Cf). apply filter_imp. intros x D. unfold m.
    replace (f x) with (0 + f x) by ring. apply (is_derive_plus (K := R_AbsRing) (V := R_NormedModule) (fun _ => m0) (fun y => RInt f r0 y) x 0 (f x)); [|exact D].
    auto_derive; auto. }
  assert (Cm : locally r0 (fun x => continuous m x)).
  { revert Dm. apply filter_imp. intros x D. apply (ex_derive_continuous m). eexists. exact D. }
  assert (Lin : locally r0 (fun x => 2 * m x < x)).
  { assert (C : continuous (fun x => x - 2 * m x) r0).
    { apply (ex_derive_continuous (fun x => x - 2 * m x)).
      assert (ex_derive (fun x => m x) r0) by (eexists; apply (locally_singleton _ _ Dm)). auto_derive. auto. }
    assert (L : locally r0 (fun x => 0 < x - 2 * m x)).
    { apply C. apply open_gt. rewrite Em. lra. }
    revert L. apply filter_imp. intros x Hx. lra. }
  assert (Cg : locally r0 (fun x => continuous g x)).
  { assert (Dm2 : locally r0 (fun x => ex_derive m x)) by (revert Dm; apply filter_imp; intros x D; eexists; exact D).
    generalize (filter_and _ _ (filter_and _ _ LPP LX) (filter_and _ _ Lin Dm2)). apply filter_imp. intros x [[A B] [C D]].
    apply (ex_derive_continuous g).
    pose proof (locally_singleton _ _ A) as A0. pose proof (locally_singleton _ _ B) as B0. cbv beta in A0, B0.
    apply (ex_derive_ext_loc (fun x => (m x + 4 * PI * x * x * x * P x) / (x * (x - 2 * m x)))).
    { generalize (filter_and _ _ A B). apply filter_imp. intros y [A1 B1]. unfold g, GetPhiRHS, acting_pressure.
      rewrite Rlt_bool_false by lra. rewrite Req_bool_false by lra. reflexivity. }
    assert (DPx : ex_derive (fun x => P x) x) by (eexists; apply DP).
    assert (Dmx : ex_derive (fun x => m x) x) by exact D.
    assert (N : x * (x - 2 * m x) <> 0) by (apply Rgt_not_eq, Rmult_lt_0_compat; lra).
    auto_derive. repeat split; auto. }
  assert (DPhi : locally r0 (fun x => is_derive Phi x (g x))) by (apply (integral_derive g r0 Cg)).
  exists m, P, Phi. cbv zeta. split; [exact Em|]. split; [exact EP|]. split.
  { unfold acting_energy, acting_pressure. rewrite Rlt_bool_false by lra.
    destruct (C47_thermo P0 K Gamma HK HG) as ((R1 & R2 & _) & _); [lra|]. apply Rmult_lt_0_compat; lra. }
  split.
  { generalize (filter_and _ _ Lin (filter_and _ _ Dm DPhi)). apply filter_imp. intros x (A & B & C). split; [exact A|]. split; [exact B | exact C]. }
  split.
  { rewrite EP, Em. exact (DP r0). }
  revert LP. apply filter_imp. intros x Hx. lra.
Qed.
(** outside the star: Schwarzschild *)
Example C47_static_star_outside : exists m P Phi : R -> R,
  let rhs x := TovRHS x {| t_m := m x; t_p := P x; t_phi := Phi x |} 1 2 1 in
  m 4 = 1 /\ locally 4 (fun x => 2 * m x < x /\ is_derive m x (t_m (rhs x)) /\ is_derive Phi x (t_phi (rhs x))) /\
  is_derive P 4 (t_p (rhs 4)) /\ locally 4 (fun x => P x < 1).
Proof.
  exists (fun _ => 1), (fun _ => 0), (fun x => / 2 * ln (1 - 2 * 1 / x)). cbv zeta.
  destruct (C47_thermo 0 1 2 ltac:(lra) ltac:(lra)) as (_ & Z1 & Z2).
  unfold TovRHS, GetMRHS, GetPRHS, GetPhiRHS. cbn [t_m t_p t_phi]. rewrite !Rlt_bool_true by lra. rewrite Z1, Z2.
  split; [reflexivity|]. split.
  - assert (L : locally 4 (fun x : R => 2 < x)) by (apply open_gt; lra). revert L. apply filter_imp. intros x Hx.
    split; [lra|]. split; [auto_derive; [exact I | ring]|]. rewrite Req_bool_false by lra.
    assert (Q : 0 < 1 + - (2 * 1 * / x)).
    { replace (1 + - (2 * 1 * / x)) with ((x - 2) / x) by (field; lra). apply Rdiv_lt_0_compat; lra. }
    auto_derive; [split; [lra|]; split; [exact Q | exact I]|].
    field. split; lra.
  - split; [auto_derive; auto | apply filter_forall; intros; lra].
Qed.

(** ** The integrated profile *)
Lemma acting_energy_nonneg K Gamma Pmin P : 0 < K -> 1 < Gamma -> 0 <= acting_energy K Gamma Pmin P.
Proof.
  intros HK HG. unfold acting_energy. pose proof (poly_rho_nonneg (acting_pressure Pmin P) K Gamma).
  pose proof (poly_eps_nonneg (acting_pressure Pmin P) K Gamma HK HG). apply Rmult_le_pos; lra.
Qed.
Lemma rhs_m r s K Gamma Pmin : t_m (TovRHS r s K Gamma Pmin) = 4 * PI * (r * r) * acting_energy K Gamma Pmin (t_p s).
Proof. unfold TovRHS, GetMRHS, acting_energy, acting_pressure. cbn [t_m]. ring. Qed.
Lemma rhs_m_nonneg r s K Gamma Pmin : 0 < K -> 1 < Gamma -> 0 <= t_m (TovRHS r s K Gamma Pmin).
Proof.
  intros HK HG. rewrite rhs_m. pose proof PI_RGT_0. pose proof (Rle_0_sqr r) as Q. unfold Rsqr in Q.
  apply Rmult_le_pos; [|apply acting_energy_nonneg; assumption]. apply Rmult_le_pos; lra.
Qed.
Lemma rhs_vacuum r s K Gamma Pmin : 0 < K -> 1 < Gamma -> 0 < Pmin -> t_p s < Pmin ->
  TovRHS r s K Gamma Pmin = {| t_m := 0; t_p := 0; t_phi := GetPhiRHS r (t_m s) 0 |}.
Proof.
  intros HK HG HP H. destruct (C47_thermo 0 K Gamma HK HG) as (_ & Z1 & Z2).
  unfold TovRHS, GetMRHS, GetPRHS. rewrite !(Rlt_bool_true _ _ H). rewrite Z1, Z2. rewrite Rlt_bool_true by exact HP. f_equal; ring.
Qed.
Lemma phi_rhs_nonneg r m P : r = 0 \/ (0 < r /\ 2 * m < r) -> 0 <= m -> 0 <= P -> 0 <= GetPhiRHS r m P.
Proof.
  intros H Hm HP. unfold GetPhiRHS. destruct H as [-> | [Hr H]]; [rewrite Req_bool_true by reflexivity; lra|].
  rewrite Req_bool_false by lra. pose proof PI_RGT_0. assert (0 <= r * r * r) by (left; repeat apply Rmult_lt_0_compat; exact Hr).
  apply Rmult_le_pos.
  - assert (0 <= 4 * PI * r * r * r * P). { replace (4 * PI * r * r * r * P) with (4 * PI * (r * r * r) * P) by ring. apply Rmult_le_pos; [|exact HP]. apply Rmult_le_pos; lra. } lra.
  - left. apply Rinv_0_lt_compat. apply Rmult_lt_0_compat; lra.
Qed.
Lemma rhs_signs r s K Gamma Pmin : 0 < K -> 1 < Gamma -> 0 < Pmin -> r = 0 \/ (0 < r /\ 2 * t_m s < r) -> 0 <= t_m s ->
  t_p (TovRHS r s K Gamma Pmin) <= 0 <= t_phi (TovRHS r s K Gamma Pmin).
Proof.
  intros HK HG HP Hr Hm.
  assert (A : 0 <= acting_pressure Pmin (t_p s)) by (unfold acting_pressure; destruct (Rlt_bool_spec (t_p s) Pmin); lra).
  pose proof (phi_rhs_nonneg r (t_m s) (acting_pressure Pmin (t_p s)) Hr Hm A) as F.
  pose proof (acting_energy_nonneg K Gamma Pmin (t_p s) HK HG) as E.
  unfold TovRHS, GetPRHS. cbn [t_p t_phi]. fold (acting_pressure Pmin (t_p s)). fold (acting_energy K Gamma Pmin (t_p s)).
  split; [|exact F]. destruct (Rlt_bool_spec (acting_pressure Pmin (t_p s)) Pmin) as [C|C]; [lra|].
  assert (0 <= (acting_energy K Gamma Pmin (t_p s) + acting_pressure Pmin (t_p s)) * GetPhiRHS r (t_m s) (acting_pressure Pmin (t_p s)))
    by (apply Rmult_le_pos; lra). lra.
Qed.

(** the half step of the integrator *)
Definition half_step (G : Grid) (K Gamma Pmin pc alpha0 : R) (i : nat) : TovState :=
  let s := tov_state G K Gamma Pmin pc alpha0 i in tov_axpy s (g_dx G / 2) (TovRHS (grid_x G i) s K Gamma Pmin).
Lemma half_eq G K Gamma Pmin pc alpha0 i :
  tov_state G K Gamma Pmin pc alpha0 (S i) =
  tov_axpy (tov_state G K Gamma Pmin pc alpha0 i) (g_dx G) (TovRHS (grid_x G i) (half_step G K Gamma Pmin pc alpha0 i) K Gamma Pmin).
Proof. cbn [tov_state]. unfold tov_step, half_step. replace (/ 2 * g_dx G) with (g_dx G / 2) by (unfold Rdiv; ring). reflexivity. Qed.

(** The mass is zero at the first point, never decreases, and grows by the energy density of the half step
    times the shell 4 pi r^2 dr. *)
Theorem C47_mass (G : Grid) (K Gamma Pmin pc alpha0 : R) :
  0 < K -> 1 < Gamma -> 0 <= g_dx G ->
  let s := tov_state G K Gamma Pmin pc alpha0 in
  t_m (s 0%nat) = 0 /\ t_p (s 0%nat) = pc /\ t_phi (s 0%nat) = ln alpha0 /\
  (forall i, 0 <= t_m (s i) <= t_m (s (S i))) /\
  (forall n, t_m (s n) = sum_n n (fun i => 4 * PI * (grid_x G i * grid_x G i) * g_dx G *
                                           acting_energy K Gamma Pmin (t_p (half_step G K Gamma Pmin pc alpha0 i)))).
Proof.
  intros HK HG Hd s. split; [reflexivity|]. split; [reflexivity|]. split; [reflexivity|].
  assert (St : forall i, t_m (s i) <= t_m (s (S i))).
  { intros i. unfold s. rewrite half_eq. cbn [tov_axpy t_m]. 
    assert (0 <= g_dx G * t_m (TovRHS (grid_x G i) (half_step G K Gamma Pmin pc alpha0 i) K Gamma Pmin))
      by (apply Rmult_le_pos; [exact Hd | apply rhs_m_nonneg; assumption]). lra. }
  split.
  - intros i. split; [|apply St]. induction i as [|i IH]; [cbn; lra|]. pose proof (St i). lra.
  - intros n. induction n as [|n IH]; [reflexivity|]. cbn [sum_n]. rewrite <- IH. unfold s. rewrite half_eq. cbn [tov_axpy t_m].
    rewrite rhs_m. ring.
Qed.
Print Assumptions C47_mass.

(** no trapped surface at a grid point, in either stage *)
Definition untrapped (G : Grid) (K Gamma Pmin pc alpha0 : R) (i : nat) : Prop :=
  grid_x G i = 0 \/ (0 < grid_x G i /\ 2 * t_m (half_step G K Gamma Pmin pc alpha0 i) < grid_x G i).

(** As long as r > 2 m the pressure never rises and Phi never falls; where the half step is still inside the star and r > 0
    the pressure falls strictly. *)
Theorem C47_profile (G : Grid) (K Gamma Pmin pc alpha0 : R) (i : nat) :
  0 < K -> 1 < Gamma -> 0 < Pmin -> 0 < g_dx G ->
  untrapped G K Gamma Pmin pc alpha0 i ->
  let s := tov_state G K Gamma Pmin pc alpha0 in
  t_p (s (S i)) <= t_p (s i) /\ t_phi (s i) <= t_phi (s (S i)) /\
  (0 < grid_x G i -> Pmin <= t_p (half_step G K Gamma Pmin pc alpha0 i) -> t_p (s (S i)) < t_p (s i) /\ t_phi (s i) < t_phi (s (S i))).
Proof.
  intros HK HG HP Hd U s.
  destruct (C47_mass G K Gamma Pmin pc alpha0 HK HG ltac:(lra)) as (_ & _ & _ & Mo & _). specialize (Mo i).
  assert (Hh : 0 <= t_m (half_step G K Gamma Pmin pc alpha0 i)).
  { unfold half_step. cbn [tov_axpy t_m]. set (st := tov_state G K Gamma Pmin pc alpha0 i) in *.
    assert (0 <= g_dx G / 2 * t_m (TovRHS (grid_x G i) st K Gamma Pmin)) by (apply Rmult_le_pos; [lra | apply rhs_m_nonneg; assumption]). lra. }
  pose proof (rhs_signs (grid_x G i) (half_step G K Gamma Pmin pc alpha0 i) K Gamma Pmin HK HG HP U Hh) as [A B].
  unfold untrapped in U. unfold s. rewrite half_eq. set (h := half_step G K Gamma Pmin pc alpha0 i) in *. cbn [tov_axpy t_p t_phi].
  assert (A' : g_dx G * t_p (TovRHS (grid_x G i) h K Gamma Pmin) <= 0) by (rewrite <- (Rmult_0_r (g_dx G)); apply Rmult_le_compat_l; lra).
  assert (B' : 0 <= g_dx G * t_phi (TovRHS (grid_x G i) h K Gamma Pmin)) by (apply Rmult_le_pos; lra).
  split; [lra|]. split; [lra|]. intros Hr Hin.
  assert (F : 0 < GetPhiRHS (grid_x G i) (t_m h) (t_p h)).
  { unfold GetPhiRHS. rewrite Req_bool_false by lra. destruct U as [U|[_ U]]; [lra|]. pose proof PI_RGT_0.
    apply Rdiv_lt_0_compat; [|apply Rmult_lt_0_compat; lra].
    assert (0 < 4 * PI * grid_x G i * grid_x G i * grid_x G i * t_p h) by (repeat (apply Rmult_lt_0_compat; [|lra]); lra). lra. }
  unfold TovRHS, GetPRHS. cbn [t_p t_phi]. rewrite !(Rlt_bool_false _ _ Hin).
  pose proof (poly_rho_nonneg (t_p h) K Gamma) as R1. pose proof (poly_eps_nonneg (t_p h) K Gamma HK HG) as R2.
  assert (E : 0 <= poly_rho (t_p h) K Gamma * (1 + poly_eps (t_p h) K Gamma)) by (apply Rmult_le_pos; lra).
  assert (Z : 0 < g_dx G * ((poly_rho (t_p h) K Gamma * (1 + poly_eps (t_p h) K Gamma) + t_p h) * GetPhiRHS (grid_x G i) (t_m h) (t_p h)))
    by (apply Rmult_lt_0_compat; [exact Hd|]; apply Rmult_lt_0_compat; lra).
  assert (Z2 : 0 < g_dx G * GetPhiRHS (grid_x G i) (t_m h) (t_p h)) by (apply Rmult_lt_0_compat; lra).
  split; lra.
Qed.
Print Assumptions C47_profile.

(** the sources of grid point i *)
Theorem C47_matter (G : Grid) (K Gamma Pmin pc alpha0 : R) (i : nat) :
  0 < K -> 1 < Gamma -> 0 < Pmin ->
  let P := t_p (tov_state G K Gamma Pmin pc alpha0 i) in let M := tov_matter G K Gamma Pmin pc alpha0 in
  let rho0 := tov_rho0 G K Gamma Pmin pc alpha0 i in let eps := tov_eps G K Gamma Pmin pc alpha0 i in
  m_j M i = 0 /\ m_trcS M i = 3 * m_Srr M i /\ m_rho M i = rho0 * (1 + eps) /\ m_Srr M i = ideal_pressure Gamma rho0 eps /\
  0 <= 3 * 0 * 0 + 8 * PI * (m_trcS M i + m_rho M i) /\
  (P <= 11 / 10 * Pmin -> m_rho M i = 0 /\ m_Srr M i = 0 /\ rho0 = 0 /\ eps = 0) /\
  (11 / 10 * Pmin < P -> m_Srr M i = P /\ m_rho M i = acting_energy K Gamma Pmin P /\ 0 < rho0 /\ 0 < eps).
Proof.
  intros HK HG HP P M rho0 eps. unfold M, rho0, eps, tov_matter, tov_rho0, tov_eps, tov_intrinsic. cbn [m_j m_trcS m_rho m_Srr]. fold P.
  pose proof PI_RGT_0. destruct (Rle_bool_spec P (11 / 10 * Pmin)) as [C|C].
  - split; [reflexivity|]. split; [ring|]. split; [reflexivity|]. split; [unfold ideal_pressure; ring|]. split; [lra|]. split; [intros _; repeat split; ring|]. intros; lra.
  - destruct (C47_thermo P K Gamma HK HG) as ((R1 & R2 & R3 & _) & _); [lra|].
    split; [reflexivity|]. split; [ring|]. split; [reflexivity|]. split; [exact R3|].
    split. { assert (0 < poly_rho P K Gamma * (1 + poly_eps P K Gamma)) by (apply Rmult_lt_0_compat; lra).
             replace (3 * 0 * 0) with 0 by ring. rewrite Rplus_0_l. apply Rmult_le_pos; lra. }
    split; [intros; lra|]. intros _. split; [reflexivity|]. split; [|split; assumption].
    unfold acting_energy, acting_pressure. rewrite Rlt_bool_false by lra. reflexivity.
Qed.
Print Assumptions C47_matter.

(** Once the pressure is below the threshold nothing but Phi changes any more: the mass is the star's mass, the
    pressure stays where it is, the sources vanish, and Phi follows m/(r (r - 2 m)). *)
Theorem C47_surface (G : Grid) (K Gamma Pmin pc alpha0 : R) (i j : nat) :
  0 < K -> 1 < Gamma -> 0 < Pmin -> (i <= j)%nat ->
  let s := tov_state G K Gamma Pmin pc alpha0 in let M := tov_matter G K Gamma Pmin pc alpha0 in
  t_p (s i) < Pmin ->
  t_m (s j) = t_m (s i) /\ t_p (s j) = t_p (s i) /\
  m_rho M j = 0 /\ m_Srr M j = 0 /\ m_trcS M j = 0 /\ m_j M j = 0 /\
  (grid_x G j <> 0 -> t_phi (s (S j)) = t_phi (s j) + g_dx G * (t_m (s i) / (grid_x G j * (grid_x G j - 2 * t_m (s i))))).
Proof.
  intros HK HG HP Hij s M Hs.
  assert (St : forall k, t_p (s k) < Pmin -> s (S k) = {| t_m := t_m (s k); t_p := t_p (s k);
                t_phi := t_phi (s k) + g_dx G * GetPhiRHS (grid_x G k) (t_m (s k)) 0 |}).
  { intros k Hk. unfold s in *. rewrite half_eq. set (st := tov_state G K Gamma Pmin pc alpha0 k) in *.
    assert (Eh : half_step G K Gamma Pmin pc alpha0 k =
                 {| t_m := t_m st; t_p := t_p st; t_phi := t_phi st + g_dx G / 2 * GetPhiRHS (grid_x G k) (t_m st) 0 |}).
    { unfold half_step. fold st. rewrite rhs_vacuum by assumption. unfold tov_axpy. cbn [t_m t_p t_phi]. f_equal; ring. }
    rewrite Eh. rewrite rhs_vacuum by assumption. unfold tov_axpy. cbn [t_m t_p t_phi]. f_equal; ring. }
  assert (Fz : t_m (s j) = t_m (s i) /\ t_p (s j) = t_p (s i)).
  { induction Hij as [|j Hij IH]; [split; reflexivity|]. destruct IH as [E1 E2].
    rewrite St by (rewrite E2; exact Hs). cbn [t_m t_p]. split; assumption. }
  destruct Fz as [E1 E2]. split; [exact E1|]. split; [exact E2|].
  destruct (C47_matter G K Gamma Pmin pc alpha0 j HK HG HP) as (A1 & A2 & _ & _ & _ & A3 & _). fold s M in A1, A2, A3.
  destruct A3 as (B1 & B2 & _); [rewrite E2; lra|].
  split; [exact B1|]. split; [exact B2|]. split; [rewrite A2, B2; ring|]. split; [exact A1|].
  intros Hr. rewrite St by (rewrite E2; exact Hs). cbn [t_phi]. rewrite E1. unfold GetPhiRHS. rewrite Req_bool_false by exact Hr.
  do 2 f_equal. f_equal. ring.
Qed.
Print Assumptions C47_surface.

(** a shell in which the pressure falls below the threshold within one step: every hypothesis above is met *)
Definition shell_grid : Grid := {| g_min := 1; g_dx := / 250; g_n := 10 |}.
Example C47_profile_nonvacuous :
  let s := tov_state shell_grid 1 2 (9 / 10) 1 1 in
  untrapped shell_grid 1 2 (9 / 10) 1 1 0 /\ 9 / 10 <= t_p (half_step shell_grid 1 2 (9 / 10) 1 1 0) /\
  t_p (s 1%nat) < 9 / 10 /\ 0 < t_m (s 1%nat).
Proof.
  pose proof PI_RGT_0 as P0. pose proof PI_4 as P4. pose proof PI2_3_2 as P3. cbv zeta.
  assert (X0 : grid_x shell_grid 0 = 1) by (unfold grid_x; cbn; ring).
  assert (T1 : poly_rho 1 1 2 = 1 /\ poly_eps 1 1 2 = 1).
  { unfold poly_rho, poly_eps. rewrite !cpow_pos by lra. replace (1 / 1) with 1 by field. unfold Rpower. rewrite ln_1, !Rmult_0_r, exp_0. split; field. }
  destruct T1 as [T1 T2].
  assert (H : half_step shell_grid 1 2 (9 / 10) 1 1 0 = {| t_m := 4 * PI / 250; t_p := 1 - 6 * PI / 250; t_phi := ln 1 + 2 * PI / 250 |}).
  { unfold half_step, tov_axpy, TovRHS, GetMRHS, GetPRHS, GetPhiRHS. rewrite X0. cbn [tov_state t_m t_p t_phi shell_grid g_dx].
    rewrite !Rlt_bool_false by lra. rewrite T1, T2. rewrite !Req_bool_false by lra. f_equal; field. }
  assert (U : untrapped shell_grid 1 2 (9 / 10) 1 1 0) by (right; rewrite X0, H; cbn [t_m]; lra).
  split; [exact U|]. rewrite H. cbn [t_p]. split; [lra|].
  rewrite half_eq, H, X0. cbn [tov_state]. unfold tov_axpy, TovRHS, GetMRHS, GetPRHS, GetPhiRHS. cbn [t_m t_p t_phi shell_grid g_dx].
  rewrite !(Rlt_bool_false (1 - 6 * PI / 250) (9 / 10)) by lra. rewrite Req_bool_false by lra.
  set (h := 1 - 6 * PI / 250) in *. assert (Hh : 9 / 10 <= h <= 1) by (unfold h; lra).
  set (mh := 4 * PI / 250) in *. assert (Hm : 0 < mh < 64 / 1000 + / 1000) by (unfold mh; lra).
  assert (SQ : h <= sqrt h).
  { rewrite <- (sqrt_Rsqr h) at 1 by lra. apply sqrt_le_1_alt. unfold Rsqr. nra. }
  assert (R1 : poly_rho h 1 2 = sqrt h).
  { unfold poly_rho. rewrite cpow_pos by lra. rewrite <- Rpower_sqrt by lra. f_equal; field. }
  assert (R2 : poly_eps h 1 2 = sqrt h).
  { unfold poly_eps. rewrite cpow_pos by lra. rewrite <- Rpower_sqrt by lra. replace ((2 - 1) / 2) with (/ 2) by field. replace (h / 1) with h by field. field. }
  rewrite R1, R2. set (q := sqrt h) in *.
  assert (E : 171 / 100 <= q * (1 + q)) by nra.
  assert (F : 54 / 5 <= (mh + 4 * PI * 1 * 1 * 1 * h) / (1 * (1 - 2 * mh))).
  { apply (Rmult_le_reg_r (1 * (1 - 2 * mh))); [lra|]. unfold Rdiv at 2. rewrite Rmult_assoc, Rinv_l by lra. nra. }
  set (f := (mh + 4 * PI * 1 * 1 * 1 * h) / (1 * (1 - 2 * mh))) in *. clearbody f.
  split; [nra|]. rewrite Rplus_0_l. apply Rmult_lt_0_compat; [lra|]. apply Rmult_lt_0_compat; nra.
Qed.

(** ** The first step from the centre does nothing *)
Theorem C47_centre (G : Grid) (K Gamma Pmin pc alpha0 : R) :
  g_min G = 0 -> tov_state G K Gamma Pmin pc alpha0 1 = {| t_m := 0; t_p := pc; t_phi := ln alpha0 |}.
Proof.
  intros H. cbn [tov_state]. unfold tov_step, grid_x. rewrite H. cbn [INR]. replace (0 * g_dx G + 0) with 0 by ring.
  unfold tov_axpy, TovRHS, GetMRHS, GetPRHS, GetPhiRHS. cbn [t_m t_p t_phi]. rewrite !(Req_bool_true 0 0) by reflexivity.
  f_equal; try ring. destruct (Rlt_bool (if Rlt_bool _ Pmin then 0 else _) Pmin); ring.
Qed.
Print Assumptions C47_centre.

(** ** Order of accuracy *)
Lemma ln_le_sub x : 0 < x -> ln x <= x - 1.
Proof.
  intros H. assert (E : 1 + ln x <= exp (ln x)) by apply exp_ineq1_le. rewrite exp_ln in E by exact H. lra.
Qed.
Lemma ln_step (m r h : R) : 0 <= m -> 2 * m < r -> 0 < h -> 0 < r ->
  / 2 * ln (1 - 2 * m / (r + h)) - / 2 * ln (1 - 2 * m / r) + m * h * (1 / r - 1 / (r + h)) / (r - 2 * m) <= h * (m / (r * (r - 2 * m))).
Proof.
  intros Hm Hr Hh Hp.
  assert (A : 0 < 1 - 2 * m / r) by (replace (1 - 2 * m / r) with ((r - 2 * m) / r) by (field; lra); apply Rdiv_lt_0_compat; lra).
  assert (B : 0 < 1 - 2 * m / (r + h)) by (replace (1 - 2 * m / (r + h)) with ((r + h - 2 * m) / (r + h)) by (field; lra); apply Rdiv_lt_0_compat; lra).
  assert (D : ln (1 - 2 * m / (r + h)) - ln (1 - 2 * m / r) <= 2 * m * h / ((r + h) * (r - 2 * m))).
  { rewrite <- ln_div by assumption. apply Rle_trans with ((1 - 2 * m / (r + h)) / (1 - 2 * m / r) - 1).
    - apply ln_le_sub. apply Rdiv_lt_0_compat; assumption.
    - right. field. repeat split; lra. }
  replace (m * h * (1 / r - 1 / (r + h)) / (r - 2 * m)) with (h * (m / (r * (r - 2 * m))) - / 2 * (2 * m * h / ((r + h) * (r - 2 * m)))) by (field; repeat split; lra).
  lra.
Qed.

(** Both stages of a step use the left radius, so the scheme is not the midpoint rule.  Outside the star the exact
    solution is Phi = const + ln(1 - 2m/r)/2; the Phi the code arrives at on the last of the points i .. j is too large by at least
    (m h/r_j) (1/r_i - 1/r_j): the error is of first order in the spacing h. *)
Theorem C47_order_refuted (G : Grid) (K Gamma Pmin pc alpha0 : R) (i j : nat) :
  0 < K -> 1 < Gamma -> 0 < Pmin -> (i <= j)%nat -> 0 < g_dx G ->
  let s := tov_state G K Gamma Pmin pc alpha0 in let m := t_m (s i) in let h := g_dx G in
  t_p (s i) < Pmin -> 0 < grid_x G i -> 2 * m < grid_x G i ->
  let exact x := t_phi (s i) + (/ 2 * ln (1 - 2 * m / x) - / 2 * ln (1 - 2 * m / grid_x G i)) in
  m * h / grid_x G j * (1 / grid_x G i - 1 / grid_x G j) <= t_phi (s j) - exact (grid_x G j).
Proof.
  intros HK HG HP Hij Hd s m h Hs Hr Hm exact.
  assert (M0 : 0 <= m).
  { destruct (C47_mass G K Gamma Pmin pc alpha0 HK HG ltac:(lra)) as (_ & _ & _ & Mo & _). apply (Mo i). }
  assert (NX : forall k, grid_x G (S k) = grid_x G k + h) by (intros k; unfold grid_x, h; rewrite S_INR; ring).
  assert (GE : forall k, (i <= k)%nat -> grid_x G i <= grid_x G k).
  { intros k Hk. induction Hk as [|k Hk IH]; [lra|]. rewrite NX. unfold h. lra. }
  assert (Q : m * h / grid_x G j * (1 / grid_x G i - 1 / grid_x G j) <= t_phi (s j) - exact (grid_x G j) /\ 0 <= 1 / grid_x G i - 1 / grid_x G j).
  { induction Hij as [|j Hij IH].
    - unfold exact. split; [|lra]. right. rewrite (Rminus_diag_eq (1 / grid_x G i) (1 / grid_x G i)) by reflexivity. ring.
    - destruct IH as [IH IH0]. destruct (C47_surface G K Gamma Pmin pc alpha0 i j HK HG HP Hij Hs) as (_ & _ & _ & _ & _ & _ & Step).
      fold s m h in Step. pose proof (GE j Hij) as Gj. rewrite Step by lra. rewrite NX.
      set (r := grid_x G j) in *. set (r0 := grid_x G i) in *.
      assert (Hh : 0 < h) by exact Hd.
      pose proof (ln_step m r h M0 ltac:(lra) Hh ltac:(lra)) as L.
      assert (I1 : 0 < 1 / r - 1 / (r + h)) by (replace (1 / r - 1 / (r + h)) with (h / (r * (r + h))) by (field; lra); apply Rdiv_lt_0_compat; [lra | apply Rmult_lt_0_compat; lra]).
      split; [|lra].
      assert (MH : 0 <= m * h) by (apply Rmult_le_pos; lra).
      assert (J1 : m * h / (r + h) * (1 / r0 - 1 / r) <= m * h / r * (1 / r0 - 1 / r)).
      { apply Rmult_le_compat_r; [exact IH0|]. apply Rmult_le_compat_l; [exact MH|]. apply Rinv_le_contravar; lra. }
      assert (J2 : m * h / (r + h) * (1 / r - 1 / (r + h)) <= m * h * (1 / r - 1 / (r + h)) / (r - 2 * m)).
      { replace (m * h * (1 / r - 1 / (r + h)) / (r - 2 * m)) with (m * h / (r - 2 * m) * (1 / r - 1 / (r + h))) by (unfold Rdiv; ring).
        apply Rmult_le_compat_r; [lra|]. apply Rmult_le_compat_l; [exact MH|]. apply Rinv_le_contravar; lra. }
      unfold exact in *.
      replace (m * h / (r + h) * (1 / r0 - 1 / (r + h))) with (m * h / (r + h) * (1 / r0 - 1 / r) + m * h / (r + h) * (1 / r - 1 / (r + h))) by ring.
      lra. }
  apply Q.
Qed.
Print Assumptions C47_order_refuted.

(** Between Pmin and 1.1 Pmin the integrator still counts mass, but the sources handed to the metric solver are those of vacuum. *)
Theorem C47_threshold_refuted (K Gamma Pmin r m P phi : R) :
  0 < K -> 1 < Gamma -> 0 < Pmin -> 0 < r -> Pmin <= P <= 11 / 10 * Pmin ->
  0 < t_m (TovRHS r {| t_m := m; t_p := P; t_phi := phi |} K Gamma Pmin) /\ tov_intrinsic K Gamma Pmin P = (0, 0, 0).
Proof.
  intros HK HG HP Hr HB. split.
  - rewrite rhs_m. cbn [t_p]. unfold acting_energy, acting_pressure. rewrite Rlt_bool_false by lra.
    destruct (C47_thermo P K Gamma HK HG) as ((R1 & R2 & _) & _); [lra|]. pose proof PI_RGT_0.
    apply Rmult_lt_0_compat; [|apply Rmult_lt_0_compat; lra]. apply Rmult_lt_0_compat; [lra|]. apply Rmult_lt_0_compat; lra.
  - unfold tov_intrinsic. rewrite Rle_bool_true by lra. reflexivity.
Qed.
Print Assumptions C47_threshold_refuted.

(** ** The cells *)
Theorem C47_cells (G : Grid) (K Gamma Pmin pc alpha0 cv rhomin epsmin va vr vs x1 x2 x3 : R) (sph : bool) :
  0 < K -> 1 < Gamma -> 0 < Pmin -> 0 < cv -> 0 < rhomin -> 0 < epsmin ->
  let rho0 := tov_rho0 G K Gamma Pmin pc alpha0 in let eps0 := tov_eps G K Gamma Pmin pc alpha0 in
  let c := tov_cell G rho0 eps0 (Gamma - 1) cv Pmin rhomin epsmin va vr vs sph x1 x2 x3 in
  let r := if sph then x1 else sqrt (x1 * x1 + x2 * x2 + x3 * x3) in
  (* floors, and the equation of state above the pressure floor *)
  rhomin <= tc_rho c /\ Pmin <= tc_P c /\ epsmin * tc_rho c <= tc_u c /\ tc_T c = tc_u c / tc_rho c / cv /\
  (Pmin <= ideal_pressure Gamma (tc_rho c) (tc_u c / tc_rho c) ->
     tc_P c = ideal_pressure Gamma (tc_rho c) (tc_u c / tc_rho c) /\ tc_gam1 c = Gamma) /\
  (* at rest unless a perturbation is asked for *)
  (va <= 0 -> forall d, tc_v c d = 0) /\
  (* on the radial grid points of the star the cells hold the star *)
  (forall i, (3 <= g_n G)%nat -> 0 < g_dx G -> (i < g_n G)%nat -> r = grid_x G i ->
     11 / 10 * Pmin < t_p (tov_state G K Gamma Pmin pc alpha0 i) -> rhomin <= rho0 i -> epsmin <= eps0 i ->
     tc_rho c = rho0 i /\ tc_u c = eps0 i * rho0 i /\ tc_P c = t_p (tov_state G K Gamma Pmin pc alpha0 i)).
Proof.
  intros HK HG HP Hc Hrm Hem rho0 eps0 c r.
  set (rho := tc_rho c). set (eps := Rmax epsmin (Interpolate G eps0 r)).
  assert (Er : rho = Rmax rhomin (Interpolate G rho0 r)) by reflexivity.
  assert (Eu : tc_u c = eps * rho) by reflexivity.
  assert (EP : tc_P c = Rmax Pmin ((Gamma - 1) * rho * eps)) by reflexivity.
  assert (ET : tc_T c = eps / cv) by reflexivity.
  assert (EG : tc_gam1 c = (Gamma - 1 + 1) * (Gamma - 1) * rho * cv * (eps / cv) / tc_P c) by reflexivity.
  assert (R0 : rhomin <= rho) by (rewrite Er; apply Rmax_l).
  assert (E0 : epsmin <= eps) by apply Rmax_l.
  assert (Q : tc_u c / rho = eps) by (rewrite Eu; field; lra).
  split; [exact R0|]. split; [rewrite EP; apply Rmax_l|].
  split; [rewrite Eu; apply Rmult_le_compat_r; lra|]. split; [rewrite Q; exact ET|].
  split. { rewrite Q. unfold ideal_pressure. intros H. assert (EP2 : tc_P c = (Gamma - 1) * rho * eps) by (rewrite EP; apply Rmax_right; exact H).
           split; [exact EP2|]. rewrite EG, EP2. field. repeat split; try lra. }
  split. { intros Hv d. unfold c, tov_cell. cbn [tc_v]. rewrite Rlt_bool_false by exact Hv. rewrite Bool.andb_false_r. reflexivity. }
  intros i Hn Hd Hi Hx HPi Hri Hei.
  destruct (C32_interpolate G rho0 Hn Hd) as [I1 _]. destruct (C32_interpolate G eps0 Hn Hd) as [I2 _].
  assert (A : rho = rho0 i) by (rewrite Er, Hx, I1 by exact Hi; apply Rmax_right; exact Hri).
  assert (B : eps = eps0 i) by (unfold eps; rewrite Hx, I2 by exact Hi; apply Rmax_right; exact Hei).
  split; [exact A|]. split; [rewrite Eu, A, B; reflexivity|].
  rewrite EP, A, B.
  destruct (C47_matter G K Gamma Pmin pc alpha0 i HK HG HP) as (_ & _ & _ & S1 & _ & _ & S2). destruct (S2 HPi) as (S3 & _).
  fold rho0 eps0 in S1. unfold ideal_pressure in S1. rewrite <- S1, S3. apply Rmax_right. lra.
Qed.
Print Assumptions C47_cells.
Example C47_cells_nonvacuous : exists G : Grid, (3 <= g_n G)%nat /\ 0 < g_dx G /\ grid_x G 0 = 1 /\
  11 / 10 * / 2 < t_p (tov_state G 1 2 (/ 2) 1 1 0) /\ 1 <= tov_rho0 G 1 2 (/ 2) 1 1 0 /\ 1 <= tov_eps G 1 2 (/ 2) 1 1 0.
Proof.
  exists shell_grid. split; [cbn; lia|]. split; [cbn; lra|]. split; [unfold grid_x; cbn; ring|]. cbn [tov_state t_p]. split; [lra|].
  unfold tov_rho0, tov_eps, tov_intrinsic. cbn [tov_state t_p]. rewrite Rle_bool_false by lra.
  unfold poly_rho, poly_eps. rewrite !cpow_pos by lra. replace (1 / 1) with 1 by field. unfold Rpower. rewrite ln_1, !Rmult_0_r, exp_0. split; lra.
Qed.

(** The velocity perturbation is radial on a spherical grid only: on a Cartesian one it points along x everywhere, at (0, y, 0)
    at right angles to the radius. *)
Theorem C47_perturbation_refuted (G : Grid) (rho0 eps0 : nat -> R) (gm1 cv Pmin rhomin epsmin va vr vs y : R) :
  0 < va -> 0 < y ->
  let v := tc_v (tov_cell G rho0 eps0 gm1 cv Pmin rhomin epsmin va vr vs false 0 y 0) in
  0 < v 0%nat /\ 0 * v 0%nat + y * v 1%nat + 0 * v 2%nat = 0.
Proof.
  intros Ha Hy v. unfold v, tov_cell, tov_radius. cbn [tc_v Nat.eqb andb]. rewrite Rlt_bool_true by exact Ha.
  replace (0 * 0 + y * y + 0 * 0) with (y * y) by ring. rewrite sqrt_square by lra.
  split; [|ring]. apply Rmult_lt_0_compat; [apply Rmult_lt_0_compat; assumption | apply exp_pos].
Qed.
Print Assumptions C47_perturbation_refuted.
