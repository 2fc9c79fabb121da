(** C32, continued: whole-solve statements, gauge and rates. *)
From Coq Require Import Reals ZArith List Lia Lra.
From Coquelicot Require Import Coquelicot.
From Flocq Require Import Core.
From Verif.Model Require Import Num Robust Geometry MonopoleGR.
From Verif.Spec Require Import Tensor GeomSpec Hypersurface.
From Verif.Proofs Require Import TensorTac CurvatureProofs ThomasProofs NumR.
From Verif.Properties Require Import P_Monopole.
Local Open Scope R_scope.

(** a dust ball of low density on four points *)
Definition dust : Matter := {| m_rho := fun _ => / 1000; m_j := fun _ => 0; m_trcS := fun _ => 0; m_Srr := fun _ => 0 |}.
Definition grid4 : Grid := {| g_min := 0; g_dx := 1; g_n := 4 |}.
Example C32_lapse_nonvacuous :
  (forall i, (0 < i < g_n grid4 - 1)%nat ->
     1 - grid_x grid4 i / g_dx grid4 <= stretch grid4 (fun _ => 1) (fun _ => 0) dust i < 1 + grid_x grid4 i / g_dx grid4) /\
  (forall i, (0 < i < g_n grid4 - 1)%nat -> 0 <= 3 * 0 * 0 + 8 * PI * (m_trcS dust i + m_rho dust i)) /\
  LinearSolveForAlpha grid4 (fun _ => 1) (fun _ => 0) dust (fun _ => 0) 1%nat < 1.
Proof.
  pose proof PI_RGT_0 as P0. pose proof PI_4 as P4.
  assert (A : forall i, (0 < i < g_n grid4 - 1)%nat ->
     1 - grid_x grid4 i / g_dx grid4 <= stretch grid4 (fun _ => 1) (fun _ => 0) dust i < 1 + grid_x grid4 i / g_dx grid4).
  { intros i Hi. unfold stretch, grid_x. cbn [grid4 g_n g_dx g_min dust m_rho] in *.
    assert (E : i = 1%nat \/ i = 2%nat) by lia. destruct E as [-> | ->]; cbn [INR]; rewrite ARHS_pos by lra; split; lra. }
  assert (B : forall i, (0 < i < g_n grid4 - 1)%nat -> 0 <= 3 * 0 * 0 + 8 * PI * (m_trcS dust i + m_rho dust i)).
  { intros i Hi. cbn [dust m_trcS m_rho]. lra. }
  split; [exact A|]. split; [exact B|].
  assert (Hn : (2 <= g_n grid4)%nat) by (cbn; lia). assert (Hd : 0 < g_dx grid4) by (cbn; lra). assert (Hm : 0 <= g_min grid4) by (cbn; lra).
  destruct (C32_lapse grid4 (fun _ => 1) (fun _ => 0) dust (fun _ => 0) Hn Hd Hm A B) as (S & _ & V & Mo).
  set (al := LinearSolveForAlpha grid4 (fun _ => 1) (fun _ => 0) dust (fun _ => 0)) in *.
  destruct (C32_slicing_rows grid4 (fun _ => 1) (fun _ => 0) dust al Hn Hd) as (_ & _ & Row & _).
  assert (I1 : (0 < 1 < g_n grid4 - 1)%nat) by (cbn; lia).
  assert (X1 : 0 < grid_x grid4 1) by (unfold grid_x; cbn; lra).
  destruct (Row 1%nat I1 X1 ltac:(lra)) as [R1 R2].
  assert (L1 : (1 < g_n grid4)%nat) by (cbn; lia).
  pose proof (S 1%nat L1) as R3. rewrite R1, R2 in R3. clear R1 R2 Row.
  assert (S0 : al 0%nat = al 1%nat).
  { destruct (C32_slicing_rows grid4 (fun _ => 1) (fun _ => 0) dust al Hn Hd) as (Q1 & Q2 & _).
    pose proof (S 0%nat ltac:(cbn; lia)) as Q3. rewrite Q1, Q2 in Q3. lra. }
  pose proof (V 1%nat L1) as V1. pose proof (V 2%nat ltac:(cbn; lia)) as V2.
  unfold first_difference, second_difference in R3. cbn [Nat.add Nat.sub] in R3.
  rewrite ARHS_pos in R3 by exact X1. unfold grid_x in R3. cbn [grid4 g_n g_dx g_min dust m_rho m_trcS INR] in R3. rewrite S0 in R3.
  assert (R4 : al 2%nat - al 1%nat + (2 - 4 * PI / 1000) * ((al 2%nat - al 1%nat) / 2) - al 1%nat * (4 * PI / 1000) = 0) by lra.
  assert (D : 0 < al 1%nat * (4 * PI / 1000)) by (apply Rmult_lt_0_compat; lra).
  nra.
Qed.

(** ** Flat space: no matter gives a = 1, K = 0, lapse 1, no shift *)
Definition no_matter : Matter := {| m_rho := fun _ => 0; m_j := fun _ => 0; m_trcS := fun _ => 0; m_Srr := fun _ => 0 |}.
Definition solve_a (G : Grid) (M : Matter) (i : nat) : R := fst (IntegrateHypersurface G M i).
Definition solve_K (G : Grid) (M : Matter) (i : nat) : R := snd (IntegrateHypersurface G M i).
Definition solve_lapse (G : Grid) (M : Matter) (alpha0 : nat -> R) : nat -> R :=
  LinearSolveForAlpha G (solve_a G M) (solve_K G M) M alpha0.
Definition solve_point (static : bool) (G : Grid) (M : Matter) (alpha0 : nat -> R) (i : nat) : DevicePoint :=
  SpacetimeToDevice static G (solve_a G M) (solve_K G M) (solve_lapse G M alpha0) M i.

Lemma ARHS_flat r : 0 <= r -> GetARHS 1 0 r 0 = 0.
Proof.
  intros H. destruct (Req_dec r 0) as [->|N]; [apply ARHS_zero|]. rewrite ARHS_pos by lra. field. exact N.
Qed.
Lemma KRHS_flat a r : 0 <= r -> GetKRHS a 0 r 0 = 0.
Proof.
  intros H. destruct (Req_dec r 0) as [->|N]; [apply KRHS_zero|]. rewrite KRHS_pos by lra. field. exact N.
Qed.
Lemma grid_x_nonneg G i : 0 <= g_dx G -> 0 <= g_min G -> 0 <= grid_x G i.
Proof. intros A B. unfold grid_x. assert (0 <= INR i * g_dx G) by (apply Rmult_le_pos; [apply pos_INR | exact A]). lra. Qed.
Lemma flat_hyper G i : 0 <= g_dx G -> 0 <= g_min G -> IntegrateHypersurface G no_matter i = (1, 0).
Proof.
  intros A B. induction i as [|i IH]; cbn [IntegrateHypersurface]; [reflexivity|]. rewrite IH.
  pose proof (grid_x_nonneg G i A B) as X. unfold hyper_step, HypersurfaceRHS. cbn [fst snd no_matter m_rho m_j].
  rewrite ARHS_flat, KRHS_flat by exact X.
  replace (1 + / 2 * g_dx G * 0) with 1 by ring. replace (0 + / 2 * g_dx G * 0) with 0 by ring.
  replace (/ 2 * (0 + 0)) with 0 by ring. rewrite ARHS_flat, KRHS_flat by exact X. f_equal; ring.
Qed.
Lemma flat_lapse G alpha0 : (2 <= g_n G)%nat -> 0 < g_dx G -> 0 <= g_min G ->
  forall i, (i < g_n G)%nat -> solve_lapse G no_matter alpha0 i = 1.
Proof.
  intros Hn Hd Hm i Hi.
  assert (Ea : forall k, solve_a G no_matter k = 1) by (intros k; unfold solve_a; rewrite flat_hyper by lra; reflexivity).
  assert (EK : forall k, solve_K G no_matter k = 0) by (intros k; unfold solve_K; rewrite flat_hyper by lra; reflexivity).
  assert (X1 : forall k, (0 < k)%nat -> 1 <= grid_x G k / g_dx G).
  { intros k Hk. unfold grid_x. replace ((INR k * g_dx G + g_min G) / g_dx G) with (INR k + g_min G / g_dx G) by (field; lra).
    assert (1 <= INR k) by (apply (le_INR 1); lia). assert (0 <= g_min G / g_dx G) by (apply Rmult_le_pos; [lra | left; apply Rinv_0_lt_compat; lra]). lra. }
  destruct (C32_lapse G (solve_a G no_matter) (solve_K G no_matter) no_matter alpha0 Hn Hd Hm) as (_ & U & _).
  - intros k Hk. unfold stretch. rewrite Ea, EK. cbn [no_matter m_rho]. rewrite ARHS_flat by (apply grid_x_nonneg; lra).
    pose proof (X1 k ltac:(lia)). replace (0 * grid_x G k / (2 * 1)) with 0 by field. lra.
  - intros k Hk. rewrite EK. cbn [no_matter m_rho m_trcS]. lra.
  - unfold solve_lapse. rewrite <- (U (fun _ => 1)); [reflexivity | | exact Hi].
    destruct (C32_slicing_rows G (solve_a G no_matter) (solve_K G no_matter) no_matter (fun _ => 1) Hn Hd) as (R0 & B0 & Ri & Rl).
    intros k Hk. destruct (Nat.eq_dec k 0) as [->|N0]; [rewrite R0, B0; ring|].
    destruct (Nat.eq_dec k (g_n G - 1)) as [->|N1].
    + apply Rminus_diag_uniq. rewrite Rl. field. lra.
    + destruct (Ri k ltac:(lia)) as [-> ->].
      * pose proof (X1 k ltac:(lia)) as X. apply (Rmult_lt_reg_r (/ g_dx G)); [apply Rinv_0_lt_compat; lra|]. unfold Rdiv in X. lra.
      * rewrite Ea. lra.
      * rewrite Ea, EK. cbn [no_matter m_rho m_trcS]. unfold first_difference, second_difference.
        replace ((1 - 2 * 1 + 1) / (g_dx G * g_dx G)) with 0 by (field; lra). replace ((1 - 1) / (2 * g_dx G)) with 0 by (field; lra). ring.
Qed.
Lemma flat_point G alpha0 i : (3 <= g_n G)%nat -> 0 < g_dx G -> 0 <= g_min G -> (i < g_n G)%nat ->
  solve_point false G no_matter alpha0 i = point_rates false (Nat.eqb i 0) (grid_x G i) 1 0 1 0 0 0 0 0 0.
Proof.
  intros Hn Hd Hm Hi. unfold solve_point, SpacetimeToDevice.
  assert (L : lapse_differences G (solve_lapse G no_matter alpha0) i = (0, 0)).
  { unfold lapse_differences. destruct (Nat.eqb i 0) eqn:E0.
    - apply Nat.eqb_eq in E0. subst i. rewrite !flat_lapse by (try lia; lra). f_equal. field. lra.
    - apply Nat.eqb_neq in E0. destruct (Nat.eqb i (g_n G - 1)) eqn:E1.
      + apply Nat.eqb_eq in E1. rewrite !flat_lapse by (try lia; lra). f_equal; field; lra.
      + apply Nat.eqb_neq in E1. rewrite !flat_lapse by (try lia; lra). f_equal; field; lra. }
  rewrite L. rewrite flat_lapse by (try lia; lra). unfold solve_a, solve_K. rewrite flat_hyper by lra. reflexivity.
Qed.
Theorem C32_flat (G : Grid) (alpha0 : nat -> R) (i : nat) :
  (3 <= g_n G)%nat -> 0 < g_dx G -> 0 <= g_min G -> (i < g_n G)%nat ->
  let p := solve_point false G no_matter alpha0 i in
  solve_a G no_matter i = 1 /\ solve_K G no_matter i = 0 /\ solve_lapse G no_matter alpha0 i = 1 /\
  dp_beta p = 0 /\ dp_dadr p = 0 /\ dp_dKdr p = 0 /\ dp_dalphadr p = 0 /\ dp_dbetadr p = 0 /\ dp_dadt p = 0 /\ dp_dalphadt p = 0 /\
  (i = 0%nat \/ / 100 < grid_x G i -> dp_dKdt p = 0 /\ dp_dbetadt p = 0).
Proof.
  intros Hn Hd Hm Hi p. unfold p. rewrite flat_point by assumption. clear p.
  pose proof (grid_x_nonneg G i ltac:(lra) Hm) as X.
  split; [unfold solve_a; rewrite flat_hyper by lra; reflexivity|].
  split; [unfold solve_K; rewrite flat_hyper by lra; reflexivity|].
  split; [apply flat_lapse; try lia; lra|].
  unfold point_rates. cbn [dp_beta dp_dadr dp_dKdr dp_dalphadr dp_dbetadr dp_dadt dp_dalphadt dp_dKdt dp_dbetadt].
  rewrite ARHS_flat, KRHS_flat by exact X.
  split; [ring|]. split; [reflexivity|]. split; [reflexivity|]. split; [reflexivity|]. split; [ring|].
  split; [destruct (Nat.eqb i 0); ring|]. split; [destruct (Nat.eqb i 0); field|].
  intros H. destruct (Nat.eqb i 0) eqn:E0.
  - split; [reflexivity | ring].
  - apply Nat.eqb_neq in E0. destruct H as [H|H]; [contradiction|].
    rewrite Rlt_bool_true by exact H. split; field; lra.
Qed.
Print Assumptions C32_flat.

(** ... but at every grid point with 0 < r <= 0.01 the stored rates of flat space are dK/dt = 2 and
    d beta/dt = -r: a'/r is replaced by 1 there. *)
Theorem C32_flat_refuted (G : Grid) (alpha0 : nat -> R) (i : nat) :
  (3 <= g_n G)%nat -> 0 < g_dx G -> 0 <= g_min G -> (0 < i < g_n G)%nat -> grid_x G i <= / 100 ->
  let p := solve_point false G no_matter alpha0 i in dp_dKdt p = 2 /\ dp_dbetadt p = - grid_x G i /\ dp_dbetadt p < 0.
Proof.
  intros Hn Hd Hm Hi Hx p. unfold p. rewrite flat_point by (assumption || lia). clear p.
  pose proof (grid_x_nonneg G i ltac:(lra) Hm) as X.
  assert (XP : 0 < grid_x G i).
  { unfold grid_x. assert (0 < INR i * g_dx G) by (apply Rmult_lt_0_compat; [apply (lt_INR 0); lia | exact Hd]). lra. }
  assert (E0 : Nat.eqb i 0 = false) by (apply Nat.eqb_neq; lia).
  unfold point_rates. cbn [dp_dKdt dp_dbetadt]. rewrite E0.
  rewrite ARHS_flat, KRHS_flat by exact X. rewrite Rlt_bool_false by exact Hx.
  split; [field|]. split; [field | lra].
Qed.
Print Assumptions C32_flat_refuted.
Example C32_flat_nonvacuous : let G := {| g_min := 0; g_dx := / 200; g_n := 1000 |} in
  (3 <= g_n G)%nat /\ 0 < g_dx G /\ (0 < 1 < g_n G)%nat /\ grid_x G 1 <= / 100 /\ / 100 < grid_x G 3.
Proof. cbv zeta. unfold grid_x. cbn [g_n g_dx g_min INR]. repeat split; try lia; lra. Qed.

(** The first interval from the centre never sees the sources. *)
Theorem C32_centre (G : Grid) (M : Matter) :
  g_min G = 0 -> IntegrateHypersurface G M 0 = (1, 0) /\ IntegrateHypersurface G M 1 = (1, 0).
Proof.
  intros H. split; [reflexivity|]. cbn [IntegrateHypersurface]. unfold hyper_step, HypersurfaceRHS, grid_x. cbn [fst snd INR].
  rewrite H. replace (0 * g_dx G + 0) with 0 by ring. rewrite !ARHS_zero, !KRHS_zero. f_equal; ring.
Qed.
Print Assumptions C32_centre.

(** The radial step evaluates both stages at the left radius, so it is not the midpoint rule.  In vacuum
    the exact K falls like 1/r^3; one step of length h from r makes an error between
    K x^2/2 and 3 K x^2/2, x = h/r <= 1/10 - first order, not second. *)
Theorem C32_order_refuted (G : Grid) (M : Matter) (i : nat) (a c : R) :
  let r := grid_x G i in let h := g_dx G in let x := h / r in
  0 < r -> 0 < h -> 0 < c -> h <= r / 10 -> m_j M i = 0 -> m_j M (S i) = 0 ->
  let exact y := c / (y * y * y) in
  let err := exact (r + h) - snd (hyper_step G M i (a, exact r)) in
  / 2 * exact r * x * x <= err <= 3 / 2 * exact r * x * x.
Proof.
  intros r h x Hr Hh Hc Hx J0 J1 exact err.
  assert (XP : 0 < x) by (apply Rdiv_lt_0_compat; assumption).
  assert (X10 : x <= / 10). { unfold x. apply (Rmult_le_reg_r r); [exact Hr|]. unfold Rdiv. rewrite Rmult_assoc, Rinv_l by lra. lra. }
  assert (EP : 0 < exact r). { unfold exact. apply Rdiv_lt_0_compat; [exact Hc|]. repeat apply Rmult_lt_0_compat; exact Hr. }
  assert (E : err = exact r * ((x * x * (3 / 2 - 11 / 2 * x - 21 / 2 * x * x - 9 / 2 * x * x * x)) / ((1 + x) * (1 + x) * (1 + x)))).
  { unfold err, hyper_step, HypersurfaceRHS. cbn [fst snd]. rewrite J0, J1. rewrite !KRHS_pos by exact Hr.
    fold r h. unfold x, exact. field. split; lra. }
  rewrite E. set (e := exact r) in *. clearbody e. clear E err exact.
  assert (D : 0 < (1 + x) * (1 + x) * (1 + x)) by (repeat apply Rmult_lt_0_compat; lra).
  assert (LO : / 2 * x * x <= x * x * (3 / 2 - 11 / 2 * x - 21 / 2 * x * x - 9 / 2 * x * x * x) / ((1 + x) * (1 + x) * (1 + x))).
  { apply (Rmult_le_reg_r ((1 + x) * (1 + x) * (1 + x))); [exact D|]. unfold Rdiv. rewrite (Rmult_assoc (x * x * _)), Rinv_l by lra. rewrite Rmult_1_r.
    assert (P : 0 <= x * x) by nra.
    assert (Q : / 2 * ((1 + x) * (1 + x) * (1 + x)) <= 3 / 2 - 11 / 2 * x - 21 / 2 * x * x - 9 / 2 * x * x * x) by nra. nra. }
  assert (HI : x * x * (3 / 2 - 11 / 2 * x - 21 / 2 * x * x - 9 / 2 * x * x * x) / ((1 + x) * (1 + x) * (1 + x)) <= 3 / 2 * x * x).
  { apply (Rmult_le_reg_r ((1 + x) * (1 + x) * (1 + x))); [exact D|]. unfold Rdiv. rewrite (Rmult_assoc (x * x * _)), Rinv_l by lra. rewrite Rmult_1_r.
    assert (P : 0 <= x * x) by nra.
    assert (Q : 3 / 2 - 11 / 2 * x - 21 / 2 * x * x - 9 / 2 * x * x * x <= 3 / 2 * ((1 + x) * (1 + x) * (1 + x))) by nra. nra. }
  split; nra.
Qed.
Print Assumptions C32_order_refuted.

(** ** Gauge and evolution *)
(** (Check of the specification: on any slice with trace-free K, the Hamiltonian constraint and the maximal slicing
    equation make the trace of dK^i_j/dt vanish, for every shift.) *)
Lemma trace_preserved gam gaminv alpha beta K rho Sm X :
  (forall Y, trace3 (K Y) = 0) ->
  (forall i l, (i < 3)%nat -> (l < 3)%nat -> ex_derive (fun h => K (moved X l h) i i) (X l)) ->
  hamiltonian_constraint gam gaminv K rho X -> maximal_slicing gam gaminv alpha K rho (trace3 Sm) X ->
  sum3 (fun i => curvature_rate gam gaminv alpha beta K rho Sm X i i) = 0.
Proof.
  intros HT HD HH HM. unfold hamiltonian_constraint in HH. unfold maximal_slicing in HM. unfold curvature_rate.
  assert (DT : forall l, (l < 3)%nat -> sum3 (fun i => partial (fun Z => K Z i i) l X) = 0).
  { intros l Hl. unfold sum3. pose proof (HD 0%nat l ltac:(lia) Hl). pose proof (HD 1%nat l ltac:(lia) Hl). pose proof (HD 2%nat l ltac:(lia) Hl).
    unfold partial. rewrite <- Derive_plus by assumption.
    rewrite <- (Derive_plus (fun x => K (moved X l x) 0%nat 0%nat + K (moved X l x) 1%nat 1%nat)).
    - rewrite (Derive_ext _ (fun _ => 0)); [apply Derive_const|]. intros t. apply (HT (moved X l t)).
    - apply (@ex_derive_plus R_AbsRing); assumption.
    - assumption. }
  pose proof (DT 0%nat ltac:(lia)) as D0. pose proof (DT 1%nat ltac:(lia)) as D1. pose proof (DT 2%nat ltac:(lia)) as D2.
  unfold Laplacian in HM. unfold RicciScalar in HH. pose proof (HT X) as T0. rewrite T0 in HH |- *.
  unfold trace3, delta, sum3 in *. cbn [Nat.eqb].
  set (b0 := beta X 0%nat) in *. set (b1 := beta X 1%nat) in *. set (b2 := beta X 2%nat) in *.
  assert (B0 : b0 * (partial (fun Z => K Z 0%nat 0%nat) 0 X + partial (fun Z => K Z 1%nat 1%nat) 0 X + partial (fun Z => K Z 2%nat 2%nat) 0 X) = 0) by (rewrite D0; ring).
  assert (B1 : b1 * (partial (fun Z => K Z 0%nat 0%nat) 1 X + partial (fun Z => K Z 1%nat 1%nat) 1 X + partial (fun Z => K Z 2%nat 2%nat) 1 X) = 0) by (rewrite D1; ring).
  assert (B2 : b2 * (partial (fun Z => K Z 0%nat 0%nat) 2 X + partial (fun Z => K Z 1%nat 1%nat) 2 X + partial (fun Z => K Z 2%nat 2%nat) 2 X) = 0) by (rewrite D2; ring).
  set (hs := HessianMixed gam gaminv alpha X 0 0 + HessianMixed gam gaminv alpha X 1 1 + HessianMixed gam gaminv alpha X 2 2) in *.
  assert (HR : RicciMixed gam gaminv X 0 0 + RicciMixed gam gaminv X 1 1 + RicciMixed gam gaminv X 2 2 = 16 * PI * rho + square3 (K X)) by lra.
  assert (AR : alpha X * (RicciMixed gam gaminv X 0 0 + RicciMixed gam gaminv X 1 1 + RicciMixed gam gaminv X 2 2) = alpha X * (16 * PI * rho + square3 (K X))) by (rewrite HR; ring).
  unfold hs in HM. lra.
Qed.

Lemma radial_vector_partial f f' k s Y : is_derive f (Y 0%nat) (f' (Y 0%nat)) -> (k < 3)%nat -> (s < 3)%nat ->
  partial (fun Z => radial_vector f Z k) s Y = match k, s with 0%nat, 0%nat => f' (Y 0%nat) | _, _ => 0 end.
Proof.
  intros H Hk Hs. apply partial_is. unfold is_partial, radial_vector.
  idx; unfold moved; cbn [Nat.eqb]; first [exact H | auto_derive; auto].
Qed.
Lemma areal_K_partial K K' X i k s : is_derive K (X 0%nat) (K' (X 0%nat)) -> (i < 3)%nat -> (k < 3)%nat -> (s < 3)%nat ->
    partial (fun Z => areal_K K Z i k) s X =
    if Nat.eqb i k then if Nat.eqb s 0 then match i with 0%nat => K' (X 0%nat) | _ => - / 2 * K' (X 0%nat) end else 0 else 0.
Proof.
  intros HK Hi Hk Hks. apply partial_is. unfold is_partial, areal_K.
  assert (Dx : ex_derive K (X 0%nat)) by (eexists; exact HK).
  assert (De : Derive (fun x => K x) (X 0%nat) = K' (X 0%nat)) by (apply is_derive_unique; exact HK).
  idx; cbn [Nat.eqb]; unfold moved; cbn [Nat.eqb];
      try apply (is_derive_const (K := R_AbsRing)); try exact HK;
      auto_derive; try (repeat split; exact Dx); rewrite De; ring.
Qed.

(** The stored shift, its radial derivative and da/dt: with this shift the areal form of the metric is preserved
    (no component but gamma_rr changes) and gamma_rr = a^2 changes at the stored rate. *)
Theorem C32_gauge (a a' K K' alpha alpha' : R -> R) (d2 rho j S Srr : R) (X : vec) :
  let r := X 0%nat in
  0 < r -> sin (X 1%nat) <> 0 -> a r <> 0 ->
  is_derive a r (a' r) -> is_derive K r (K' r) -> is_derive alpha r (alpha' r) ->
  let p := point_rates false false r (a r) (K r) (alpha r) (alpha' r) d2 rho j S Srr in
  a' r = dp_dadr p -> K' r = dp_dKdr p ->
  let beta x := - / 2 * alpha x * x * K x in
  dp_beta p = beta r /\ is_derive beta r (dp_dbetadr p) /\
  (forall i k, (i < 3)%nat -> (k < 3)%nat ->
     metric_rate (areal_metric a) (radial alpha) (radial_vector beta) (areal_K K) X i k =
     if andb (Nat.eqb i 0) (Nat.eqb k 0) then 2 * a r * dp_dadt p else 0).
Proof.
  intros r Hr Hs Ha HA HK HL p EA EK beta.
  assert (Eb : dp_beta p = beta r) by reflexivity.
  assert (Db : is_derive beta r (dp_dbetadr p)).
  { unfold beta. assert (Dx1 : ex_derive alpha r) by (eexists; exact HL). assert (Dx2 : ex_derive K r) by (eexists; exact HK).
    assert (De1 : Derive (fun x => alpha x) r = alpha' r) by (apply is_derive_unique; exact HL).
    assert (De2 : Derive (fun x => K x) r = K' r) by (apply is_derive_unique; exact HK).
    auto_derive; [split; [exact Dx1 | split; [exact Dx2 | exact I]]|]. rewrite De1, De2, EK. unfold p, point_rates. cbn [dp_dKdr dp_dbetadr]. field. }
  split; [exact Eb|]. split; [exact Db|].
  assert (G : good a a' X) by (split; [exact Hr|]; split; [exact Hs|]; split; [exact Ha | exact HA]).
  assert (RV : forall k s, (k < 3)%nat -> (s < 3)%nat -> partial (fun Z => radial_vector beta Z k) s X = match k, s with 0%nat, 0%nat => dp_dbetadr p | _, _ => 0 end).
  { intros k s Hk Hs'. exact (radial_vector_partial beta (fun _ => dp_dbetadr p) k s X Db Hk Hs'). }
  intros i k Hi Hk. unfold metric_rate, sum3. rewrite !RV by lia. rewrite !(metric_partial a a') by (auto; lia).
  assert (Ed : dp_dadt p = a' r * beta r + a r * dp_dbetadr p - alpha r * a r * K r) by (rewrite EA; reflexivity).
  rewrite Ed. unfold radial, radial_vector, areal_metric, areal_K. fold r.
  idx; cbn [Nat.eqb dmetric andb]; unfold beta; fold r; field.
Qed.
Print Assumptions C32_gauge.

(** The stored dK/dt is not the rate Einstein's equations give: it has an extra -4 alpha K^2. *)
Theorem C32_rates_refuted (a a' a'' K K' alpha alpha' alpha'' : R -> R) (rho j trS Srr : R) (X : vec) :
  let r := X 0%nat in
  / 100 < r -> sin (X 1%nat) <> 0 -> a r <> 0 ->
  smooth_at a a' a'' r -> is_derive K r (K' r) -> smooth_at alpha alpha' alpha'' r ->
  let p := point_rates false false r (a r) (K r) (alpha r) (alpha' r) (alpha'' r) rho j trS Srr in
  a' r = dp_dadr p -> K' r = dp_dKdr p ->
  let beta x := - / 2 * alpha x * x * K x in
  let einstein := curvature_rate (areal_metric a) (areal_inverse a) (radial alpha) (radial_vector beta) (areal_K K)
                    rho (stress_diag Srr ((trS - Srr) / 2)) X 0 0 in
  dp_dKdt p = einstein - 4 * alpha r * (K r * K r) /\
  (dp_dKdt p = einstein <-> K r = 0 \/ alpha r = 0).
Proof.
  intros r Hr100 Hs Ha [HA HA2] HK [HL HL2] p EA EK beta einstein.
  assert (Hr : 0 < r) by lra.
  assert (HA1 : is_derive a r (a' r)) by (apply (locally_singleton _ _ HA)).
  assert (HL1 : is_derive alpha r (alpha' r)) by (apply (locally_singleton _ _ HL)).
  destruct (C32_gauge a a' K K' alpha alpha' (alpha'' r) rho j trS Srr X Hr Hs Ha HA1 HK HL1 EA EK) as (Eb & Db & _).
  fold r p beta in Eb, Db.
  assert (G : good a a' X) by (split; [exact Hr|]; split; [exact Hs|]; split; [exact Ha | exact HA1]).
  assert (RV : forall k s, (k < 3)%nat -> (s < 3)%nat -> partial (fun Z => radial_vector beta Z k) s X = match k, s with 0%nat, 0%nat => dp_dbetadr p | _, _ => 0 end).
  { intros k s Hk Hs'. exact (radial_vector_partial beta (fun _ => dp_dbetadr p) k s X Db Hk Hs'). }
  assert (HE : forall k l, (k < 3)%nat -> (l < 3)%nat -> Hessian (areal_metric a) (areal_inverse a) (radial alpha) X k l =
      (if Nat.eqb k 0 then if Nat.eqb l 0 then alpha'' (X 0%nat) else 0 else 0) - closedG a a' X 0 k l * alpha' (X 0%nat))
      by (intros k l Hk Hl'; exact (Hessian_radial a a' alpha alpha' alpha'' X k l G HL HL2 Hk Hl')).
  assert (E : einstein = beta r * K' r - (alpha'' r - a' r / a r * alpha' r) / (a r * a r) + alpha r * (2 * a' r / (r * a r) / (a r * a r))
                         + 4 * PI * alpha r * (trS - rho - 2 * Srr)).
  { unfold einstein, curvature_rate, HessianMixed, RicciMixed, trace3, sum3.
    rewrite !HE by lia. rewrite !RV by lia. rewrite !(areal_K_partial K K') by (assumption || lia).
    rewrite !(Ricci_closed a a' a'' X G HA HA2) by lia.
    unfold areal_inverse, areal_K, radial, radial_vector, stress_diag, delta. cbn [Nat.eqb closedG]. fold r. field. split; [exact Ha | lra]. }
  assert (Q : dp_dKdt p = einstein - 4 * alpha r * (K r * K r)).
  { rewrite E, EA, EK. unfold p, point_rates. cbn [dp_dKdt dp_dKdr dp_dadr]. rewrite Rlt_bool_true by exact Hr100. unfold beta.
    set (q := GetARHS _ _ _ _). set (q2 := GetKRHS _ _ _ _). field. split; [exact Ha | lra]. }
  split; [exact Q|]. rewrite Q. split; intros H.
  - assert (Z : alpha r * (K r * K r) = 0) by lra. apply Rmult_integral in Z. destruct Z as [Z|Z]; [right; exact Z|].
    left. apply Rmult_integral in Z. tauto.
  - destruct H as [-> | ->]; ring.
Qed.
Print Assumptions C32_rates_refuted.

(** profiles with K <> 0 and alpha <> 0 that meet the hypotheses at r = 1: the rate the code stores is off *)
Example C32_rates_nonvacuous : exists a a' K K' alpha : R -> R, exists X : vec,
  X 0%nat = 1 /\ sin (X 1%nat) <> 0 /\ a 1 <> 0 /\ smooth_at a a' (fun _ => 0) 1 /\ is_derive K 1 (K' 1) /\ smooth_at alpha (fun _ => 0) (fun _ => 0) 1 /\
  let p := point_rates false false 1 (a 1) (K 1) (alpha 1) 0 0 1 1 1 1 in
  a' 1 = dp_dadr p /\ K' 1 = dp_dKdr p /\ K 1 <> 0 /\ alpha 1 <> 0.
Proof.
  exists (fun x => 1 + GetARHS 1 1 1 1 * (x - 1)), (fun _ => GetARHS 1 1 1 1), (fun x => 1 + GetKRHS 1 1 1 1 * (x - 1)), (fun _ => GetKRHS 1 1 1 1), (fun _ => 1),
    (fun i => match i with 0%nat => 1 | _ => PI / 2 end).
  assert (E : forall q, 1 + q * (1 - 1) = 1) by (intros; ring).
  split; [reflexivity|]. split; [rewrite sin_PI2; lra|]. split; [rewrite E; lra|].
  split; [split; [apply filter_forall; intros x; auto_derive; [exact I | ring] | auto_derive; [exact I | ring]]|].
  split; [auto_derive; [exact I | ring]|].
  split; [split; [apply filter_forall; intros x; auto_derive; [exact I | ring] | auto_derive; [exact I | ring]]|].
  cbv zeta. rewrite !E. split; [reflexivity|]. split; [reflexivity|]. split; lra.
Qed.

(** force_static: no shift, no extrinsic curvature, no time derivatives. *)
Theorem C32_static (G : Grid) (M : Matter) (alpha0 : nat -> R) (i : nat) :
  let p := solve_point true G M alpha0 i in
  dp_K p = 0 /\ dp_beta p = 0 /\ dp_dKdr p = 0 /\ dp_dbetadr p = 0 /\ dp_dadt p = 0 /\ dp_dalphadt p = 0 /\ dp_dKdt p = 0 /\ dp_dbetadt p = 0.
Proof.
  intros p. unfold p, solve_point, SpacetimeToDevice. destruct (lapse_differences _ _ _) as [d1 d2].
  unfold point_rates. cbn [dp_K dp_beta dp_dKdr dp_dbetadr dp_dadt dp_dalphadt dp_dKdt dp_dbetadt]. repeat split.
Qed.
Print Assumptions C32_static.
