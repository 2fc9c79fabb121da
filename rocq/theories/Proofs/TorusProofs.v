(** Circular flows in a stationary axisymmetric metric, and the Kerr metric in that form. *)
From Coq Require Import Reals Arith Lia Lra Psatz.
From Coquelicot Require Import Coquelicot.
From Flocq Require Import Core.
From Verif.Model Require Import Num Robust LinearAlgebra Geometry BoyerLindquist Modified Bondi Torus.
From Verif.Proofs Require Import GeomBase.
From Verif.Spec Require Import Tensor.
Local Open Scope R_scope.

(** ** abstract circular flow: g_tt = -N + w^2 Y, g_tp = - w Y, g_pp = Y *)
Section Circular.
Variables (n y w l : R).
Hypotheses (Hn : 0 < n) (Hy : 0 < y) (Hl : 0 <= l).
Definition c_q : R := sqrt (1 + 4 * l * l * (n / y)).
Definition c_v : R := sqrt ((c_q - 1) / 2).
Definition c_u0 : R := sqrt (1 + c_v * c_v) / sqrt n.
Definition c_up : R := w * c_u0 + c_v / sqrt y.
Lemma c_q2 : c_q * c_q = 1 + 4 * l * l * (n / y).
Proof.
  unfold c_q. apply sqrt_sqrt. assert (0 < n / y) by (apply Rdiv_lt_0_compat; assumption). assert (0 <= l * l) by nra. nra.
Qed.
Lemma c_q1 : 1 <= c_q.
Proof.
  assert (E := c_q2). assert (0 <= c_q) by apply sqrt_pos. assert (0 < n / y) by (apply Rdiv_lt_0_compat; assumption). assert (0 <= l * l) by nra. nra.
Qed.
Lemma c_v2 : c_v * c_v = (c_q - 1) / 2.
Proof. unfold c_v. apply sqrt_sqrt. assert (E := c_q1). lra. Qed.
Lemma c_v0 : 0 <= c_v. Proof. apply sqrt_pos. Qed.
Lemma c_sn : 0 < sqrt n /\ sqrt n * sqrt n = n. Proof. split; [now apply sqrt_lt_R0 | apply sqrt_sqrt; lra]. Qed.
Lemma c_sy : 0 < sqrt y /\ sqrt y * sqrt y = y. Proof. split; [now apply sqrt_lt_R0 | apply sqrt_sqrt; lra]. Qed.
Lemma c_sv : 0 < sqrt (1 + c_v * c_v) /\ sqrt (1 + c_v * c_v) * sqrt (1 + c_v * c_v) = 1 + c_v * c_v.
Proof. assert (E := c_v0). split; [apply sqrt_lt_R0; nra | apply sqrt_sqrt; nra]. Qed.
Lemma c_u0_pos : 0 < c_u0. Proof. unfold c_u0. apply Rdiv_lt_0_compat; [apply c_sv | apply c_sn]. Qed.
Lemma c_u0_2 : c_u0 * c_u0 = (1 + c_v * c_v) / n.
Proof.
  unfold c_u0. destruct c_sn as [P E], c_sv as [_ E'].
  replace (sqrt (1 + c_v * c_v) / sqrt n * (sqrt (1 + c_v * c_v) / sqrt n)) with ((sqrt (1 + c_v * c_v) * sqrt (1 + c_v * c_v)) / (sqrt n * sqrt n)) by (field; lra).
  rewrite E, E'. reflexivity.
Qed.
Lemma c_rel2 : (c_up - w * c_u0) * (c_up - w * c_u0) = c_v * c_v / y.
Proof. 
  unfold c_up. destruct c_sy as [P E].
  replace ((w * c_u0 + c_v / sqrt y - w * c_u0) * (w * c_u0 + c_v / sqrt y - w * c_u0)) with (c_v * c_v / (sqrt y * sqrt y)) by (field; lra).
  rewrite E. reflexivity.
Qed.
(** the angular momentum *)
Lemma c_l : c_u0 * (y * (c_up - w * c_u0)) = l.
Proof.
  assert (V := c_v0). destruct c_sn as [P1 E1], c_sy as [P2 E2], c_sv as [P3 E3].
  assert (E : c_u0 * (y * (c_up - w * c_u0)) = sqrt (1 + c_v * c_v) * c_v * sqrt y / sqrt n).
  { unfold c_up. replace (w * c_u0 + c_v / sqrt y - w * c_u0) with (c_v / sqrt y) by ring. unfold c_u0.
    transitivity (sqrt (1 + c_v * c_v) / sqrt n * ((sqrt y * sqrt y) * (c_v / sqrt y))); [rewrite E2; reflexivity | field; lra]. }
  rewrite E. set (z := sqrt (1 + c_v * c_v) * c_v * sqrt y / sqrt n).
  assert (Z : 0 <= z). { unfold z. apply Rmult_le_pos; [|left; now apply Rinv_0_lt_compat]. repeat apply Rmult_le_pos; lra. }
  assert (Z2 : z * z = l * l).
  { unfold z. replace (sqrt (1 + c_v * c_v) * c_v * sqrt y / sqrt n * (sqrt (1 + c_v * c_v) * c_v * sqrt y / sqrt n))
      with ((sqrt (1 + c_v * c_v) * sqrt (1 + c_v * c_v)) * (c_v * c_v) * (sqrt y * sqrt y) / (sqrt n * sqrt n)) by (field; lra).
    rewrite E3, E1, E2, c_v2. assert (Q := c_q2).
    replace ((1 + (c_q - 1) / 2) * ((c_q - 1) / 2) * y / n) with ((c_q * c_q - 1) * y / (4 * n)) by (field; lra).
    rewrite Q. field. lra. }
  nra.
Qed.
Lemma c_norm : (- n + w * w * y) * (c_u0 * c_u0) + 2 * (- (w * y)) * c_u0 * c_up + y * (c_up * c_up) = -1.
Proof.
  replace ((- n + w * w * y) * (c_u0 * c_u0) + 2 * (- (w * y)) * c_u0 * c_up + y * (c_up * c_up))
    with (- n * (c_u0 * c_u0) + y * ((c_up - w * c_u0) * (c_up - w * c_u0))) by ring.
  rewrite c_u0_2, c_rel2. field. lra.
Qed.
(** only one future circular velocity has this angular momentum *)
Lemma c_unique u0 up : 0 < u0 -> (- n + w * w * y) * (u0 * u0) + 2 * (- (w * y)) * u0 * up + y * (up * up) = -1 ->
  u0 * (y * (up - w * u0)) = l -> u0 = c_u0 /\ up = c_up.
Proof.
  intros P N L. set (d := up - w * u0) in *.
  assert (N' : n * (u0 * u0) = 1 + y * (d * d)) by (unfold d; nra).
  assert (D : 0 <= d). { assert (0 < u0 * y) by nra. nra. }
  (* x = y d^2 and v^2 solve x (1 + x) = l^2 n / y *)
  set (x := y * (d * d)) in *. set (x' := c_v * c_v).
  assert (X0 : 0 <= x) by (unfold x; nra). assert (X0' : 0 <= x') by (unfold x'; nra).
  assert (X1 : x * (1 + x) = l * l * n / y).
  { unfold x at 1. rewrite <- N'. rewrite <- L. field. lra. }
  assert (X1' : x' * (1 + x') = l * l * n / y).
  { unfold x'. rewrite c_v2. assert (Q := c_q2). replace ((c_q - 1) / 2 * (1 + (c_q - 1) / 2)) with ((c_q * c_q - 1) / 4) by field. rewrite Q. field. lra. }
  assert (X : x = x') by nra.
  assert (U2 : u0 * u0 = c_u0 * c_u0). { rewrite c_u0_2. fold x'. rewrite <- X. apply (Rmult_eq_reg_l n); [|lra]. rewrite N'. field. lra. }
  assert (U : u0 = c_u0). { assert (C := c_u0_pos). nra. }
  split; [exact U|].
  assert (Dd : d = c_up - w * c_u0).
  { assert (D' : 0 <= c_up - w * c_u0). { unfold c_up. replace (w * c_u0 + c_v / sqrt y - w * c_u0) with (c_v / sqrt y) by ring. apply Rmult_le_pos; [apply c_v0 | left; apply Rinv_0_lt_compat; apply c_sy]. }
    assert (D2 : d * d = (c_up - w * c_u0) * (c_up - w * c_u0)). { rewrite c_rel2. fold x'. rewrite <- X. unfold x. field. lra. }
    nra. }
  unfold d in Dd. rewrite U in Dd. lra.
Qed.
End Circular.

(** the potential of the flow and the force on it *)
Definition c_pot (l n y w : R) : R := / 2 * ln ((1 + sqrt (1 + 4 * l * l * (n / y))) / n) - / 2 * sqrt (1 + 4 * l * l * (n / y)) - w * l.
Lemma c_balance (N Y W : R -> R) (x n' y' w' l : R) : 0 < N x -> 0 < Y x -> 0 <= l ->
  is_derive N x n' -> is_derive Y x y' -> is_derive W x w' ->
  let u0 := c_u0 (N x) (Y x) l in let up := c_up (N x) (Y x) (W x) l in
  is_derive (fun t => c_pot l (N t) (Y t) (W t)) x
    (((- n' + 2 * W x * w' * Y x + W x * W x * y') * (u0 * u0) + 2 * (- (w' * Y x) - W x * y') * (u0 * up) + y' * (up * up)) / 2).
Proof.
  intros Hn Hy Hl DN DY DW u0 up.
  assert (L := c_l (N x) (Y x) (W x) l Hn Hy Hl). assert (U2 := c_u0_2 (N x) (Y x) l Hn).
  assert (R2 := c_rel2 (N x) (Y x) (W x) l Hy). assert (V2 := c_v2 (N x) (Y x) l Hn Hy). assert (Q2 := c_q2 (N x) (Y x) l Hn Hy). assert (Q1 := c_q1 (N x) (Y x) l Hn Hy).
  fold u0 up in L, R2. fold u0 in U2.
  replace (((- n' + 2 * W x * w' * Y x + W x * W x * y') * (u0 * u0) + 2 * (- (w' * Y x) - W x * y') * (u0 * up) + y' * (up * up)) / 2)
    with ((- n' * (u0 * u0) + y' * ((up - W x * u0) * (up - W x * u0))) / 2 - w' * (u0 * (Y x * (up - W x * u0)))) by field.
  rewrite L, R2, U2, V2. clear L R2 U2 V2.
  unfold c_pot.
  assert (Pq : 0 < 1 + 4 * l * l * (N x / Y x)).
  { assert (0 < N x / Y x) by (apply Rdiv_lt_0_compat; assumption). assert (0 <= l * l) by nra. nra. }
  auto_derive.
  - assert (A1 : ex_derive (fun x0 : R => N x0) x) by (exists n'; exact DN). assert (A2 : ex_derive (fun x0 : R => Y x0) x) by (exists y'; exact DY). assert (A3 : ex_derive (fun x0 : R => W x0) x) by (exists w'; exact DW).
    assert (A4 : 0 < (1 + sqrt (1 + 4 * l * l * (N x * / Y x))) * / N x).
    { change (0 < (1 + c_q (N x) (Y x) l) / N x). apply Rdiv_lt_0_compat; lra. }
    assert (A5 : N x <> 0) by lra. assert (A6 : Y x <> 0) by lra. tauto.
  - change (sqrt (1 + 4 * l * l * (N x * / Y x))) with (c_q (N x) (Y x) l). 
    assert (DN' : Derive (fun x0 : R => N x0) x = n') by (apply is_derive_unique; exact DN).
    assert (DY' : Derive (fun x0 : R => Y x0) x = y') by (apply is_derive_unique; exact DY).
    assert (DW' : Derive (fun x0 : R => W x0) x = w') by (apply is_derive_unique; exact DW). rewrite !DN', !DY', !DW'.
    set (q := c_q (N x) (Y x) l) in *. clearbody q. set (n := N x) in *. set (y := Y x) in *. clearbody n y.
    assert (Ql : l * l = (q * q - 1) * y / (4 * n)). { rewrite Q2. field. lra. }
    match goal with |- @eq _ ?a ?b => change (@eq R a b) end.
    replace (4 * l * l) with (4 * (l * l)) by ring. rewrite Ql. field. repeat split; lra.
Qed.

(** ** the Kerr metric *)
Definition kN (a r th : R) : R := fm_SS a r (cos th) * fm_DD a r / fm_AA a r (sin th).
Definition kY (a r th : R) : R := fm_AA a r (sin th) * (sin th * sin th) / fm_SS a r (cos th).
Definition kW (a r th : R) : R := 2 * a * r / fm_AA a r (sin th).
Lemma cos2 th : cos th * cos th = 1 - sin th * sin th.
Proof. assert (E := sin2_cos2 th). unfold Rsqr in E. lra. Qed.
Lemma k_SS a r th : 0 < r -> 0 < fm_SS a r (cos th).
Proof. intros H. unfold fm_SS. assert (0 < r * r) by nra. assert (0 <= (a * cos th) * (a * cos th)) by nra. nra. Qed.
Lemma k_AA a r th : 0 < r -> 0 < fm_AA a r (sin th).
Proof.
  intros H. assert (E : fm_AA a r (sin th) = (r * r + a * a) * fm_SS a r (cos th) + 2 * r * (a * sin th * (a * sin th))).
  { unfold fm_AA, fm_SS, fm_DD. replace (a * a * cos th * cos th) with (a * a * (cos th * cos th)) by ring. rewrite cos2. ring. }
  rewrite E. assert (S := k_SS a r th H). assert (0 < r * r) by nra. assert (0 <= a * a) by nra. assert (0 <= a * sin th * (a * sin th)) by nra.
  assert (0 < (r * r + a * a) * fm_SS a r (cos th)) by (apply Rmult_lt_0_compat; lra). assert (0 <= r * (a * sin th * (a * sin th))) by (apply Rmult_le_pos; lra). lra.
Qed.
Lemma kN_pos a r th : 0 < r -> 0 < fm_DD a r -> 0 < kN a r th.
Proof. intros H D. unfold kN. apply Rdiv_lt_0_compat; [apply Rmult_lt_0_compat; [now apply k_SS | exact D] | now apply k_AA]. Qed.
Lemma kY_pos a r th : 0 < r -> sin th <> 0 -> 0 < kY a r th.
Proof. intros H S. unfold kY. apply Rdiv_lt_0_compat; [apply Rmult_lt_0_compat; [now apply k_AA | nra] | now apply k_SS]. Qed.
Lemma kerr_metric a r th x3 : 0 < r -> let g := BL_SpacetimeMetric a (row4 0 r th x3) in
  g 0%nat 0%nat = - kN a r th + kW a r th * kW a r th * kY a r th /\
  g 0%nat 3%nat = - (kW a r th * kY a r th) /\ g 3%nat 3%nat = kY a r th /\ g 0%nat 0%nat = - (1 - 2 * r / fm_SS a r (cos th)) /\
  g 0%nat 3%nat = - (2 * a * r * (sin th * sin th)) / fm_SS a r (cos th).
Proof.
  intros H g. assert (S := k_SS a r th H). assert (A := k_AA a r th H).
  assert (M : bl_mu (a * a) r (cos th) = fm_SS a r (cos th) / (r * r)).
  { unfold bl_mu, fm_SS. rewrite gratio_nz by nra. field. lra. }
  assert (M0 : fm_SS a r (cos th) / (r * r) <> 0). { apply Rgt_not_eq. apply Rdiv_lt_0_compat; nra. }
  assert (E0 : g 0%nat 0%nat = - (1 - 2 * r / fm_SS a r (cos th))).
  { unfold g, BL_SpacetimeMetric, rows4, row4. rewrite !Rabs_pos_eq by lra. rewrite M. rewrite gratio_nz by nra. field. nra. }
  assert (E3 : g 0%nat 3%nat = - (2 * a * r * (sin th * sin th)) / fm_SS a r (cos th)).
  { unfold g, BL_SpacetimeMetric, rows4, row4. rewrite !Rabs_pos_eq by lra. rewrite M. rewrite gratio_nz by nra. field. nra. }
  assert (EP : g 3%nat 3%nat = kY a r th).
  { unfold g, BL_SpacetimeMetric, rows4, row4. rewrite !Rabs_pos_eq by lra. rewrite M. rewrite !gratio_nz; try nra.
    - unfold kY, fm_AA, fm_DD. unfold fm_SS in *. replace (a * a * cos th * cos th) with (a * a * (cos th * cos th)) in * by ring. rewrite cos2 in *. field. repeat split; nra.
    - assert (0 < r * r * r) by (assert (0 < r * r) by nra; nra). apply Rgt_not_eq. apply Rmult_lt_0_compat; [assumption|]. apply Rdiv_lt_0_compat; nra. }
  split; [|split; [|split; [|split]]]; auto.
  - rewrite E0. unfold kN, kW, kY. apply (Rmult_eq_reg_r (fm_AA a r (sin th) * fm_SS a r (cos th))); [|nra].
    transitivity (- fm_AA a r (sin th) * (fm_SS a r (cos th) - 2 * r)); [field; lra|].
    transitivity (- fm_SS a r (cos th) * fm_SS a r (cos th) * fm_DD a r + 4 * a * a * r * r * (sin th * sin th)); [|field; lra].
    unfold fm_AA, fm_DD, fm_SS. replace (a * a * cos th * cos th) with (a * a * (cos th * cos th)) by ring. rewrite cos2. ring.
  - rewrite E3. unfold kW, kY. field. lra.
Qed.
Lemma fm_pot a l r th : 0 < r -> sin th <> 0 -> fm_potential a l r (sin th) (cos th) = c_pot l (kN a r th) (kY a r th) (kW a r th).
Proof.
  intros H S. assert (Sp := k_SS a r th H). assert (A := k_AA a r th H). unfold fm_potential, c_pot.
  replace (4 * (l * l * fm_SS a r (cos th) * fm_SS a r (cos th)) * fm_DD a r / (fm_AA a r (sin th) * fm_AA a r (sin th) * sin th * sin th))
    with (4 * l * l * (kN a r th / kY a r th)).
  2:{ unfold kN, kY. field. repeat split; lra. }
  unfold kW. replace (2 * a * r * l / fm_AA a r (sin th)) with (2 * a * r / fm_AA a r (sin th) * l) by (field; lra). reflexivity.
Qed.
Lemma fm_up a l r th : 0 < r -> 0 < fm_DD a r -> 0 < sin th -> fm_uphi r th a l = c_up (kN a r th) (kY a r th) (kW a r th) l.
Proof.
  intros H D S. assert (Sp := k_SS a r th H). assert (A := k_AA a r th H). unfold fm_uphi. cbv zeta.
  replace (fm_SS a r (cos th) * fm_SS a r (cos th) * fm_DD a r / (fm_AA a r (sin th) * fm_AA a r (sin th) * sin th * sin th)) with (kN a r th / kY a r th).
  2:{ unfold kN, kY. field. repeat split; lra. }
  fold (c_q (kN a r th) (kY a r th) l). replace (-1 + c_q (kN a r th) (kY a r th) l) with (c_q (kN a r th) (kY a r th) l - 1) by ring.
  fold (c_v (kN a r th) (kY a r th) l). set (v := c_v (kN a r th) (kY a r th) l). unfold c_up, c_u0. fold v.
  assert (E1 : sqrt (fm_AA a r (sin th) * fm_SS a r (cos th) * fm_DD a r) = fm_AA a r (sin th) * sqrt (kN a r th)).
  { replace (fm_AA a r (sin th) * fm_SS a r (cos th) * fm_DD a r) with (fm_AA a r (sin th) * fm_AA a r (sin th) * kN a r th) by (unfold kN; field; lra).
    rewrite sqrt_mult; [|nra|left; now apply kN_pos]. rewrite sqrt_square by lra. reflexivity. }
  assert (E2 : sqrt (kY a r th) = sin th * / sqrt (fm_SS a r (cos th) / fm_AA a r (sin th))).
  { replace (kY a r th) with (sin th * sin th * (/ (fm_SS a r (cos th) / fm_AA a r (sin th)))) by (unfold kY; field; lra).
    assert (Q : 0 < fm_SS a r (cos th) / fm_AA a r (sin th)) by (apply Rdiv_lt_0_compat; assumption).
    rewrite sqrt_mult; [|nra|left; now apply Rinv_0_lt_compat]. rewrite sqrt_square by lra. rewrite <- sqrt_inv. reflexivity. }
  rewrite E1, E2. unfold kW. assert (0 < sqrt (kN a r th)) by (apply sqrt_lt_R0; now apply kN_pos).
  assert (0 < sqrt (fm_SS a r (cos th) / fm_AA a r (sin th))) by (apply sqrt_lt_R0; apply Rdiv_lt_0_compat; assumption).
  field. repeat split; lra.
Qed.
