(** C53: the analytic test problems start from the state they are named after. *)
From Coq Require Import Reals ZArith List Bool Arith Lia Lra.
From Coquelicot Require Import Coquelicot.
From Flocq Require Import Core.
From Verif.Spec Require Import Tensor GeomSpec Relativity GRMHD WaveSpec ExpandSpec.
From Verif.Model Require Import Num RootFind Geometry Relativity Units LinearModes TestProblems.
From Verif.Proofs Require Import NumR WaveProofs ExpandProofs RootFindProofs.
Import ListNotations.
Local Open Scope R_scope.

(** ** energy from density and pressure *)
Lemma Rle_bool_t (x y : R) : x <= y -> Rle_bool x y = true.
Proof. intros H. apply Rle_bool_true. exact H. Qed.

Lemma regula_linear (s P : R) (n : nat) (tol sg a b : R) (count : Z) (tr : list R) :
  0 < s -> 0 <= tol -> 2 * tol < b - a -> sg <> 0 ->
  exists count' tr',
    regula_loop (fun e => s * e - P) (S (S n)) tol sg a b ((s * a - P) * sg) ((s * b - P) * sg) 0 0 count tr
    = (P / s, P / s, count', tr').
Proof.
  intros Hs Ht Hab Hg.
  assert (St : forall (x : R) ya yb b1 b2 c t, regula_loop (fun e => s * e - P) (S n) tol sg x x ya yb b1 b2 c t = (x, x, c, t)).
  { intros. cbn [regula_loop]. num_R. rewrite Rlt_bool_false by lra. reflexivity. }
  revert St. generalize (S n). intros m St.
  cbn [regula_loop]. num_R. rewrite Rlt_bool_true by lra.
  assert (C : (a * ((s * b - P) * sg) - b * ((s * a - P) * sg)) / ((s * b - P) * sg - (s * a - P) * sg) = P / s).
  { field. split; [lra|]. replace ((s * b - P) * sg - (s * a - P) * sg) with (s * (b - a) * sg) by ring.
    apply Rmult_integral_contrapositive. split; [|auto]. apply Rmult_integral_contrapositive. lra. }
  rewrite C.
  destruct (Req_bool_spec (P / s) a) as [E|E].
  { rewrite <- E. eexists _, _. apply St. }
  destruct (Req_bool_spec (P / s) b) as [E'|E'].
  { rewrite <- E'. eexists _, _. apply St. }
  assert (Z : sg * (s * (P / s) - P) = 0) by (field; lra).
  rewrite Z. rewrite Rlt_bool_false by lra. eexists _, _. apply St.
Qed.
(** an ideal gas: the energy found is exact, for every pressure the range of energies
    reaches; otherwise the run stops *)
Theorem C53_energy (gam rho P emin emax : R) :
  1 < gam -> 0 < rho -> 2 / 10 ^ 10 * P < emax - emin -> 0 <= P ->
  let press rho e := (gam - 1) * rho * e in
  energy_from_rho_P press rho P emin emax =
    (if Rle_bool (press rho emin) P && Rle_bool P (press rho emax) then Some (P / (gam - 1)) else None).
Proof.
  intros Hg Hr Ht HP press. unfold energy_from_rho_P. rewrite Rle_bool_t by auto.
  assert (T : 0 <= / 10 ^ 10 * P) by (apply Rmult_le_pos; [apply Rlt_le, Rinv_0_lt_compat, pow_lt; lra|auto]).
  set (s := (gam - 1) * rho). assert (Hs : 0 < s) by (apply Rmult_lt_0_compat; lra).
  unfold regula_falsi, refine_bracket. num_R.
  rewrite (Rle_bool_false emin) by lra. cbn [andb].
  change (press rho emin) with (s * emin). change (press rho emax) with (s * emax).
  change (fun e => press rho e - P) with (fun e => s * e - P).
  assert (Hab : emin < emax) by (assert (0 <= 2 / 10 ^ 10 * P) by (unfold Rdiv; lra); lra).
  assert (Hm : s * emin < s * emax) by (apply Rmult_lt_compat_l; auto).
  unfold check_bracket. num_R. rewrite Bool.negb_involutive.
  destruct (Rle_bool_spec (s * emin) P) as [L|L]; [destruct (Rle_bool_spec P (s * emax)) as [U|U]|]; cbn [andb].
  - rewrite Rlt_bool_false by nra.
    assert (B : exists n, budget (new_RootFind 2147483647) = S (S n)).
    { exists (Z.to_nat 2147483645). unfold budget, new_RootFind. cbn [max_iter iteration_count]. lia. }
    destruct B as [n B]. rewrite B.
    set (sg := if Rlt_bool (s * emin - P) 0 then 1 else IZR (-1)).
    assert (Hsg : sg <> 0) by (unfold sg; destruct (Rlt_bool _ _); lra).
    destruct (regula_linear s P n (/ 10 ^ 10 * P) sg emin emax (iteration_count (new_RootFind 2147483647)) [emin; emax] Hs T ltac:(lra) Hsg)
      as (c' & t' & E).
    rewrite E. f_equal. unfold s. field. split; lra.
  - rewrite Rlt_bool_true by nra. reflexivity.
  - rewrite Rlt_bool_true by nra. reflexivity.
Qed.
Print Assumptions C53_energy.
Example C53_energy_ex : 1 < 4 / 3 /\ 0 < 1 /\ 2 / 10 ^ 10 * 1 < 10 ^ 6 - 0 /\ 0 <= 1.
Proof. simpl pow. lra. Qed.
(** the tolerance of this search is a pressure compared with an energy: at high pressure the
    answer is the middle of the range, whatever the pressure *)
Theorem C53_energy_tolerance_refuted :
  exists gam rho P emin emax, 1 < gam /\ 0 < rho /\ 0 <= P /\
    (gam - 1) * rho * emin < P < (gam - 1) * rho * emax /\
    exists u, energy_from_rho_P (fun rho e => (gam - 1) * rho * e) rho P emin emax = Some u /\ (gam - 1) * u < 3 / 5 * P.
Proof.
  exists 2, (10 ^ 12), (9 / 10 * 10 ^ 12), 0, 1.
  split; [lra|]. split; [simpl pow; lra|]. split; [simpl pow; lra|].
  split; [split; simpl pow; lra|].
  exists (10 ^ 12 * (1 / 2)). split; [|simpl pow; lra].
  unfold energy_from_rho_P. rewrite Rle_bool_t by (simpl pow; lra).
  unfold regula_falsi, refine_bracket. num_R. rewrite (Rle_bool_false 0) by (simpl pow; lra). cbn [andb].
  unfold check_bracket. num_R. rewrite Bool.negb_involutive. rewrite Rlt_bool_false by (simpl pow; lra).
  assert (B : exists n, budget (new_RootFind 2147483647) = S n).
  { exists (Z.to_nat 2147483646). unfold budget, new_RootFind. cbn [max_iter iteration_count]. lia. }
  destruct B as [n B]. rewrite B. cbn [regula_loop]. num_R.
  rewrite (Rlt_bool_false _ (1 - 0)) by (simpl pow; lra). do 2 f_equal. lra.
Qed.
Print Assumptions C53_energy_tolerance_refuted.

(** ** the relativistic blast wave *)
(** inside the shock the data are a time slice of a freely expanding ball of Gamma = 4/3 gas,
    an exact solution of the equations at every event inside the light cone *)
Theorem C53_blast_exact (A C : R) (n : nat) (X : vec) : (n < 9)%nat -> inside_cone X ->
  divergence (fun Y => current (4 / 3) n (expanding A C Y)) X = 0.
Proof. apply expanding_solves. Qed.
Print Assumptions C53_blast_exact.
Theorem C53_blast_data (wshock rho0 tshock P0 : R) :
  1 < wshock -> 0 < tshock -> 0 < rho0 -> 0 < P0 ->
  exists A C t, 0 < A /\ 0 < C /\ tshock < t /\
    (* one solution at one time, for all zones of the ball *)
    (forall x y z, let r := sqrt (x * x + y * y + z * z) in 0 < r < tshock ->
      let X := row4 t x y z in
      let q := expanding A C X in
      let '(rho, P, vr) := bm_cell wshock rho0 tshock P0 r in
      inside_cone X /\
      g_rho q = rho /\ (4 / 3 - 1) * g_u q = P /\
      (* the radial velocity is the whole velocity *)
      (forall i, (i < 3)%nat -> g_vp q i = vr * (X (S i) / r))) /\
    (* at the edge of the ball the gas moves with the Lorentz factor of the shock *)
    gas_W (expanding A C (row4 t tshock 0 0)) = wshock.
Proof.
  intros Hw Ht Hr HP.
  set (s := bm_rescale wshock).
  assert (S2 : s * s = 1 - 1 / (wshock * wshock)).
  { apply sqrt_sqrt. assert (1 / (wshock * wshock) < 1); [|lra].
    apply Rmult_lt_reg_r with (wshock * wshock); [nra|]. unfold Rdiv. rewrite Rmult_assoc, Rinv_l by nra. nra. }
  assert (Q : 0 < 1 / (wshock * wshock)) by (apply Rdiv_lt_0_compat; nra).
  assert (Q1 : 1 / (wshock * wshock) < 1).
  { apply Rmult_lt_reg_r with (wshock * wshock); [nra|]. unfold Rdiv. rewrite Rmult_assoc, Rinv_l by nra. nra. }
  assert (Hs : 0 < s) by (apply sqrt_lt_R0; lra).
  assert (Hs1 : s < 1) by nra.
  exists (rho0 / s ^ 3), (P0 / s ^ 2), (tshock / s).
  split; [apply Rdiv_lt_0_compat; [lra|apply pow_lt; lra]|].
  split; [apply Rdiv_lt_0_compat; [lra|apply pow_lt; lra]|].
  set (T := tshock / s).
  assert (HT : tshock < T).
  { unfold T. apply Rmult_lt_reg_r with s; [lra|]. unfold Rdiv. rewrite Rmult_assoc, Rinv_l by lra. nra. }
  assert (ET : tshock = T * s) by (unfold T; field; lra).
  split; [exact HT|]. split.
  - intros x y z r [Hr0 Hr1].
    assert (R2 : r * r = x * x + y * y + z * z) by (apply sqrt_sqrt; nra).
    intros X q. unfold bm_cell. rewrite Rabs_pos_eq by lra. rewrite Rlt_bool_true by lra. fold s.
    assert (I : interval2 X = T * T - r * r) by (unfold interval2, X; cbn [row4]; fold T; rewrite R2; ring).
    assert (IP : 0 < interval2 X) by (rewrite I; nra).
    assert (V : 1 - s * r / tshock * (s * r / tshock) = interval2 X / (T * T)).
    { rewrite I, ET. field. lra. }
    assert (SV : sqrt (1 - s * r / tshock * (s * r / tshock)) = sqrt (interval2 X) / T).
    { rewrite V. rewrite sqrt_div by nra. f_equal. apply sqrt_square. lra. }
    rewrite SV. pose proof (sqrt_lt_R0 _ IP) as TP.
    unfold q, expanding. cbn [g_rho g_u g_vp]. set (tau := sqrt (interval2 X)) in *.
    split; [split; [unfold X; cbn [row4]; fold T; lra|exact IP]|].
    split; [rewrite ET; field; lra|].
    split; [rewrite ET; field; lra|].
    intros i Hi; rewrite ET; field; lra.
  - assert (J : interval2 (row4 T tshock 0 0) = (T / wshock) * (T / wshock)).
    { unfold interval2. cbn [row4]. rewrite ET.
      transitivity (T * T * (1 - s * s)); [ring|]. rewrite S2. field. lra. }
    rewrite expanding_W.
    + rewrite J, sqrt_square by (apply Rlt_le, Rdiv_lt_0_compat; lra). cbn [row4]. field. lra.
    + split; [cbn [row4]; lra|rewrite J]. assert (0 < T / wshock) by (apply Rdiv_lt_0_compat; lra). nra.
Qed.
Print Assumptions C53_blast_data.
Example C53_blast_ex : 1 < 7 /\ 0 < 1 / 4 /\ 0 < / 100 /\ 0 < / 10000 /\ 0 < sqrt (1 / 8 * (1 / 8) + 0 * 0 + 0 * 0) < 1 / 4.
Proof.
  replace (1 / 8 * (1 / 8) + 0 * 0 + 0 * 0) with ((1 / 8) * (1 / 8)) by ring. rewrite sqrt_square by lra. lra.
Qed.
(** outside the shock the gas is uniform and at rest *)
Theorem C53_blast_outside (wshock rho0 tshock P0 r : R) : tshock <= r ->
  bm_cell wshock rho0 tshock P0 r =
    (rho0 * (1 / tshock) ^ 3, bm_rescale wshock * bm_rescale wshock * P0 * (1 / tshock) ^ 4, 0).
Proof.
  intros H. unfold bm_cell. rewrite Rlt_bool_false by (pose proof (Rle_abs r); lra).
  replace (1 - 0 * 0) with 1 by ring. rewrite sqrt_1, Rmult_0_r. replace (1 / 1) with 1 by field. reflexivity.
Qed.
Print Assumptions C53_blast_outside.

(** ** the energy of the Sedov explosion *)
(** the energy put into the ball of radius rinner is the explosion energy *)
Theorem C53_sedov (Eexp rinner ua : R) : 0 < rinner ->
  is_RInt (fun r => 4 * PI * (r * r) * sedov_u Eexp rinner ua r) 0 rinner Eexp /\
  (forall r, rinner < r -> sedov_u Eexp rinner ua r = ua).
Proof.
  intros H. split.
  - set (u := Eexp / (4 / 3 * PI * rinner ^ 3)).
    apply (is_RInt_ext (fun r : R => 4 * PI * u * (r * r))).
    + intros r [_ Hr]. rewrite Rmax_right in Hr by lra. unfold sedov_u. rewrite Rle_bool_true by lra. unfold u.
      match goal with |- @eq _ ?x ?y => change (@eq R x y) end. ring.
    + evar_last.
      * apply (is_RInt_derive (V := R_CompleteNormedModule) (fun r : R => 4 * PI * u * (r * r * r / 3))).
        { intros r _. auto_derive; [trivial|]. match goal with |- @eq _ ?x ?y => change (@eq R x y) end. field. }
        { intros r _. apply (ex_derive_continuous (V := R_NormedModule)). auto_derive. trivial. }
      * unfold minus, plus, opp; cbn -[PI]. unfold u. field. split; [lra|apply PI_neq0].
  - intros r Hr. unfold sedov_u. rewrite Rle_bool_false by lra. reflexivity.
Qed.
Print Assumptions C53_sedov.
(** in one dimension the same number is not the energy of the region heated, which is a slab
    of width 2 rinner *)
Theorem C53_sedov_1d_refuted :
  exists Eexp rinner, 0 < Eexp /\ 0 < rinner /\
    (forall x, Rabs x <= rinner -> forall y z, sedov_r 1 x y z <= rinner) /\
    ~ is_RInt (fun x => sedov_u Eexp rinner 0 (sedov_r 1 x 0 0)) (- rinner) rinner Eexp.
Proof.
  exists 1, (/ 100).
  assert (Sr : forall x y z, sedov_r 1 x y z = Rabs x).
  { intros. unfold sedov_r. cbn [Nat.ltb Nat.leb]. replace (x * x + 0 * 0 + 0 * 0) with (x * x) by ring. apply sqrt_Rsqr_abs. }
  split; [lra|]. split; [lra|]. split; [intros x Hx y z; rewrite Sr; exact Hx|].
  intros I.
  set (u := 1 / (4 / 3 * PI * (/ 100) ^ 3)).
  assert (J : is_RInt (fun x => sedov_u 1 (/ 100) 0 (sedov_r 1 x 0 0)) (- / 100) (/ 100) (u * (2 / 100))).
  { apply (is_RInt_ext (fun _ : R => u)).
    - intros x Hx. rewrite Rmin_left, Rmax_right in Hx by lra. rewrite Sr. unfold sedov_u.
      rewrite Rle_bool_true by (apply Rabs_le; lra). reflexivity.
    - evar_last; [apply (is_RInt_const (V := R_NormedModule))|]. unfold scal; cbn -[u]. unfold mult; cbn -[u]. field. }
  pose proof (is_RInt_unique (V := R_CompleteNormedModule) _ _ _ _ I) as E1.
  pose proof (is_RInt_unique (V := R_CompleteNormedModule) _ _ _ _ J) as E2.
  rewrite E1 in E2. unfold u in E2. pose proof PI_bounds as B.
  assert (E3 : 4 / 3 * PI * (/ 100) ^ 3 = 2 / 100).
  { apply (Rmult_eq_compat_r (4 / 3 * PI * (/ 100) ^ 3)) in E2. rewrite Rmult_1_l in E2. rewrite E2. field. lra. }
  simpl pow in E3. lra.
Qed.
Print Assumptions C53_sedov_1d_refuted.
