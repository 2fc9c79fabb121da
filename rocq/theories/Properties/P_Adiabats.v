(** C54: adiabats of a tabulated equation of state. *)
From Coq Require Import Reals ZArith List Lia Lra Arith Psatz.
From Coquelicot Require Import Coquelicot.
From Flocq Require Import Core.
From Verif.Model Require Import Num RootFind MonopoleGR DataBox Adiabats.
From Verif.Spec Require Import RootSpec AdiabatSpec.
From Verif.Proofs Require Import NumR RootFindProofs DataBoxProofs.
Local Open Scope R_scope.

(** ** the interpolation table *)
(** at the grid points the table is reproduced, in between the value is between its neighbours,
    and the interpolant is continuous *)
Theorem C54_interp (lo hi : R) (n : nat) (d : nat -> R) : lo < hi -> (2 <= n)%nat ->
  let f := interpToReal (setRange lo hi n) d in
  (forall i, (i < n)%nat -> f (lo + INR i * (hi - lo) / INR (n - 1)) = d i) /\
  (forall x, lo <= x <= hi -> exists k, (S k < n)%nat /\ Rmin (d k) (d (S k)) <= f x <= Rmax (d k) (d (S k))) /\
  (forall x, continuity_pt f x).
Proof.
  intros H Hn f. set (G := setRange lo hi n).
  assert (Hdx : 0 < g_dx G) by (apply setRange_dx; auto).
  assert (Hg : (2 <= g_n G)%nat) by exact Hn.
  split; [|split].
  - intros i Hi. replace (lo + INR i * (hi - lo) / INR (n - 1)) with (grid_x G i) by (unfold grid_x, G; cbn [setRange g_dx g_min]; unfold Rdiv; ring).
    apply interp_node; auto.
  - intros x Hx.
    destruct (cell_of G Hdx Hg x) as (k & Hk & Hc).
    { unfold G. rewrite setRange_first. cbn [setRange g_n]. rewrite setRange_last by auto. exact Hx. }
    exists k. split; [exact Hk|]. unfold f. fold G. rewrite (interp_cell G d Hdx Hg k x Hk Hc).
    set (w := (x - grid_x G k) / g_dx G).
    assert (W : 0 <= w <= 1).
    { rewrite grid_x_S in Hc. split.
      - unfold w. apply Rmult_le_pos; [lra|apply Rlt_le, Rinv_0_lt_compat; lra].
      - apply Rmult_le_reg_r with (g_dx G); auto. unfold w, Rdiv. rewrite Rmult_assoc, Rinv_l by lra. lra. }
    clearbody w. unfold Rmin, Rmax. destruct (Rle_dec (d k) (d (S k))); split; nra.
  - intros x. apply interp_continuous; auto.
Qed.
Print Assumptions C54_interp.
Example C54_interp_ex : interpToReal (setRange 0 1 3) (fun i => match i with 0%nat => 2 | 1%nat => 8 | _ => 4 end) (1 / 4) = 5.
Proof.
  assert (Hdx : 0 < g_dx (setRange 0 1 3)) by (apply setRange_dx; [lra|lia]).
  rewrite (interp_cell (setRange 0 1 3) _ Hdx ltac:(cbn; lia) 0 (1 / 4)); [|cbn; lia|unfold grid_x; cbn; lra].
  unfold grid_x. cbn. field.
Qed.

(** ** density samples *)
(** n densities, evenly spaced in the logarithm, starting at the lower bound; the upper bound
    itself is not sampled *)
Theorem C54_samples (lo hi : R) (n : nat) : lo < hi -> (0 < n)%nat ->
  SampleRho lo hi n 0 = lo /\
  (forall i, SampleRho lo hi n (S i) - SampleRho lo hi n i = (hi - lo) / INR n) /\
  (forall i, (i < n)%nat -> lo <= SampleRho lo hi n i < hi) /\
  SampleRho lo hi n (n - 1) = hi - (hi - lo) / INR n.
Proof.
  intros H Hn. assert (N : 0 < INR n) by (apply lt_0_INR; auto). unfold SampleRho.
  split; [cbn; ring|]. split; [intros i; rewrite S_INR; ring|]. split.
  - intros i Hi. apply lt_INR in Hi. pose proof (pos_INR i).
    assert (Q : 0 < (hi - lo) / INR n) by (apply Rdiv_lt_0_compat; lra).
    assert (E : hi - lo = INR n * ((hi - lo) / INR n)) by (field; lra).
    split; [nra|]. assert (INR i * ((hi - lo) / INR n) < INR n * ((hi - lo) / INR n)) by (apply Rmult_lt_compat_r; lra). lra.
  - rewrite minus_INR by lia. cbn [INR]. field. lra.
Qed.
Print Assumptions C54_samples.

(** ** temperatures *)
(** a search that does not use up its INT_MAX iterations *)
Definition converges (f : R -> R) (a b guess : R) : Prop :=
  forall x st rf tr, regula_falsi f fresh a b (epsilon * guess) guess true = Returned x st rf tr ->
    st <> Some failure \/ rf = fresh.
Lemma epsilon_pos : 0 < epsilon.
Proof. apply Rinv_0_lt_compat, pow_lt. lra. Qed.

Lemma status_or_not (f : R -> R) (rf : RootFind) (a b tol guess x : R) st rf' tr :
  regula_falsi f rf a b tol guess false = Returned x st rf' tr ->
  exists st', regula_falsi f rf a b tol guess true = Returned x (Some st') rf' tr /\ check_bracket
    (let '(_, _, ya, yb, _) := refine_bracket f guess a b in ya) (let '(_, _, ya, yb, _) := refine_bracket f guess a b in yb) = true.
Proof.
  unfold regula_falsi. destruct (refine_bracket f guess a b) as [[[[a1 b1] ya] yb] t].
  destruct (check_bracket ya yb); cbn [negb]; [|discriminate].
  destruct (regula_loop _ _ _ _ _ _ _ _ _ _ _ _) as [[[a2 b2] c] t2].
  intros E. injection E as <- _ <- <-. eexists. split; reflexivity.
Qed.
Lemma bracketed_returns (f : R -> R) (a b tol guess : R) : bracketed f a b ->
  exists x rf tr, regula_falsi f fresh a b tol guess false = Returned x None rf tr.
Proof.
  intros B. unfold regula_falsi, refine_bracket.
  assert (C : forall ya yb : R, ya * yb <= 0 -> check_bracket ya yb = true).
  { intros ya yb H. unfold check_bracket. num_R. rewrite Rlt_bool_false; [reflexivity|exact H]. }
  unfold bracketed in B.
  num_R. destruct (Rle_bool a guess && Rle_bool guess b)%bool.
  - destruct (Rlt_bool_spec 0 (f guess * f b)) as [L|L].
    + rewrite C.
      2:{ assert (f a * f guess * (f b * f b) <= 0).
          { replace (f a * f guess * (f b * f b)) with ((f a * f b) * (f guess * f b)) by ring. nra. }
          assert (0 < f b * f b) by (assert (f b <> 0) by (intros E; rewrite E in L; lra); nra). nra. }
      cbn [negb]. destruct (regula_loop _ _ _ _ _ _ _ _ _ _ _ _) as [[[a2 b2] c] t2]. eexists _, _, _. reflexivity.
    + rewrite C by exact L. cbn [negb]. destruct (regula_loop _ _ _ _ _ _ _ _ _ _ _ _) as [[[a2 b2] c] t2]. eexists _, _, _. reflexivity.
  - rewrite C by exact B. cbn [negb]. destruct (regula_loop _ _ _ _ _ _ _ _ _ _ _ _) as [[[a2 b2] c] t2]. eexists _, _, _. reflexivity.
Qed.
Lemma bracketed_not_fresh_failure (f : R -> R) (a b tol guess x : R) st rf tr :
  regula_falsi f fresh a b tol guess false = Returned x st rf tr ->
  forall x' rf' tr', regula_falsi f fresh a b tol guess true = Returned x' (Some failure) rf' tr' -> rf' <> fresh.
Proof.
  intros E x' rf' tr' F Hf. subst rf'. revert E F. unfold regula_falsi.
  destruct (refine_bracket f guess a b) as [[[[a1 b1] ya] yb] t].
  destruct (check_bracket ya yb); cbn [negb]; [|discriminate].
  destruct (regula_loop _ _ _ _ _ _ _ _ _ _ _ _) as [[[a2 b2] c] t2].
  intros _ F. injection F as _ F1 F2 _. unfold report, final_status in F1. cbn [max_iter fresh new_RootFind] in *.
  subst c. cbn in F1. discriminate.
Qed.

(** every temperature computed is, to the tolerance of the search, that of the adiabat; the
    computation goes through whenever the adiabat crosses the temperature range *)
Theorem C54_temperatures (entropy : R -> R -> R) (rho_min rho_max T_min T_max S0 : R) (lrho : nat -> R) (n : nat) :
  thermodynamic entropy rho_min rho_max T_min T_max -> 0 <= T_min < T_max ->
  (forall i, (i < n)%nat -> inside rho_min rho_max (pow10 (lrho i)) /\ exists T, on_adiabat entropy T_min T_max S0 (pow10 (lrho i)) T) ->
  (forall i, (i < n)%nat -> converges (fun T => entropy (pow10 (lrho i)) T - S0) T_min T_max ((T_max - T_min) / 2)) ->
  exists temp, ComputeAdiabats entropy lrho S0 T_min T_max n = Some temp /\
    forall i, (i < n)%nat -> inside T_min T_max (temp i) /\
      exists T, on_adiabat entropy T_min T_max S0 (pow10 (lrho i)) T /\ Rabs (temp i - T) <= (T_max - T_min) / 2 ^ 53.
Proof.
  intros [_ Th] HT HA HC.
  assert (One : forall i, (i < n)%nat -> exists t, ComputeAdiabat entropy lrho S0 T_min T_max i = Some t /\ inside T_min T_max t /\
      exists T, on_adiabat entropy T_min T_max S0 (pow10 (lrho i)) T /\ Rabs (t - T) <= (T_max - T_min) / 2 ^ 53).
  { intros i Hi. destruct (HA i Hi) as (Hr & T & [HT1 HT2] & HS). destruct (Th _ Hr) as (Co & Mo).
    set (rho := pow10 (lrho i)) in *. set (f := fun T => entropy rho T - S0).
    assert (Inc : forall t1 t2, T_min <= t1 -> t1 < t2 -> t2 <= T_max -> f t1 < f t2) by (intros; unfold f; pose proof (Mo t1 t2); lra).
    assert (Fa : f T_min <= 0).
    { destruct (Rle_lt_or_eq_dec _ _ HT1) as [L|E]; [pose proof (Inc T_min T); unfold f in *; lra|unfold f; rewrite E; lra]. }
    assert (Fb : 0 <= f T_max).
    { destruct (Rle_lt_or_eq_dec _ _ HT2) as [L|E]; [pose proof (Inc T T_max); unfold f in *; lra|unfold f; rewrite <- E; lra]. }
    set (guess := (T_max - T_min) / 2).
    destruct (bracketed_returns f T_min T_max (epsilon * guess) guess) as (x & rf & tr & E).
    { unfold bracketed. nra. }
    destruct (status_or_not _ _ _ _ _ _ _ _ _ _ E) as (st & E' & _).
    assert (st = success).
    { destruct st; auto. exfalso. destruct (HC i Hi _ _ _ _ E') as [Q|Q]; [congruence|].
      exact (bracketed_not_fresh_failure _ _ _ _ _ _ _ _ _ E _ _ _ E' Q). }
    subst st. pose proof epsilon_pos as Ep.
    assert (Cf : continuous_on f T_min T_max).
    { intros y Hy. unfold f. apply continuity_pt_minus; [exact (Co y Hy)|apply continuity_pt_const; intros u v; reflexivity]. }
    apply regula_falsi_sound_in in E'; auto.
    - destruct E' as (In & (r & Hr' & Fr & Hd) & _). exists x. split; [|split; [exact In|]].
      + unfold ComputeAdiabat. fold rho. fold f. fold guess. rewrite E. reflexivity.
      + exists r. split; [split; [exact Hr'|unfold f in Fr; lra]|].
        replace ((T_max - T_min) / 2 ^ 53) with (epsilon * guess) by (unfold epsilon, guess; field). exact Hd.
    - apply Rmult_le_pos; [lra|unfold guess; lra].
    - lra.
    - cbn. lia.
    - pose proof (Inc T_min T_max). lra.
    - intros [G0 _] [G1 G2]. unfold guess in *. pose proof (Inc ((T_max - T_min) / 2) T_max G0). lra. }
  assert (All : forall m, (m <= n)%nat -> exists temp, ComputeAdiabats entropy lrho S0 T_min T_max m = Some temp /\
    forall i, (i < m)%nat -> inside T_min T_max (temp i) /\
      exists T, on_adiabat entropy T_min T_max S0 (pow10 (lrho i)) T /\ Rabs (temp i - T) <= (T_max - T_min) / 2 ^ 53); [|apply All; lia].
  induction m as [|m IH]; intros Hm; [exists (fun _ => 0); split; [reflexivity|intros; lia]|].
  destruct (IH ltac:(lia)) as (temp & E & P). destruct (One m ltac:(lia)) as (t & Et & Pt).
  exists (upd temp m t). split; [cbn [ComputeAdiabats]; rewrite E, Et; reflexivity|].
  intros i Hi. unfold upd. destruct (Nat.eqb_spec i m) as [->|N]; [exact Pt|apply P; lia].
Qed.
Print Assumptions C54_temperatures.

(** ** reading the table back *)
(** the samples are laid out with the spacing (hi - lo)/n but read back with (hi - lo)/(n - 1):
    at sample i the table returns a mixture of the temperatures of samples i-1 and i *)
Theorem C54_read_back (lo hi : R) (n i : nat) (temp : nat -> R) : lo < hi -> (2 <= n)%nat -> (1 <= i < n)%nat ->
  interpToReal (setRange lo hi n) temp (SampleRho lo hi n i)
  = INR i / INR n * temp (i - 1)%nat + (1 - INR i / INR n) * temp i.
Proof.
  intros H Hn Hi. set (G := setRange lo hi n).
  assert (Hdx : 0 < g_dx G) by (apply setRange_dx; auto).
  assert (N : 1 < INR n) by (change 1 with (INR 1); apply lt_INR; lia).
  assert (In : 1 <= INR i < INR n) by (split; [change 1 with (INR 1); apply le_INR; lia|apply lt_INR; lia]).
  destruct i as [|i]; [lia|]. replace (S i - 1)%nat with i by lia.
  assert (X : SampleRho lo hi n (S i) = grid_x G i + (1 - INR (S i) / INR n) * g_dx G).
  { unfold SampleRho, grid_x, G. cbn [setRange g_dx g_min]. rewrite (minus_INR n 1) by lia. rewrite S_INR. change (INR 1) with 1. field. lra. }
  assert (W : 0 < 1 - INR (S i) / INR n < 1).
  { assert (Q : INR (S i) / INR n * INR n = INR (S i)) by (field; lra).
    assert (0 < INR (S i) / INR n) by (apply Rdiv_lt_0_compat; lra). split; nra. }
  rewrite (interp_cell G temp Hdx ltac:(exact Hn) i).
  - rewrite X. field. split; lra.
  - cbn [G setRange g_n]. lia.
  - rewrite X, grid_x_S. nra.
Qed.
Print Assumptions C54_read_back.
(** ... so even with the exact temperatures in the table, the state read back at any sample but
    the first lies below the adiabat *)
Theorem C54_entropy_refuted (entropy : R -> R -> R) (rho_min rho_max T_min T_max S0 lo hi : R) (n : nat) (temp : nat -> R) :
  thermodynamic entropy rho_min rho_max T_min T_max -> lo < hi -> (2 <= n)%nat ->
  (forall i, (i < n)%nat -> inside rho_min rho_max (pow10 (SampleRho lo hi n i)) /\
     on_adiabat entropy T_min T_max S0 (pow10 (SampleRho lo hi n i)) (temp i)) ->
  forall i, (1 <= i < n)%nat ->
    entropy (pow10 (SampleRho lo hi n i)) (interpToReal (setRange lo hi n) temp (SampleRho lo hi n i)) < S0.
Proof.
  intros [Th1 Th2] H Hn HA i Hi. rewrite C54_read_back by auto.
  destruct (HA (i - 1)%nat ltac:(lia)) as ([R1a R1b] & [T1a T1b] & E1).
  destruct (HA i ltac:(lia)) as ([R2a R2b] & [T2a T2b] & E2).
  assert (Hl : SampleRho lo hi n (i - 1) < SampleRho lo hi n i).
  { destruct (C54_samples lo hi n H ltac:(lia)) as (_ & D & _). specialize (D (i - 1)%nat). replace (S (i - 1)) with i in D by lia.
    assert (0 < (hi - lo) / INR n) by (apply Rdiv_lt_0_compat; [lra|apply lt_0_INR; lia]). lra. }
  assert (Hr : pow10 (SampleRho lo hi n (i - 1)) < pow10 (SampleRho lo hi n i)) by (apply Rpower_lt; lra).
  set (r1 := pow10 (SampleRho lo hi n (i - 1))) in *. set (r2 := pow10 (SampleRho lo hi n i)) in *.
  set (t1 := temp (i - 1)%nat) in *. set (t2 := temp i) in *.
  destruct (Th1 t1 (conj T1a T1b)) as (_ & Dec). pose proof (Dec r1 r2 R1a Hr R2b) as D1.
  destruct (Th2 r2 (conj R2a R2b)) as (_ & Inc).
  assert (Ht : t1 < t2).
  { destruct (Rlt_or_le t1 t2) as [|L]; auto. exfalso.
    destruct (Rle_lt_or_eq_dec _ _ L) as [L'|E]; [pose proof (Inc t2 t1 T2a L' T1b); lra|rewrite E in E2; lra]. }
  assert (Ni : 0 < INR i / INR n < 1).
  { assert (0 < INR i) by (apply lt_0_INR; lia). assert (INR i < INR n) by (apply lt_INR; lia).
    split; [apply Rdiv_lt_0_compat; lra|]. apply Rmult_lt_reg_r with (INR n); [lra|]. unfold Rdiv. rewrite Rmult_assoc, Rinv_l by lra. lra. }
  set (w := INR i / INR n) in *. clearbody w. rewrite <- E2. apply Inc; nra.
Qed.
Print Assumptions C54_entropy_refuted.
(** an ideal gas meets the hypotheses: entropy ln(T^(3/2) / rho) *)
Definition ideal_entropy (rho T : R) : R := 3 / 2 * ln T - ln rho.
Lemma ideal_thermodynamic (rho_min rho_max T_min T_max : R) : 0 < rho_min -> 0 < T_min ->
  thermodynamic ideal_entropy rho_min rho_max T_min T_max.
Proof.
  intros Hr HT. split.
  - intros T [T1 T2]. split.
    + intros rho [R1 R2]. unfold ideal_entropy. apply continuity_pt_minus; [apply continuity_pt_const; intros a b; reflexivity|].
      apply derivable_continuous_pt. exists (/ rho). apply derivable_pt_lim_ln. lra.
    + intros r1 r2 H1 H2 H3. unfold ideal_entropy. pose proof (ln_increasing r1 r2). lra.
  - intros rho [R1 R2]. split.
    + intros T [T1 T2]. unfold ideal_entropy. apply continuity_pt_minus; [|apply continuity_pt_const; intros a b; reflexivity].
      apply continuity_pt_mult; [apply continuity_pt_const; intros a b; reflexivity|].
      apply derivable_continuous_pt. exists (/ T). apply derivable_pt_lim_ln. lra.
    + intros t1 t2 H1 H2 H3. unfold ideal_entropy. pose proof (ln_increasing t1 t2). lra.
Qed.
Example C54_entropy_ex : let temp i := pow10 (2 / 3 * SampleRho 0 3 2 i) in
  forall i, (i < 2)%nat -> inside 1 1000 (pow10 (SampleRho 0 3 2 i)) /\ on_adiabat ideal_entropy 1 100 0 (pow10 (SampleRho 0 3 2 i)) (temp i).
Proof.
  intros temp i Hi.
  assert (L : 0 < ln 10) by (rewrite <- ln_1; apply ln_increasing; lra).
  assert (S : 0 <= SampleRho 0 3 2 i <= 2) by (unfold SampleRho; destruct i as [|[|]]; try lia; cbn; lra).
  assert (P : forall x k, 0 <= x <= INR k -> 1 <= pow10 x <= 10 ^ k).
  { intros x k Hx. unfold pow10. rewrite <- (Rpower_pow k 10) by lra. rewrite <- (Rpower_O 10) at 1 by lra.
    split; apply Rle_Rpower; lra. }
  set (l := SampleRho 0 3 2 i) in *.
  split; [pose proof (P l 3%nat ltac:(cbn; lra)) as Q; split; lra|]. split.
  - pose proof (P (2 / 3 * l) 2%nat ltac:(cbn; lra)) as Q. unfold temp. fold l. split; lra.
  - unfold ideal_entropy, temp, pow10, Rpower. fold l. rewrite !ln_exp. field.
Qed.

(** ** the smallest enthalpy *)
Theorem C54_min_enthalpy (press sie : R -> R -> R) (G : Grid) (lrho temp : nat -> R) (n : nat) :
  let h i := enthalpy press sie (pow10 (lrho i)) (interpToReal G temp (lrho i)) in
  (forall i, (i < n)%nat -> MinEnthalpy press sie G lrho temp n <= h i) /\
  (MinEnthalpy press sie G lrho temp n = 10 ^ 30 \/ exists i, (i < n)%nat /\ MinEnthalpy press sie G lrho temp n = h i) /\
  MinEnthalpy press sie G lrho temp n <= 10 ^ 30.
Proof.
  intros h. induction n as [|n (I1 & I2 & I3)]; [split; [intros; lia|split; [left; reflexivity|apply Rle_refl]]|].
  cbn [MinEnthalpy]. change (enthalpy_sc press sie (pow10 (lrho n)) (interpToReal G temp (lrho n))) with (h n).
  set (m := MinEnthalpy press sie G lrho temp n) in *.
  destruct (Rlt_bool_spec (h n) m) as [L|L].
  - split; [|split; [right; exists n; split; [lia|reflexivity]|lra]].
    intros i Hi. destruct (Nat.eq_dec i n) as [->|Ne]; [lra|]. pose proof (I1 i ltac:(lia)). lra.
  - split; [|split; [|lra]].
    + intros i Hi. destruct (Nat.eq_dec i n) as [->|Ne]; [lra|]. apply I1; lia.
    + destruct I2 as [I2|(i & Hi & I2)]; [left; exact I2|right; exists i; split; [lia|exact I2]].
Qed.
Print Assumptions C54_min_enthalpy.

(** ** density and energy of a given enthalpy *)
Theorem C54_state (press sie : R -> R -> R) (lo hi : R) (n : nat) (temp : nat -> R) (hm1 h_min : R) :
  lo < hi -> (2 <= n)%nat ->
  let G := setRange lo hi n in
  let lrho := SampleRho lo hi n in
  let T rho := interpToReal G temp (log10 rho) in
  let h rho := enthalpy press sie rho (T rho) in
  let r1 := pow10 lo in
  let r2 := pow10 (lrho (n - 1)%nat) in
  continuous_on h r1 r2 -> (forall a b, r1 <= a -> a < b -> b <= r2 -> h a < h b) ->
  converges (enthalpy_residual press sie G temp hm1 h_min) r1 r2 (/ 2 * (r2 - r1)) ->
  match StateFromEnthalpy press sie G lrho temp hm1 h_min with
  | Some (rho, u) =>
      inside r1 r2 rho /\ u = rho * sie rho (T rho) /\
      exists rho', inside r1 r2 rho' /\ h rho' - h_min = hm1 /\ Rabs (rho - rho') <= (r2 - r1) / 2 ^ 53
  | None => hm1 < h r1 - h_min \/ h r2 - h_min < hm1
  end.
Proof.
  intros H Hn G lrho T h r1 r2 Co Mo HC.
  assert (Hr : r1 < r2).
  { apply Rpower_lt; [lra|]. destruct (C54_samples lo hi n H ltac:(lia)) as (S0 & D & _).
    unfold lrho, SampleRho. assert (0 < INR (n - 1)) by (apply lt_0_INR; lia).
    assert (0 < (hi - lo) / INR n) by (apply Rdiv_lt_0_compat; [lra|apply lt_0_INR; lia]). nra. }
  assert (P1 : 0 < r1) by (apply exp_pos).
  unfold StateFromEnthalpy. cbn [G setRange g_n].
  replace (pow10 (lrho 0%nat)) with r1 by (unfold r1, lrho, SampleRho; cbn; f_equal; ring).
  fold r2. set (f := enthalpy_residual press sie G temp hm1 h_min) in *.
  assert (Ef : forall rho, f rho = hm1 - h rho + h_min) by reflexivity.
  set (guess := / 2 * (r2 - r1)) in *.
  fold G. fold f.
  destruct (regula_falsi f fresh r1 r2 (epsilon * guess) guess false) as [x st rf tr| |] eqn:E.
  - destruct (status_or_not _ _ _ _ _ _ _ _ _ _ E) as (st' & E' & _).
    assert (st' = success).
    { destruct st'; auto. exfalso. destruct (HC _ _ _ _ E') as [Q|Q]; [congruence|].
      exact (bracketed_not_fresh_failure _ _ _ _ _ _ _ _ _ E _ _ _ E' Q). }
    subst st'. pose proof epsilon_pos as Ep.
    apply regula_falsi_sound_in in E'; auto.
    + destruct E' as (In & (r & Hr' & Fr & Hd) & _).
      split; [exact In|]. split; [unfold T; ring|]. exists r. split; [exact Hr'|]. rewrite Ef in Fr. split; [lra|].
      replace ((r2 - r1) / 2 ^ 53) with (epsilon * guess) by (unfold epsilon, guess; field). exact Hd.
    + apply Rmult_le_pos; [lra|unfold guess; lra].
    + lra.
    + cbn. lia.
    + intros y Hy. apply (continuity_pt_ext (fun rho => hm1 - h rho + h_min)); [intros; reflexivity|].
      apply continuity_pt_plus; [|apply continuity_pt_const; intros a b; reflexivity].
      apply continuity_pt_minus; [apply continuity_pt_const; intros a b; reflexivity|exact (Co y Hy)].
    + rewrite !Ef. pose proof (Mo r1 r2). lra.
    + intros [G1 G2] [G3 G4]. rewrite !Ef in *. unfold guess in *.
      pose proof (Mo (/ 2 * (r2 - r1)) r2 G1). lra.
  - destruct (Rlt_or_le hm1 (h r1 - h_min)) as [L|L]; [left; exact L|right].
    destruct (Rlt_or_le (h r2 - h_min) hm1) as [L'|L']; [exact L'|exfalso].
    destruct (bracketed_returns f r1 r2 (epsilon * guess) guess) as (x & rf & tr & E0); [|congruence].
    unfold bracketed. rewrite !Ef. nra.
  - exfalso. revert E. unfold regula_falsi. destruct (refine_bracket f guess r1 r2) as [[[[a1 b1] ya] yb] t].
    destruct (check_bracket ya yb); cbn [negb]; [|discriminate].
    destruct (regula_loop _ _ _ _ _ _ _ _ _ _ _ _) as [[[a2 b2] c] t2]. discriminate.
Qed.
Print Assumptions C54_state.

(** ** the range of densities *)
Lemma search_ok (entropy : R -> R -> R) (rho_min rho_max T_min T_max T S0 guess fallback : R) :
  thermodynamic entropy rho_min rho_max T_min T_max -> inside T_min T_max T -> 0 < rho_min < rho_max -> 0 < guess -> guess <> rho_max ->
  converges (fun rho => entropy rho T - S0) rho_min rho_max guess ->
  exists r, rho_search entropy T S0 rho_min rho_max guess fallback = Some r /\
    ((exists rho0, inside rho_min rho_max rho0 /\ entropy rho0 T = S0 /\ Rabs (r - rho0) <= epsilon * guess) \/
     (r = fallback /\ 0 < (entropy rho_min T - S0) * (entropy rho_max T - S0))).
Proof.
  intros [Th _] HT Hr Hg Hgn HC. destruct (Th T HT) as (Co & Dec). set (f := fun rho => entropy rho T - S0) in *.
  pose proof epsilon_pos as Ep. unfold rho_search. fold f.
  destruct (Rlt_or_le 0 (f rho_min * f rho_max)) as [L|L].
  - destruct (regula_falsi f fresh rho_min rho_max (epsilon * guess) guess true) as [x st rf tr| |] eqn:E.
    + destruct st as [[|]|].
      * exists x. split; [reflexivity|]. apply regula_falsi_sound_in in E.
        -- destruct E as (_ & (r & Hr' & Fr & Hd) & _). left. exists r. split; [exact Hr'|]. split; [unfold f in Fr; lra|exact Hd].
        -- apply Rmult_le_pos; lra.
        -- lra.
        -- cbn; lia.
        -- intros y Hy. unfold f. apply continuity_pt_minus; [exact (Co y Hy)|apply continuity_pt_const; intros u v; reflexivity].
        -- intros [A _]. rewrite A in L. lra.
        -- intros _ [_ B]. rewrite B in L. lra.
      * exists fallback. split; [reflexivity|]. right. split; [reflexivity|exact L].
      * exfalso. revert E. unfold regula_falsi. destruct (refine_bracket f guess rho_min rho_max) as [[[[a1 b1] ya] yb] t].
        destruct (check_bracket ya yb); cbn [negb]; [|discriminate].
        destruct (regula_loop _ _ _ _ _ _ _ _ _ _ _ _) as [[[a2 b2] c] t2]. discriminate.
    + exfalso. revert E. unfold regula_falsi. destruct (refine_bracket f guess rho_min rho_max) as [[[[a1 b1] ya] yb] t].
      destruct (check_bracket ya yb); cbn [negb]; [|discriminate].
      destruct (regula_loop _ _ _ _ _ _ _ _ _ _ _ _) as [[[a2 b2] c] t2]. discriminate.
    + exfalso. revert E. unfold regula_falsi. destruct (refine_bracket f guess rho_min rho_max) as [[[[a1 b1] ya] yb] t].
      destruct (check_bracket ya yb); cbn [negb]; [|discriminate].
      destruct (regula_loop _ _ _ _ _ _ _ _ _ _ _ _) as [[[a2 b2] c] t2]. discriminate.
  - destruct (bracketed_returns f rho_min rho_max (epsilon * guess) guess L) as (x & rf & tr & E).
    destruct (status_or_not _ _ _ _ _ _ _ _ _ _ E) as (st & E' & _).
    assert (st = success).
    { destruct st; auto. exfalso. destruct (HC _ _ _ _ E') as [Q|Q]; [congruence|].
      exact (bracketed_not_fresh_failure _ _ _ _ _ _ _ _ _ E _ _ _ E' Q). }
    subst st. rewrite E'. exists x. split; [reflexivity|].
    assert (D : f rho_max < f rho_min) by (unfold f; pose proof (Dec rho_min rho_max); lra).
    apply regula_falsi_sound_in in E'.
    + destruct E' as (_ & (r & Hr' & Fr & Hd) & _). left. exists r. split; [exact Hr'|]. split; [unfold f in Fr; lra|exact Hd].
    + apply Rmult_le_pos; lra.
    + lra.
    + cbn; lia.
    + intros y Hy. unfold f. apply continuity_pt_minus; [exact (Co y Hy)|apply continuity_pt_const; intros u v; reflexivity].
    + lra.
    + intros [G1 G2] [F1 F2].
      destruct (Rle_lt_or_eq_dec _ _ G2) as [Hlt|He].
      * pose proof (Dec guess rho_max G1 Hlt (Rle_refl _)). unfold f in F1, F2. lra.
      * contradiction.
Qed.

Lemma ln10_2 : 2 < ln 10.
Proof.
  rewrite <- (ln_exp 2). apply ln_increasing; [apply exp_pos|].
  replace 2 with (1 + 1) by ring. rewrite exp_plus. pose proof exp_le_3. pose proof (exp_pos 1). nra.
Qed.
Lemma log10_error (r rho0 delta : R) : 0 < rho0 -> 0 <= delta <= / 2 -> Rabs (r - rho0) <= delta * rho0 ->
  0 < r /\ Rabs (log10 r - log10 rho0) <= delta.
Proof.
  intros H0 Hd H. apply Rabs_le_inv in H. assert (Hh : delta * rho0 <= / 2 * rho0) by (apply Rmult_le_compat_r; lra). assert (Hr : / 2 * rho0 <= r) by lra. assert (Hr' : 0 < r) by lra. clear Hr. rename Hr' into Hr. split; [exact Hr|].
  pose proof ln10_2 as L.
  assert (U : forall x, 0 < x -> ln x <= x - 1).
  { intros x Hx. pose proof (exp_ineq1_le (ln x)) as E. rewrite exp_ln in E by auto. lra. }
  assert (A : ln r - ln rho0 <= 2 * delta).
  { rewrite <- ln_div by auto. eapply Rle_trans; [apply U; apply Rdiv_lt_0_compat; auto|].
    apply Rmult_le_reg_r with rho0; [auto|]. unfold Rdiv. rewrite Rmult_minus_distr_r, Rmult_assoc, Rinv_l by lra. nra. }
  assert (B : ln rho0 - ln r <= 2 * delta).
  { rewrite <- ln_div by auto. eapply Rle_trans; [apply U; apply Rdiv_lt_0_compat; auto|].
    apply Rmult_le_reg_r with r; [auto|]. unfold Rdiv. rewrite Rmult_minus_distr_r, Rmult_assoc, Rinv_l by lra. nra. }
  unfold log10. replace (ln r / ln 10 - ln rho0 / ln 10) with ((ln r - ln rho0) / ln 10) by (field; lra).
  assert (I : 0 < / ln 10) by (apply Rinv_0_lt_compat; lra).
  assert (J : / ln 10 <= / 2) by (apply Rinv_le_contravar; lra).
  assert (EE : - (2 * delta) <= ln r - ln rho0 <= 2 * delta) by (split; lra).
  unfold Rdiv. apply Rabs_le. set (c := / ln 10) in *. set (e := ln r - ln rho0) in *. clearbody c e. clear A B. split; nra.
Qed.
Lemma pow10_log10 (x : R) : 0 < x -> pow10 (log10 x) = x.
Proof.
  intros H. unfold pow10, log10, Rpower. pose proof ln10_2.
  replace (ln x / ln 10 * ln 10) with (ln x) by (field; lra). apply exp_ln; auto.
Qed.
Lemma pow10_mono (x y : R) : x <= y -> pow10 x <= pow10 y.
Proof. intros H. apply Rle_Rpower; lra. Qed.

(** where the adiabat enters the box at T_min and leaves it at T_max, the range starts and ends
    1 % inside (of the logarithm, respectively of the range); otherwise it ends with the box.
    Every density of the range has a temperature on the adiabat *)
Theorem C54_bounds (entropy : R -> R -> R) (rho_min rho_max T_min T_max S0 : R) :
  thermodynamic entropy rho_min rho_max T_min T_max ->
  0 < rho_min -> 2 * rho_min <= rho_max <= 2 ^ 40 * rho_min -> T_min < T_max ->
  (exists rho T, inside rho_min rho_max rho /\ on_adiabat entropy T_min T_max S0 rho T) ->
  converges (fun rho => entropy rho T_min - S0) rho_min rho_max (11 / 10 * rho_min) ->
  converges (fun rho => entropy rho T_max - S0) rho_min rho_max (1 / 10 * rho_max) ->
  (* the entry is not at unit density, where 1 % of the logarithm is nothing *)
  (forall rho, inside rho_min rho_max rho -> entropy rho T_min = S0 -> / 10 ^ 12 <= Rabs (log10 rho)) ->
  exists lo hi l1 l2, GetRhoBounds entropy rho_min rho_max T_min T_max S0 = Some (lo, hi) /\
    lo = l1 + / 100 * Rabs l1 /\ hi = l2 - / 100 * (l2 - lo) /\
    ((exists rho, inside rho_min rho_max rho /\ entropy rho T_min = S0 /\ Rabs (l1 - log10 rho) <= / 10 ^ 15) \/
     l1 = log10 rho_min /\ forall rho, inside rho_min rho_max rho -> entropy rho T_min <> S0) /\
    ((exists rho, inside rho_min rho_max rho /\ entropy rho T_max = S0 /\ Rabs (l2 - log10 rho) <= / 10 ^ 4) \/
     l2 = log10 rho_max /\ forall rho, inside rho_min rho_max rho -> entropy rho T_max <> S0) /\
    ((forall rho, inside rho_min rho_max rho -> entropy rho T_max = S0 -> lo + / 100 <= log10 rho) ->
     forall l, lo <= l <= hi -> inside rho_min rho_max (pow10 l) /\ exists T, on_adiabat entropy T_min T_max S0 (pow10 l) T).
Proof.
  intros Th Hr [Hr1 Hr2] HT (rs & Ts & Hrs & [HTs1 HTs2] & HSs) C1 C2 Unit1.
  pose proof epsilon_pos as Ep.
  destruct (search_ok entropy rho_min rho_max T_min T_max T_min S0 (11 / 10 * rho_min) rho_min Th) as (r1 & E1 & K1);
    [split; lra|lra|lra|lra|exact C1|].
  destruct (search_ok entropy rho_min rho_max T_min T_max T_max S0 (1 / 10 * rho_max) rho_max Th) as (r2 & E2 & K2);
    [split; lra|lra|lra|lra|exact C2|].
  assert (NoRoot : forall T, inside T_min T_max T -> 0 < (entropy rho_min T - S0) * (entropy rho_max T - S0) ->
            forall rho, inside rho_min rho_max rho -> entropy rho T <> S0).
  { intros T HT' Pos rho [Ra Rb] E. destruct Th as [Th _]. destruct (Th T HT') as (_ & Dec).
    assert (Qa : entropy rho T <= entropy rho_min T) by (destruct (Rle_lt_or_eq_dec _ _ Ra) as [L|Eq]; [pose proof (Dec rho_min rho (Rle_refl _) L Rb); lra|rewrite Eq; lra]).
    assert (Qb : entropy rho_max T <= entropy rho T) by (destruct (Rle_lt_or_eq_dec _ _ Rb) as [L|Eq]; [pose proof (Dec rho rho_max Ra L (Rle_refl _)); lra|rewrite Eq; lra]).
    nra. }
  unfold GetRhoBounds. rewrite E1, E2.
  set (l1 := log10 r1). set (l2 := log10 r2). set (lo := l1 + / 100 * Rabs l1).
  exists lo, (l2 - / 100 * (l2 - lo)), l1, l2. split; [reflexivity|]. split; [reflexivity|]. split; [reflexivity|].
  assert (P1 : (exists rho, inside rho_min rho_max rho /\ entropy rho T_min = S0 /\ Rabs (l1 - log10 rho) <= / 10 ^ 15) \/
     l1 = log10 rho_min /\ forall rho, inside rho_min rho_max rho -> entropy rho T_min <> S0).
  { destruct K1 as [(rho0 & H0 & S0' & D)|[Er Pos]]; [left|right; split; [unfold l1; rewrite Er; reflexivity|apply NoRoot; [split; lra|exact Pos]]].
    exists rho0. split; [exact H0|]. split; [exact S0'|]. destruct H0 as [H0 _].
    destruct (log10_error r1 rho0 (11 / 10 * epsilon)) as (_ & Q); [lra|unfold epsilon; lra| |].
    - eapply Rle_trans; [exact D|]. nra.
    - eapply Rle_trans; [exact Q|]. unfold epsilon. lra. }
  assert (P2 : (exists rho, inside rho_min rho_max rho /\ entropy rho T_max = S0 /\ Rabs (l2 - log10 rho) <= / 10 ^ 4 / 4) \/
     l2 = log10 rho_max /\ forall rho, inside rho_min rho_max rho -> entropy rho T_max <> S0).
  { destruct K2 as [(rho0 & H0 & S0' & D)|[Er Pos]]; [left|right; split; [unfold l2; rewrite Er; reflexivity|apply NoRoot; [split; lra|exact Pos]]].
    exists rho0. split; [exact H0|]. split; [exact S0'|]. destruct H0 as [H0 _].
    destruct (log10_error r2 rho0 (1 / 10 * epsilon * 2 ^ 40)) as (_ & Q); [lra|unfold epsilon; lra| |].
    - eapply Rle_trans; [exact D|]. assert (Q : rho_max <= 2 ^ 40 * rho0) by lra. nra.
    - eapply Rle_trans; [exact Q|]. unfold epsilon. lra. }
  split; [exact P1|]. split.
  { destruct P2 as [(rho & A & B & C)|P2]; [left; exists rho; repeat (split; auto); lra|right; exact P2]. }
  intros Unit2 l [Hl1 Hl2].
  assert (Sign : forall T, inside T_min T_max T -> forall a b, rho_min <= a -> a <= b -> b <= rho_max -> entropy b T <= entropy a T).
  { intros T HT' a b Ha Hab Hb. destruct Th as [Th _]. destruct (Th T HT') as (_ & Dec).
    destruct (Rle_lt_or_eq_dec _ _ Hab) as [L|E]; [pose proof (Dec a b Ha L Hb); lra|rewrite E; lra]. }
  assert (Heat : forall rho, inside rho_min rho_max rho -> forall a b, T_min <= a -> a <= b -> b <= T_max -> entropy rho a <= entropy rho b).
  { intros rho Hrho a b Ha Hab Hb. destruct Th as [_ Th]. destruct (Th rho Hrho) as (_ & Inc).
    destruct (Rle_lt_or_eq_dec _ _ Hab) as [L|E]; [pose proof (Inc a b Ha L Hb); lra|rewrite E; lra]. }
  assert (IN1 : inside T_min T_max T_min) by (split; lra). assert (IN2 : inside T_min T_max T_max) by (split; lra).
  pose proof (Rabs_pos l1) as A1.
  (* lower end *)
  assert (Low : rho_min <= pow10 l /\ (pow10 l <= rho_max -> entropy (pow10 l) T_min <= S0)).
  { destruct K1 as [(rho0 & H0 & S0' & D)|[Er Pos]].
    - pose proof (Unit1 rho0 H0 S0') as U.
      destruct (log10_error r1 rho0 (11 / 10 * epsilon)) as (_ & Q); [destruct H0; lra|unfold epsilon; lra| |].
      { eapply Rle_trans; [exact D|]. destruct H0. nra. }
      fold l1 in Q.
      assert (Ge : log10 rho0 <= l).
      { assert (Rabs (log10 rho0) <= Rabs l1 + 11 / 10 * epsilon).
        { replace (log10 rho0) with (l1 - (l1 - log10 rho0)) by ring. eapply Rle_trans; [apply Rabs_triang|]. rewrite Rabs_Ropp. lra. }
        apply Rabs_le_inv in Q. unfold lo, epsilon in *. lra. }
      apply pow10_mono in Ge. rewrite pow10_log10 in Ge by (destruct H0; lra). destruct H0 as [H0 H0'].
      split; [lra|]. intros Hm. rewrite <- S0'. apply Sign; auto; lra.
    - assert (Ge : log10 rho_min <= l) by (unfold lo in Hl1; rewrite <- Er; fold l1; lra).
      apply pow10_mono in Ge. rewrite pow10_log10 in Ge by lra. split; [exact Ge|]. intros Hm.
      assert (Q : entropy rs T_min <= S0) by (rewrite <- HSs; apply Heat; auto; lra).
      assert (Q2 : entropy rho_max T_min <= entropy rs T_min) by (destruct Hrs; apply Sign; auto; lra).
      assert (Q3 : entropy rho_min T_min <= S0) by nra.
      assert (entropy (pow10 l) T_min <= entropy rho_min T_min) by (apply Sign; auto; lra). lra. }
  (* upper end *)
  assert (Up : pow10 l <= rho_max /\ (rho_min <= pow10 l -> S0 <= entropy (pow10 l) T_max)).
  { destruct K2 as [(rho0 & H0 & S0' & D)|[Er Pos]].
    - pose proof (Unit2 rho0 H0 S0') as U.
      destruct (log10_error r2 rho0 (1 / 10 * epsilon * 2 ^ 40)) as (_ & Q); [destruct H0; lra|unfold epsilon; lra| |].
      { eapply Rle_trans; [exact D|]. destruct H0. assert (Q : rho_max <= 2 ^ 40 * rho0) by lra. nra. }
      fold l2 in Q.
      assert (Le : l <= log10 rho0).
      { apply Rabs_le_inv in Q. unfold epsilon in *. lra. }
      apply pow10_mono in Le. rewrite pow10_log10 in Le by (destruct H0; lra). destruct H0 as [H0 H0'].
      split; [lra|]. intros Hm. rewrite <- S0'. apply Sign; auto; lra.
    - assert (Le : l <= log10 rho_max) by (rewrite <- Er; fold l2; lra).
      apply pow10_mono in Le. rewrite pow10_log10 in Le by lra. split; [exact Le|]. intros Hm.
      assert (Q : S0 <= entropy rs T_max) by (rewrite <- HSs; apply Heat; auto; lra).
      assert (Q2 : entropy rs T_max <= entropy rho_min T_max) by (destruct Hrs; apply Sign; auto; lra).
      assert (Q3 : S0 <= entropy rho_max T_max) by nra.
      assert (entropy rho_max T_max <= entropy (pow10 l) T_max) by (apply Sign; auto; lra). lra. }
  destruct Low as [Lo1 Lo2]. destruct Up as [Up1 Up2]. specialize (Lo2 Up1). specialize (Up2 Lo1).
  assert (In : inside rho_min rho_max (pow10 l)) by (split; lra). split; [exact In|].
  destruct Th as [_ Th]. destruct (Th _ In) as (Co & _).
  destruct (ivt_sign (fun T => entropy (pow10 l) T - S0) T_min T_max 1) as (T & HTT & E).
  - intros y Hy. apply continuity_pt_minus; [exact (Co y Hy)|apply continuity_pt_const; intros u v; reflexivity].
  - lra.
  - left. reflexivity.
  - lra.
  - exists T. split; [exact HTT|]. cbn beta in E. lra.
Qed.
Print Assumptions C54_bounds.

(** ** the hypotheses can be met: a linear residual is solved in one step *)
Lemma linear_loop (p q tol sg a b ya yb : R) (n : nat) (c : Z) (tr : list R) :
  p <> 0 -> sg <> 0 -> 0 <= tol -> ya = (p * a + q) * sg -> yb = (p * b + q) * sg ->
  let '(_, _, c', _) := regula_loop (fun x => p * x + q) (S (S n)) tol sg a b ya yb 0 0 c tr in (c' <= c + 1)%Z.
Proof.
  intros Hp Hs Ht -> ->.
  assert (St : forall (x : R) ya yb b1 b2 c t, regula_loop (fun x => p * x + q) (S n) tol sg x x ya yb b1 b2 c t = (x, x, c, t)).
  { intros. cbn [regula_loop]. num_R. rewrite Rlt_bool_false by lra. reflexivity. }
  revert St. generalize (S n). intros m St.
  cbn [regula_loop]. num_R. destruct (Rlt_bool_spec (2 * tol) (b - a)) as [L|L]; [|lia].
  assert (C : (a * ((p * b + q) * sg) - b * ((p * a + q) * sg)) / ((p * b + q) * sg - (p * a + q) * sg) = - q / p).
  { field. split; [auto|]. replace ((p * b + q) * sg - (p * a + q) * sg) with (p * (b - a) * sg) by ring.
    apply Rmult_integral_contrapositive. split; [|auto]. apply Rmult_integral_contrapositive. split; [auto|lra]. }
  rewrite C.
  destruct (Req_bool_spec (- q / p) a) as [E|E]; [rewrite St; lia|].
  destruct (Req_bool_spec (- q / p) b) as [E'|E']; [rewrite St; lia|].
  assert (Z : sg * (p * (- q / p) + q) = 0) by (field; auto).
  rewrite Z. rewrite !(Rlt_bool_false 0 0) by lra. rewrite St. lia.
Qed.
Lemma refine_values (f : R -> R) (guess a b a1 b1 ya yb : R) (t : list R) :
  refine_bracket f guess a b = (a1, b1, ya, yb, t) -> ya = f a1 /\ yb = f b1.
Proof.
  unfold refine_bracket. num_R. destruct (Rle_bool a guess && Rle_bool guess b)%bool; [destruct (Rlt_bool 0 (f guess * f b))|]; intros E; injection E; intros; subst; split; reflexivity.
Qed.
Lemma converges_linear (f : R -> R) (p q a b guess : R) : (forall x, f x = p * x + q) -> p <> 0 -> 0 <= guess -> converges f a b guess.
Proof.
  intros Hf Hp Hg x st rf tr.
  assert (Ef : f = (fun x => p * x + q)).
  { apply FunctionalExtensionality.functional_extensionality. exact Hf. }
  subst f. unfold regula_falsi.
  destruct (refine_bracket _ guess a b) as [[[[a1 b1] ya] yb] t] eqn:Er. apply refine_values in Er. destruct Er as [Ya Yb].
  pose proof epsilon_pos as Ep. assert (Ht : 0 <= epsilon * guess) by (apply Rmult_le_pos; lra).
  assert (B : exists n, budget fresh = S (S n)).
  { exists (Z.to_nat 2147483645). unfold budget, fresh, new_RootFind. cbn [max_iter iteration_count]. lia. }
  destruct B as [n B].
  destruct (check_bracket ya yb); cbn [negb].
  2:{ intros E. injection E as _ _ E _. right. symmetry. exact E. }
  rewrite B.
  set (sg := if nlt ya nzero then nlit 1 1 else nlit (-1) 1).
  assert (Hs : sg <> 0) by (unfold sg; num_R; destruct (Rlt_bool ya 0); [apply Rgt_not_eq|apply Rlt_not_eq]; lra).
  pose proof (linear_loop p q (epsilon * guess) sg a1 b1 (ya * sg)%num (yb * sg)%num n (iteration_count fresh) t Hp Hs Ht) as LL.
  destruct (regula_loop _ _ _ _ _ _ _ _ _ _ _ _) as [[[a2 b2] c] t2].
  intros E. injection E as _ E _ _. left. subst st.
  specialize (LL ltac:(rewrite Ya; reflexivity) ltac:(rewrite Yb; reflexivity)).
  unfold report, final_status. change (iteration_count fresh) with 0%Z in LL. change (max_iter fresh) with 2147483647%Z.
  replace (c =? 2147483647)%Z with false by (symmetry; apply Z.eqb_neq; lia). discriminate.
Qed.

(** ** the table of the torus *)
(** the whole table exists, every temperature is that of the adiabat to rounding, and the
    smallest enthalpy is a lower bound for what is read back at the samples *)
Theorem C54_table (entropy press sie : R -> R -> R) (rho_min rho_max T_min T_max S0 : R) (n : nat) :
  thermodynamic entropy rho_min rho_max T_min T_max ->
  0 < rho_min -> 2 * rho_min <= rho_max <= 2 ^ 40 * rho_min -> 0 <= T_min < T_max -> (2 <= n)%nat ->
  (exists rho T, inside rho_min rho_max rho /\ on_adiabat entropy T_min T_max S0 rho T) ->
  (forall T guess, 0 <= guess -> inside T_min T_max T -> converges (fun rho => entropy rho T - S0) rho_min rho_max guess) ->
  (forall rho guess, 0 <= guess -> inside rho_min rho_max rho -> converges (fun T => entropy rho T - S0) T_min T_max guess) ->
  (forall rho, inside rho_min rho_max rho -> entropy rho T_min = S0 -> / 10 ^ 12 <= Rabs (log10 rho)) ->
  (* the adiabat spans enough of the box *)
  (forall lo hi, GetRhoBounds entropy rho_min rho_max T_min T_max S0 = Some (lo, hi) -> lo < hi /\
     forall rho, inside rho_min rho_max rho -> entropy rho T_max = S0 -> lo + / 100 <= log10 rho) ->
  exists t, torus_table entropy press sie rho_min rho_max T_min T_max S0 n = Some t /\
    at_lrho t 0%nat = at_lo t /\ at_lo t < at_hi t /\
    forall i, (i < n)%nat ->
      at_lo t <= at_lrho t i < at_hi t /\
      (exists T, on_adiabat entropy T_min T_max S0 (pow10 (at_lrho t i)) T /\ Rabs (at_temp t i - T) <= (T_max - T_min) / 2 ^ 53) /\
      at_hmin t <= enthalpy press sie (pow10 (at_lrho t i)) (interpToReal (at_grid t) (at_temp t) (at_lrho t i)).
Proof.
  intros Th Hr Hrr HT Hn HA C1 C2 U1 U2.
  destruct (C54_bounds entropy rho_min rho_max T_min T_max S0 Th Hr Hrr ltac:(lra) HA) as (lo & hi & l1 & l2 & E & _ & _ & _ & _ & Cov).
  - apply C1; [lra|split; lra].
  - apply C1; [lra|split; lra].
  - exact U1.
  - destruct (U2 lo hi E) as [Hlh U2']. specialize (Cov U2').
    destruct (C54_samples lo hi n Hlh ltac:(lia)) as (S1 & _ & S3 & _).
    assert (Pt : forall i, (i < n)%nat -> inside rho_min rho_max (pow10 (SampleRho lo hi n i)) /\ exists T, on_adiabat entropy T_min T_max S0 (pow10 (SampleRho lo hi n i)) T).
    { intros i Hi. apply Cov. destruct (S3 i Hi). split; lra. }
    destruct (C54_temperatures entropy rho_min rho_max T_min T_max S0 (SampleRho lo hi n) n Th HT Pt) as (temp & Et & Pe).
    { intros i Hi. apply C2; [lra|]. apply Pt; auto. }
    unfold torus_table. rewrite E, Et. eexists. split; [reflexivity|]. cbn [at_lo at_hi at_grid at_lrho at_temp at_hmin].
    split; [exact S1|]. split; [exact Hlh|]. intros i Hi.
    split; [apply S3; auto|]. split; [destruct (Pe i Hi) as (_ & Q); exact Q|].
    destruct (C54_min_enthalpy press sie (setRange lo hi n) (SampleRho lo hi n) temp n) as (M & _). apply M; auto.
Qed.
Print Assumptions C54_table.

(** a linear equation of state meets all hypotheses *)
Definition lin_entropy (rho T : R) : R := T - rho.
Lemma lin_thermodynamic (rho_min rho_max T_min T_max : R) : thermodynamic lin_entropy rho_min rho_max T_min T_max.
Proof.
  split; intros y _; (split; [|intros; unfold lin_entropy; lra]); intros z _; unfold lin_entropy;
    apply continuity_pt_minus; first [apply continuity_pt_const; intros u v; reflexivity|apply derivable_continuous_pt, derivable_pt_id].
Qed.
Lemma log10_10 (k : nat) : log10 (10 ^ k) = INR k.
Proof. unfold log10. pose proof ln10_2. rewrite <- (Rpower_pow k 10) by lra. unfold Rpower. rewrite ln_exp. field. lra. Qed.
Example C54_table_ex (press sie : R -> R -> R) (n : nat) : (2 <= n)%nat ->
  exists t, torus_table lin_entropy press sie 1 1000 10 100 0 n = Some t /\ Rabs (at_lo t - 101 / 100) <= / 100.
Proof.
  intros Hn.
  assert (C1 : forall T guess, 0 <= guess -> inside 10 100 T -> converges (fun rho => lin_entropy rho T - 0) 1 1000 guess).
  { intros T guess Hg _. apply (converges_linear _ (-1) T); [intros; unfold lin_entropy; ring|lra|exact Hg]. }
  assert (C2 : forall rho guess, 0 <= guess -> inside 1 1000 rho -> converges (fun T => lin_entropy rho T - 0) 10 100 guess).
  { intros rho guess Hg _. apply (converges_linear _ 1 (- rho)); [intros; unfold lin_entropy; ring|lra|exact Hg]. }
  assert (HA : exists rho T, inside 1 1000 rho /\ on_adiabat lin_entropy 10 100 0 rho T).
  { exists 50, 50. split; [split; lra|split; [split; lra|unfold lin_entropy; ring]]. }
  assert (U1 : forall rho, inside 1 1000 rho -> lin_entropy rho 10 = 0 -> / 10 ^ 12 <= Rabs (log10 rho)).
  { intros rho _ E. unfold lin_entropy in E. replace rho with (10 ^ 1) by lra. rewrite log10_10. cbn [INR]. rewrite Rabs_pos_eq by lra. lra. }
  assert (Rr : 2 * 1 <= 1000 <= 2 ^ 40 * 1) by (split; lra).
  assert (Lo : forall lo hi, GetRhoBounds lin_entropy 1 1000 10 100 0 = Some (lo, hi) -> Rabs (lo - 101 / 100) <= / 100 /\ lo < hi).
  { intros lo hi E.
    destruct (C54_bounds lin_entropy 1 1000 10 100 0 (lin_thermodynamic _ _ _ _) ltac:(lra) Rr ltac:(lra) HA) as (lo' & hi' & l1 & l2 & E' & L1 & L2 & K1 & K2 & _);
      [apply C1; [lra|split; lra]|apply C1; [lra|split; lra]|exact U1|].
    assert (lo' = lo /\ hi' = hi) as [-> ->] by (rewrite E in E'; split; congruence).
    assert (Q1 : Rabs (l1 - 1) <= / 10 ^ 15).
    { destruct K1 as [(rho & _ & Er & D)|[_ NR]].
      - unfold lin_entropy in Er. replace rho with (10 ^ 1) in D by lra. rewrite log10_10 in D. exact D.
      - exfalso. apply (NR 10); [split; lra|unfold lin_entropy; ring]. }
    assert (Q2 : 2 - / 10 ^ 4 <= l2).
    { destruct K2 as [(rho & _ & Er & D)|[Er _]].
      - unfold lin_entropy in Er. replace rho with (10 ^ 2) in D by lra. rewrite log10_10 in D. cbn [INR] in D. apply Rabs_le_inv in D. lra.
      - replace 1000 with (10 ^ 3) in Er by lra. rewrite log10_10 in Er. cbn [INR] in Er. lra. }
    apply Rabs_le_inv in Q1. rewrite Rabs_pos_eq in L1 by lra. split; [apply Rabs_le; lra|lra]. }
  destruct (C54_table lin_entropy press sie 1 1000 10 100 0 n (lin_thermodynamic _ _ _ _) ltac:(lra) Rr ltac:(split; lra) Hn HA C1 C2 U1) as (t & Et & _ & _).
  - intros lo hi E. destruct (Lo lo hi E) as [Q Q']. split; [exact Q'|]. intros rho _ Er. unfold lin_entropy in Er.
    replace rho with (10 ^ 2) by lra. rewrite log10_10. cbn [INR]. apply Rabs_le_inv in Q. lra.
  - exists t. split; [exact Et|].
    revert Et. unfold torus_table. destruct (GetRhoBounds _ _ _ _ _ _) as [[lo hi]|] eqn:E; [|discriminate].
    destruct (ComputeAdiabats _ _ _ _ _ _) as [temp|]; [|discriminate].
    intros Et. injection Et as <-. cbn [at_lo]. apply (Lo lo hi eq_refl).
Qed.
(** stiff matter, P = rho^2: the density of a given enthalpy *)
Example C54_state_ex (temp : nat -> R) : let G := setRange 0 1 2 in
  exists rho u, StateFromEnthalpy (fun rho _ => rho * rho) (fun _ _ => 0) G (SampleRho 0 1 2) temp 1 1 = Some (rho, u).
Proof.
  intros G.
  pose proof (C54_state (fun rho _ => rho * rho) (fun _ _ => 0) 0 1 2 temp 1 1 ltac:(lra) ltac:(lia)) as K. cbv beta zeta in K.
  assert (Q : forall rho, rho * rho / rho = rho).
  { intros rho. destruct (Req_dec rho 0) as [->|N]; [unfold Rdiv; ring|field; exact N]. }
  assert (Hh : forall rho, enthalpy (fun rho _ => rho * rho) (fun _ _ => 0) rho (interpToReal (setRange 0 1 2) temp (log10 rho)) = 1 + rho).
  { intros rho. unfold enthalpy. rewrite Q. ring. }
  assert (E1 : pow10 0 = 1) by (apply Rpower_O; lra).
  assert (E2 : 2 <= pow10 (SampleRho 0 1 2 (2 - 1))).
  { unfold SampleRho. cbn [Nat.sub INR]. replace (0 + 1 * ((1 - 0) / (1 + 1))) with (/ 2) by field.
    unfold pow10. rewrite Rpower_sqrt by lra. rewrite <- (sqrt_square 2) by lra. apply sqrt_le_1; lra. }
  assert (Cn : forall y, continuity_pt (fun rho => enthalpy (fun rho _ => rho * rho) (fun _ _ => 0) rho (interpToReal (setRange 0 1 2) temp (log10 rho))) y).
  { intros y. apply (continuity_pt_ext (fun rho => 1 + rho)); [intros; symmetry; apply Hh|].
    apply continuity_pt_plus; [apply continuity_pt_const; intros u v; reflexivity|apply derivable_continuous_pt, derivable_pt_id]. }
  specialize (K (fun y _ => Cn y)).
  specialize (K ltac:(intros a b _ Hab _; rewrite !Hh; lra)).
  assert (C : converges (enthalpy_residual (fun rho _ => rho * rho) (fun _ _ => 0) (setRange 0 1 2) temp 1 1) (pow10 0)
     (pow10 (SampleRho 0 1 2 (2 - 1))) (/ 2 * (pow10 (SampleRho 0 1 2 (2 - 1)) - pow10 0))).
  { apply (converges_linear _ (-1) 1); [|lra|rewrite E1; lra].
    intros rho. unfold enthalpy_residual, enthalpy_sc. rewrite Q. ring. }
  specialize (K C). fold G in K.
  destruct (StateFromEnthalpy _ _ _ _ _ _ _) as [[rho u]|]; [exists rho, u; reflexivity|exfalso].
  unfold G in K. rewrite !Hh, E1 in K. lra.
Qed.
