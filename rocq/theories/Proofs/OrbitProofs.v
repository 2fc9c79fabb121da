(** Circular Kerr geodesics (for C56). *)
From Coq Require Import Reals Lra Psatz Lia.
From Coquelicot Require Import Coquelicot.
From Flocq Require Import Core.
From Verif.Spec Require Import OrbitSpec.
Local Open Scope R_scope.

Definition kepler (a r : R) : R := / (r * sqrt r + a).
Lemma kepler_geodesic a r : 0 < r -> 0 < r * sqrt r + a -> circular_geodesic a r (kepler a r).
Proof.
  intros Hr Hd. unfold circular_geodesic.
  assert (D1 : Derive g_tt r = - (2 / r ^ 2)).
  { apply is_derive_unique. unfold g_tt. auto_derive; [lra|]. field. lra. }
  assert (D2 : Derive (g_tp a) r = 2 * a / r ^ 2).
  { apply is_derive_unique. unfold g_tp. auto_derive; [lra|]. field. lra. }
  assert (D3 : Derive (g_pp a) r = 2 * r - 2 * a ^ 2 / r ^ 2).
  { apply is_derive_unique. unfold g_pp. auto_derive; [lra|]. field. lra. }
  rewrite D1, D2, D3. unfold kepler. assert (Q : sqrt r * sqrt r = r) by (apply sqrt_sqrt; lra).
  assert (Ps : 0 < sqrt r) by (apply sqrt_lt_R0; lra).
  set (s := sqrt r) in *. clearbody s. subst r. field. split; lra.
Qed.
Lemma kepler_norm a r : 0 < r -> 0 < r * sqrt r + a ->
  - (g_tt r + 2 * kepler a r * g_tp a r + kepler a r ^ 2 * g_pp a r) =
  sqrt r ^ 3 * (sqrt r ^ 3 - 3 * sqrt r + 2 * a) / (r * sqrt r + a) ^ 2.
Proof.
  intros Hr Hd. unfold kepler, g_tt, g_tp, g_pp. assert (Q : sqrt r * sqrt r = r) by (apply sqrt_sqrt; lra).
  assert (Ps : 0 < sqrt r) by (apply sqrt_lt_R0; lra).
  set (s := sqrt r) in *. clearbody s. subst r. field. split; lra.
Qed.
Lemma kepler_energy a r : 0 < r -> 0 < r * sqrt r + a -> 0 < sqrt r ^ 3 - 3 * sqrt r + 2 * a ->
  orbit_energy a r (kepler a r) =
  (sqrt r ^ 3 - 2 * sqrt r + a) / sqrt (sqrt r ^ 3 * (sqrt r ^ 3 - 3 * sqrt r + 2 * a)).
Proof.
  intros Hr Hd HD. unfold orbit_energy. rewrite kepler_norm by auto.
  assert (Q : sqrt r * sqrt r = r) by (apply sqrt_sqrt; lra).
  assert (Ps : 0 < sqrt r) by (apply sqrt_lt_R0; lra).
  assert (PQ : 0 < sqrt r ^ 3 * (sqrt r ^ 3 - 3 * sqrt r + 2 * a)) by (apply Rmult_lt_0_compat; [apply pow_lt|]; lra).
  rewrite sqrt_div_alt by (apply pow_lt; lra). rewrite <- Rsqr_pow2, sqrt_Rsqr by lra.
  assert (P2 : 0 < sqrt (sqrt r ^ 3 * (sqrt r ^ 3 - 3 * sqrt r + 2 * a))) by (apply sqrt_lt_R0; lra).
  set (q := sqrt (sqrt r ^ 3 * _)) in *. clearbody q.
  unfold kepler, g_tt, g_tp. set (s := sqrt r) in *. clearbody s. subst r. field. repeat split; lra.
Qed.
Lemma kepler_near b r : 0 < r -> 0 < r * sqrt r + b -> 0 < sqrt r ^ 3 - 3 * sqrt r + 2 * b ->
  locally r (fun s => 0 < s /\ 0 < s * sqrt s + b /\ 0 < sqrt s ^ 3 - 3 * sqrt s + 2 * b).
Proof.
  intros Hr Hd HD.
  assert (C1 : continuous (fun s => s * sqrt s + b) r).
  { apply (ex_derive_continuous (V := R_NormedModule)). auto_derive. lra. }
  assert (C2 : continuous (fun s => sqrt s ^ 3 - 3 * sqrt s + 2 * b) r).
  { apply (ex_derive_continuous (V := R_NormedModule)). auto_derive. lra. }
  apply filter_and; [|apply filter_and].
  - exists (mkposreal r Hr). intros s Hs. unfold ball in Hs; cbn in Hs. unfold AbsRing_ball, abs, minus, plus, opp in Hs; cbn in Hs.
    apply Rabs_lt_between in Hs. lra.
  - apply (C1 (fun y => 0 < y)). exists (mkposreal _ Hd). intros s Hs. unfold ball in Hs; cbn in Hs. unfold AbsRing_ball, abs, minus, plus, opp in Hs; cbn in Hs.
    apply Rabs_lt_between in Hs. lra.
  - apply (C2 (fun y => 0 < y)). exists (mkposreal _ HD). intros s Hs. unfold ball in Hs; cbn in Hs. unfold AbsRing_ball, abs, minus, plus, opp in Hs; cbn in Hs.
    apply Rabs_lt_between in Hs. lra.
Qed.
Lemma kepler_energy_derive b r : 0 < r -> 0 < r * sqrt r + b -> 0 < sqrt r ^ 3 - 3 * sqrt r + 2 * b ->
  exists c, 0 < c /\ is_derive (fun s => orbit_energy b s (kepler b s)) r (c * (r ^ 2 - 6 * r + 8 * b * sqrt r - 3 * b ^ 2)).
Proof.
  intros Hr Hd HD. assert (L := kepler_near b r Hr Hd HD).
  assert (Q : sqrt r * sqrt r = r) by (apply sqrt_sqrt; lra).
  assert (Ps : 0 < sqrt r) by (apply sqrt_lt_R0; lra).
  assert (PQ : 0 < sqrt r ^ 3 * (sqrt r ^ 3 - 3 * sqrt r + 2 * b)) by (apply Rmult_lt_0_compat; [apply pow_lt|]; lra).
  assert (P2 : 0 < sqrt (sqrt r ^ 3 * (sqrt r ^ 3 - 3 * sqrt r + 2 * b))) by (apply sqrt_lt_R0; lra).
  assert (Q2 : sqrt (sqrt r ^ 3 * (sqrt r ^ 3 - 3 * sqrt r + 2 * b)) * sqrt (sqrt r ^ 3 * (sqrt r ^ 3 - 3 * sqrt r + 2 * b)) = sqrt r ^ 3 * (sqrt r ^ 3 - 3 * sqrt r + 2 * b)) by (apply sqrt_sqrt; lra).
  exists (sqrt r / (2 * sqrt (sqrt r ^ 3 * (sqrt r ^ 3 - 3 * sqrt r + 2 * b)) ^ 3)).
  split; [apply Rdiv_lt_0_compat; [lra|]; assert (H := pow_lt _ 3 P2); lra|].
  apply (is_derive_ext_loc (K := R_AbsRing) (V := R_NormedModule) (fun s => (sqrt s ^ 3 - 2 * sqrt s + b) / sqrt (sqrt s ^ 3 * (sqrt s ^ 3 - 3 * sqrt s + 2 * b)))).
  - eapply filter_imp; [|exact L]. intros s (S1 & S2 & S3). symmetry. apply kepler_energy; auto.
  - auto_derive.
    + repeat split; try lra. apply Rgt_not_eq, sqrt_lt_R0. lra.
    + set (s := sqrt r) in *.
      match goal with |- context [sqrt ?x] => replace x with (s ^ 3 * (s ^ 3 - 3 * s + 2 * b)) by ring end.
      set (q := sqrt (s ^ 3 * _)) in *.
      match goal with |- @eq _ ?x ?y => change (@eq R x y) end.
      transitivity (((3 * s ^ 2 - 2) * (q * q) - (s ^ 3 - 2 * s + b) * (3 * s ^ 2 * (s ^ 3 - 3 * s + 2 * b) + s ^ 3 * (3 * s ^ 2 - 3)) / 2) / (2 * s * q ^ 3)).
      { clearbody q. field. split; lra. }
      rewrite Q2.
      replace ((3 * s ^ 2 - 2) * (s ^ 3 * (s ^ 3 - 3 * s + 2 * b)) - (s ^ 3 - 2 * s + b) * (3 * s ^ 2 * (s ^ 3 - 3 * s + 2 * b) + s ^ 3 * (3 * s ^ 2 - 3)) / 2)
        with (s ^ 2 * ((s * s) ^ 2 - 6 * (s * s) + 8 * b * s - 3 * b ^ 2)) by field.
      rewrite Q. clearbody q. field. split; lra.
Qed.
(** the condition of Bardeen, Press and Teukolsky *)
Lemma isco_equation b r : 0 < r -> 0 < r * sqrt r + b -> 0 < sqrt r ^ 3 - 3 * sqrt r + 2 * b ->
  r ^ 2 - 6 * r + 8 * b * sqrt r - 3 * b ^ 2 = 0 -> marginally_stable b r.
Proof.
  intros Hr Hd HD HI. exists (kepler b). split.
  - destruct (kepler_near b r Hr Hd HD) as [d L]. exists d. split; [apply cond_pos|]. intros s Hs.
    destruct (L s) as (S1 & S2 & S3); [exact Hs|].
    split; [exact S1|]. split; [apply Rinv_0_lt_compat; exact S2|]. split; [apply kepler_geodesic; auto|].
    unfold timelike. assert (E := kepler_norm b s S1 S2).
    assert (0 < sqrt s) by (apply sqrt_lt_R0; lra).
    assert (0 < sqrt s ^ 3 * (sqrt s ^ 3 - 3 * sqrt s + 2 * b) / (s * sqrt s + b) ^ 2).
    { apply Rdiv_lt_0_compat; [apply Rmult_lt_0_compat; [apply pow_lt|]|apply pow_lt]; lra. }
    lra.
  - destruct (kepler_energy_derive b r Hr Hd HD) as (c & _ & D). rewrite HI, Rmult_0_r in D. exact D.
Qed.
Lemma only_kepler b s Om : -1 < b < 1 -> 1 < s -> 0 < Om -> circular_geodesic b s Om -> Om = kepler b s.
Proof.
  intros Hb Hs HO. unfold circular_geodesic.
  assert (D1 : Derive g_tt s = - (2 / s ^ 2)).
  { apply is_derive_unique. unfold g_tt. auto_derive; [lra|]. field. lra. }
  assert (D2 : Derive (g_tp b) s = 2 * b / s ^ 2).
  { apply is_derive_unique. unfold g_tp. auto_derive; [lra|]. field. lra. }
  assert (D3 : Derive (g_pp b) s = 2 * s - 2 * b ^ 2 / s ^ 2).
  { apply is_derive_unique. unfold g_pp. auto_derive; [lra|]. field. lra. }
  rewrite D1, D2, D3. intros E. unfold kepler.
  assert (Q : sqrt s * sqrt s = s) by (apply sqrt_sqrt; lra).
  assert (Ps : 1 < sqrt s) by (rewrite <- sqrt_1 at 1; apply sqrt_lt_1; lra).
  set (w := sqrt s) in *. clearbody w.
  assert (F : (1 - b * Om - s * w * Om) * (1 - b * Om + s * w * Om) = 0).
  { transitivity (- (s ^ 2 / 2) * (- (2 / s ^ 2) + 2 * Om * (2 * b / s ^ 2) + Om ^ 2 * (2 * s - 2 * b ^ 2 / s ^ 2))); [|rewrite E; ring].
    subst s. field. lra. }
  assert (W : 1 < s * w) by nra.
  apply Rmult_integral in F. destruct F as [F|F].
  - apply (Rmult_eq_reg_r (s * w + b)); [|lra]. rewrite Rinv_l by lra. lra.
  - exfalso. assert (0 < (s * w - b) * Om) by (apply Rmult_lt_0_compat; lra). lra.
Qed.
Lemma isco_equation_only b r : -1 < b < 1 -> 1 < r -> marginally_stable b r ->
  r ^ 2 - 6 * r + 8 * b * sqrt r - 3 * b ^ 2 = 0.
Proof.
  intros Hb Hr (Om & (d & Hd & L) & D).
  assert (Q : sqrt r * sqrt r = r) by (apply sqrt_sqrt; lra).
  assert (Ps : 1 < sqrt r) by (rewrite <- sqrt_1 at 1; apply sqrt_lt_1; lra).
  assert (Hdn : 0 < r * sqrt r + b) by nra.
  assert (HD : 0 < sqrt r ^ 3 - 3 * sqrt r + 2 * b).
  { destruct (L r) as (_ & H1 & H2 & H3); [rewrite Rminus_eq_0, Rabs_R0; exact Hd|].
    rewrite (only_kepler b r (Om r)) in H3 by auto. unfold timelike in H3.
    assert (E := kepler_norm b r ltac:(lra) Hdn).
    assert (P : 0 < sqrt r ^ 3 * (sqrt r ^ 3 - 3 * sqrt r + 2 * b) / (r * sqrt r + b) ^ 2) by lra.
    assert (P3 : 0 < sqrt r ^ 3) by (apply pow_lt; lra). assert (P4 : 0 < (r * sqrt r + b) ^ 2) by (apply pow_lt; lra).
    destruct (Rlt_or_le 0 (sqrt r ^ 3 - 3 * sqrt r + 2 * b)) as [G|G]; [exact G|]. exfalso.
    assert (sqrt r ^ 3 * (sqrt r ^ 3 - 3 * sqrt r + 2 * b) / (r * sqrt r + b) ^ 2 <= 0); [|lra].
    unfold Rdiv. assert (PI' : 0 < / (r * sqrt r + b) ^ 2) by (apply Rinv_0_lt_compat; lra).
    assert (K : forall u v i, 0 < u -> v <= 0 -> 0 < i -> u * v * i <= 0).
    { clear. intros u v i Hu Hv Hi. assert (0 <= u * - v) by (apply Rmult_le_pos; lra). assert (0 <= (u * - v) * i) by (apply Rmult_le_pos; lra). lra. }
    apply K; assumption. }
  destruct (kepler_energy_derive b r ltac:(lra) Hdn HD) as (c & Hc & D').
  assert (E : is_derive (fun s => orbit_energy b s (kepler b s)) r 0).
  { eapply (is_derive_ext_loc (K := R_AbsRing) (V := R_NormedModule)); [|exact D].
    assert (Hm : 0 < Rmin d (r - 1)) by (apply Rmin_pos; lra).
    exists (mkposreal _ Hm). intros s Hs. unfold ball in Hs; cbn in Hs. unfold AbsRing_ball, abs, minus, plus, opp in Hs; cbn in Hs.
    assert (Rmin d (r - 1) <= d) by apply Rmin_l. assert (Rmin d (r - 1) <= r - 1) by apply Rmin_r.
    destruct (L s) as (_ & H1 & H2 & _); [unfold Rminus; lra|].
    assert (1 < s) by (apply Rabs_lt_between in Hs; lra).
    rewrite (only_kepler b s (Om s)); auto. }
  assert (Z := is_derive_unique _ _ _ E). rewrite (is_derive_unique _ _ _ D') in Z.
  apply Rmult_integral in Z. destruct Z as [Z|Z]; [lra|exact Z].
Qed.
