(** Characteristic speeds of prim2con.hpp and riemann.hpp. *)
From Coq Require Import Reals Arith Lia Lra Psatz.
From Flocq Require Import Core.
From Verif.Spec Require Import Tensor GeomSpec Relativity GRMHD.
From Verif.Model Require Import Num Robust Geometry Relativity Prim2Con Riemann.
From Verif.Proofs Require Import NumR RobustProofs TensorTac LinearAlgebraProofs GeomBase AdmProofs RelProofs RelativityProofs Prim2ConProofs.
Local Open Scope R_scope.

Section Speeds.
Variables (v vsq c gdd : R).
Hypothesis V0 : 0 <= vsq < 1.
Hypothesis C0 : 0 <= c < 1.
Hypothesis G0 : 0 < gdd.
Hypothesis CS : v * v <= gdd * vsq.
Definition sp_A := 1 - vsq * c.
Definition sp_disc := c * (1 - vsq) * (gdd * (1 - vsq * c) - v * (v * (1 - c))).
Lemma A_pos : 0 < sp_A. Proof. unfold sp_A. nra. Qed.
Lemma disc_inner : gdd * (1 - vsq) <= gdd * (1 - vsq * c) - v * (v * (1 - c)).
Proof. assert (v * v * (1 - c) <= gdd * vsq * (1 - c)) by (apply Rmult_le_compat_r; lra). lra. Qed.
Lemma disc_nonneg : 0 <= sp_disc.
Proof.
  unfold sp_disc. apply Rmult_le_pos; [apply Rmult_le_pos; lra|]. pose proof disc_inner.
  assert (0 <= gdd * (1 - vsq)) by (apply Rmult_le_pos; lra). lra.
Qed.
Lemma disc_big : v * v * (c * (1 - vsq)) * (c * (1 - vsq)) <= sp_disc.
Proof.
  unfold sp_disc. replace (v * v * (c * (1 - vsq)) * (c * (1 - vsq))) with (c * (1 - vsq) * (v * v * (c * (1 - vsq)))) by ring.
  apply Rmult_le_compat_l; [apply Rmult_le_pos; lra|].
  assert (v * v <= gdd) by nra. pose proof A_pos as Ap. unfold sp_A in Ap. nra.
Qed.
(** a front at least as slow as c lies between the two roots *)
Lemma sp_between x s : 0 <= s -> sp_disc <= s * s -> (1 - c) * ((v - x) * (v - x)) <= c * (1 - vsq) * (gdd - x * x) ->
  1 / sp_A * (v * (1 - c) - s) <= x <= 1 / sp_A * (v * (1 - c) + s).
Proof.
  intros S0 Hs K. pose proof A_pos as Ap.
  assert (Q : (sp_A * x - v * (1 - c)) * (sp_A * x - v * (1 - c)) <= s * s).
  { eapply Rle_trans; [|exact Hs].
    replace ((sp_A * x - v * (1 - c)) * (sp_A * x - v * (1 - c))) with
      (sp_disc + sp_A * ((1 - c) * ((v - x) * (v - x)) - c * (1 - vsq) * (gdd - x * x))) by (unfold sp_A, sp_disc; ring).
    assert (0 <= sp_A * (c * (1 - vsq) * (gdd - x * x) - (1 - c) * ((v - x) * (v - x)))) by (apply Rmult_le_pos; lra). lra. }
  assert (B : - s <= sp_A * x - v * (1 - c) <= s).
  { apply Rabs_le_inv. rewrite <- (Rabs_pos_eq s) by exact S0. apply Rsqr_le_abs_0. exact Q. }
  split.
  - apply Rmult_le_reg_l with sp_A; [exact Ap|]. replace (sp_A * (1 / sp_A * (v * (1 - c) - s))) with (v * (1 - c) - s) by (field; lra). lra.
  - apply Rmult_le_reg_l with sp_A; [exact Ap|]. replace (sp_A * (1 / sp_A * (v * (1 - c) + s))) with (v * (1 - c) + s) by (field; lra). lra.
Qed.
Lemma sp_slower c' x : 0 <= c' -> c' <= c -> (1 - c') * ((v - x) * (v - x)) = c' * (1 - vsq) * (gdd - x * x) ->
  (1 - c) * ((v - x) * (v - x)) <= c * (1 - vsq) * (gdd - x * x).
Proof.
  intros P L K. set (w := (v - x) * (v - x)) in *. set (k := (1 - vsq) * (gdd - x * x)) in *.
  replace (c' * (1 - vsq) * (gdd - x * x)) with (c' * k) in K by (unfold k; ring).
  replace (c * (1 - vsq) * (gdd - x * x)) with (c * k) by (unfold k; ring).
  assert (w0 : 0 <= w) by apply Rle_0_sqr.
  assert (N : 0 <= w + k).
  { destruct (Req_dec c' 0) as [Z|Z].
    - assert (w = 0) by (rewrite Z in K; lra). assert (v - x = 0) by (apply Rsqr_0_uniq; assumption).
      assert (x = v) by lra. subst x. unfold k.
      assert (v * v <= gdd) by nra. assert (0 <= (1 - vsq) * (gdd - v * v)) by (apply Rmult_le_pos; lra). lra.
    - assert (E : w = c' * (w + k)) by lra. assert (0 < c') by lra. nra. }
  nra.
Qed.
Variable s : R.
Hypothesis S0 : 0 <= s.
Lemma sp_bracket : sp_disc <= s * s ->
  1 / sp_A * (v * (1 - c) - s) <= v <= 1 / sp_A * (v * (1 - c) + s).
Proof.
  intros Hs. pose proof A_pos as Ap. pose proof disc_big as B.
  assert (K : - s <= v * (c * (1 - vsq)) <= s).
  { assert (0 <= c * (1 - vsq)) by (apply Rmult_le_pos; lra). apply Rabs_le_inv. rewrite <- (Rabs_pos_eq s) by exact S0.
    apply Rsqr_le_abs_0. unfold Rsqr. nra. }
  assert (E : sp_A * v = v * (1 - c) + v * (c * (1 - vsq))) by (unfold sp_A; ring).
  split; apply Rmult_le_reg_l with sp_A; try exact Ap; rewrite E;
    [replace (sp_A * (1 / sp_A * (v * (1 - c) - s))) with (v * (1 - c) - s) by (field; lra)
    |replace (sp_A * (1 / sp_A * (v * (1 - c) + s))) with (v * (1 - c) + s) by (field; lra)]; lra.
Qed.
Hypothesis Es : s * s = sp_disc.
Lemma sp_root (e : R) : e = 1 \/ e = -1 ->
  let x := 1 / sp_A * (v * (1 - c) + e * s) in
  (1 - c) * ((v - x) * (v - x)) = c * (1 - vsq) * (gdd - x * x).
Proof.
  intros He x. pose proof A_pos as Ap. assert (E2 : e * e = 1) by (destruct He as [-> | ->]; ring).
  assert (Ex : sp_A * x = v * (1 - c) + e * s) by (unfold x; field; lra).
  assert (Q : (sp_A * x - v * (1 - c)) * (sp_A * x - v * (1 - c)) = sp_disc).
  { rewrite Ex. replace (v * (1 - c) + e * s - v * (1 - c)) with (e * s) by ring.
    replace (e * s * (e * s)) with (e * e * (s * s)) by ring. rewrite E2, Es. ring. }
  apply Rminus_diag_uniq. apply Rmult_eq_reg_l with sp_A; [|lra]. rewrite Rmult_0_r.
  apply Rminus_diag_eq in Q. rewrite <- Q. unfold sp_disc, sp_A. ring.
Qed.
Lemma sp_causal (e : R) : e = 1 \/ e = -1 ->
  Rabs (1 / sp_A * (v * (1 - c) + e * s)) <= sqrt gdd.
Proof.
  intros He. pose proof (sp_root e He) as K. cbv zeta in K. set (x := 1 / sp_A * _) in *.
  rewrite <- sqrt_Rsqr_abs. apply sqrt_le_1_alt. unfold Rsqr.
  destruct (Req_dec c 0) as [Z|Z].
  - assert (E : s * s = 0) by (rewrite Es; unfold sp_disc; rewrite Z; ring).
    assert (s = 0) by nra. unfold x, sp_A. rewrite H, Z. replace (1 / (1 - vsq * 0) * (v * (1 - 0) + e * 0)) with v by field. nra.
  - assert (0 < c * (1 - vsq)) by (apply Rmult_lt_0_compat; lra).
    assert (0 <= (1 - c) * ((v - x) * (v - x))) by (apply Rmult_le_pos; [lra|apply Rle_0_sqr]).
    destruct (Rle_dec (x * x) gdd) as [L|L]; [exact L|]. exfalso. rewrite K in H0. nra.
Qed.
End Speeds.

(** v_d^2 <= gamma^dd v^2 *)
Section CS.
Variables (alpha : R) (beta : vec) (g ginv gamma gi : mat) (sg sgg : R).
Hypothesis H : adm_consistent alpha beta g ginv gamma gi sg sgg.
Lemma raised_dot d v : (d < 3)%nat -> dot3 gamma (fun i => gi i d) v = v d.
Proof.
  intros Hd. pose proof (adm_gamma_sym _ _ _ _ _ _ _ _ H) as Sy.
  assert (E : dot3 gamma (fun i => gi i d) v = v 0%nat * mul3 gamma gi 0%nat d + v 1%nat * mul3 gamma gi 1%nat d + v 2%nat * mul3 gamma gi 2%nat d).
  { unfold dot3, mul3, sum3. rewrite (Sy 1 0)%nat, (Sy 2 0)%nat, (Sy 2 1)%nat by lia. ring. }
  rewrite E, !(fun j Hj => proj1 (adm_inv3 _ _ _ _ _ _ _ _ H j d Hj Hd)) by lia.
  idx; unfold delta; cbn; ring.
Qed.
Lemma gidd_pos d : (d < 3)%nat -> 0 < gi d d.
Proof.
  intros Hd. rewrite <- (raised_dot d (fun i => gi i d) Hd).
  apply (adm_gamma_pd _ _ _ _ _ _ _ _ H). destruct (zero_dec3 (fun i => gi i d)) as [Z|Z]; [|exact Z].
  exfalso. pose proof (proj1 (adm_inv3 _ _ _ _ _ _ _ _ H d d Hd Hd)) as K. unfold mul3, sum3 in K.
  rewrite !Z in K by lia. unfold delta in K. rewrite Nat.eqb_refl in K. lra.
Qed.
Lemma comp_bound d v : (d < 3)%nat -> v d * v d <= gi d d * dot3 gamma v v.
Proof.
  intros Hd. pose proof (cauchy_schwarz gamma (adm_gamma_sym _ _ _ _ _ _ _ _ H) (adm_gamma_pd _ _ _ _ _ _ _ _ H) (fun i => gi i d) v) as K.
  rewrite !raised_dot in K by exact Hd. exact K.
Qed.
(** the covector dx^d - x dt *)
Lemma wave_k ucon d x : (d < 3)%nat ->
  let k : vec := fun mu => match mu with O => - x | S i => delta i d end in
  sum4 (fun mu => ucon mu * k mu) = ucon (S d) - x * ucon 0%nat /\
  sum4 (fun mu => sum4 (fun nu => ginv mu nu * k mu * k nu)) = gi d d - (x + beta d) * (x + beta d) / (alpha * alpha).
Proof.
  intros Hd k. pose proof (adm_lapse_pos _ _ _ _ _ _ _ _ H) as ap. split.
  - unfold k, sum4. idx; unfold delta; cbn; ring.
  - unfold sum4. rewrite !(adm_inverse _ _ _ _ _ _ _ _ H) by lia.
    unfold k, adm_inv_mat. idx; unfold delta; cbn; field; lra.
Qed.

(** fronts in terms of the Eulerian velocity v = vp/W *)
Lemma front_wave vp d c x' : (d < 3)%nat ->
  let W := GetLorentzFactor vp gamma in let vsq := 1 - / (W * W) in let v := vp d / W in
  let x := alpha * x' - beta d in
  let ucon := GetFourVelocity vp gamma alpha beta in
  (wave ginv ucon c d x <-> (1 - c) * ((v - x') * (v - x')) = c * (1 - vsq) * (gi d d - x' * x')) /\
  (causal_front ginv d x <-> x' * x' <= gi d d) /\ ucon (S d) / ucon 0%nat = alpha * v - beta d.
Proof.
  intros Hd W vsq v x ucon. pose proof (adm_lapse_pos _ _ _ _ _ _ _ _ H) as ap.
  assert (W1 : 1 <= W) by exact (lorentz_ge1 _ _ _ _ vp (adm_tpo _ _ _ _ _ _ _ _ H)).
  assert (U0 : ucon 0%nat = W / alpha) by exact (ucon0 _ _ _ _ _ _ _ _ H vp).
  assert (US : ucon (S d) = W * (vp d * (1 / W) - beta d / alpha)) by exact (uconS' _ _ _ _ _ _ _ _ H vp d).
  assert (EO : sum4 (fun mu => ucon mu * front d x mu) = W * (v - x')).
  { transitivity (ucon (S d) - x * ucon 0%nat); [exact (proj1 (wave_k ucon d x Hd))|].
    rewrite U0, US. unfold x, v. field. lra. }
  assert (EN : norm2 ginv (front d x) = gi d d - x' * x').
  { transitivity (gi d d - (x + beta d) * (x + beta d) / (alpha * alpha)); [exact (proj2 (wave_k ucon d x Hd))|].
    unfold x. field. lra. }
  split; [|split].
  - unfold wave, omega2. rewrite EO, EN. unfold vsq. set (k := gi d d - x' * x').
    assert (WW : 0 < W * W) by nra.
    replace (c * (1 - (1 - / (W * W))) * k) with (c * k / (W * W)) by (field; lra).
    split; intros K.
    + apply Rmult_eq_reg_l with (W * W); [|lra]. replace (W * W * (c * k / (W * W))) with (c * k) by (field; lra).
      replace (c * k) with (c * (k + W * (v - x') * (W * (v - x'))) - c * (W * W) * ((v - x') * (v - x'))) by ring. rewrite <- K. ring.
    + assert (K2 : W * W * ((1 - c) * ((v - x') * (v - x'))) = c * k) by (rewrite K; field; lra).
      replace (c * (k + W * (v - x') * (W * (v - x')))) with (c * k + c * (W * W) * ((v - x') * (v - x'))) by ring. rewrite <- K2. ring.
  - unfold causal_front. rewrite EN. split; lra.
  - rewrite U0, US. unfold v. field. lra.
Qed.
End CS.
