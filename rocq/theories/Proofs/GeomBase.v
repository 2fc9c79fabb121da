(** Lemmas shared by the proofs about coordinate systems. *)
From Coq Require Import Reals Arith Lra Lia.
From Flocq Require Import Core.
From Coquelicot Require Import Coquelicot.
From Verif.Model Require Import Num Robust Geometry.
From Verif.Spec Require Import Tensor GeomSpec.
From Verif.Proofs Require Import TensorTac.
Local Open Scope R_scope.

Lemma gratio_nz a b : b <> 0 -> gratio a b = a / b.
Proof. intros H. unfold gratio. destruct (Req_bool_spec b 0); [contradiction|reflexivity]. Qed.
Lemma gratio_num0 b : gratio 0 b = 0.
Proof. unfold gratio. destruct (Req_bool_spec b 0); unfold Rdiv; apply Rmult_0_l. Qed.

(** Sylvester's criterion *)
Lemma sylvester3 G : symmetric3 G ->
  0 < G.[0,0] -> 0 < G.[0,0] * G.[1,1] - G.[0,1] * G.[0,1] -> 0 < det3 G ->
  positive_definite3 G.
Proof.
  intros Hs H1 H2 H3 v (i & Hi & Hv).
  assert (S01 : G.[1,0] = G.[0,1]) by (apply Hs; lia).
  assert (S02 : G.[2,0] = G.[0,2]) by (apply Hs; lia).
  assert (S12 : G.[2,1] = G.[1,2]) by (apply Hs; lia).
  tensor. rewrite S01, S02, S12 in *. clear Hs.
  set (a := G.[0,0]) in *. set (b := G.[0,1]) in *. set (c := G.[0,2]) in *.
  set (d := G.[1,1]) in *. set (e := G.[1,2]) in *. set (f := G.[2,2]) in *.
  set (x := v 0%nat) in *. set (y := v 1%nat) in *. set (z := v 2%nat) in *.
  set (m := a * d - b * b) in *. set (n := a * e - b * c).
  set (D := a * (d * f - e * e) - b * (b * f - e * c) + c * (b * e - d * c)) in *.
  assert (E : a * x * x + b * x * y + c * x * z + (b * y * x + d * y * y + e * y * z)
              + (c * z * x + e * z * y + f * z * z)
              = (a * x + b * y + c * z) * (a * x + b * y + c * z) / a
                + (m * y + n * z) * (m * y + n * z) / (a * m) + D / m * (z * z)).
  { unfold n. unfold D. unfold m. field. fold m. lra. }
  rewrite E.
  assert (Q1 : 0 <= (a * x + b * y + c * z) * (a * x + b * y + c * z) / a).
  { apply Rmult_le_pos; [apply Rle_0_sqr|]. left. now apply Rinv_0_lt_compat. }
  assert (Ham : 0 < a * m) by (apply Rmult_lt_0_compat; assumption).
  assert (Q2 : 0 <= (m * y + n * z) * (m * y + n * z) / (a * m)).
  { apply Rmult_le_pos; [apply Rle_0_sqr|]. left. now apply Rinv_0_lt_compat. }
  assert (Dm : 0 < D / m) by (apply Rdiv_lt_0_compat; assumption).
  assert (Q3 : 0 <= D / m * (z * z)) by (apply Rmult_le_pos; [lra|apply Rle_0_sqr]).
  destruct (Req_dec z 0) as [Hz|Hz].
  - rewrite Hz in *. destruct (Req_dec y 0) as [Hy|Hy].
    + rewrite Hy in *. assert (Hx : x <> 0).
      { idx; unfold x, y, z in *; congruence. }
      assert (0 < (a * x + b * 0 + c * 0) * (a * x + b * 0 + c * 0) / a).
      { apply Rdiv_lt_0_compat; [|assumption]. apply Rsqr_pos_lt.
        replace (a * x + b * 0 + c * 0) with (a * x) by ring. apply Rmult_integral_contrapositive_currified; lra. }
      lra.
    + assert (0 < (m * y + n * 0) * (m * y + n * 0) / (a * m)).
      { apply Rdiv_lt_0_compat; [|assumption]. apply Rsqr_pos_lt.
        replace (m * y + n * 0) with (m * y) by ring. apply Rmult_integral_contrapositive_currified; lra. }
      lra.
  - assert (0 < D / m * (z * z)) by (apply Rmult_lt_0_compat; [lra|now apply Rsqr_pos_lt]). lra.
Qed.

(** det4 of a metric in 3+1 form *)
Lemma det4_adm g gamma alpha beta :
  symmetric4 g -> symmetric3 gamma ->
  g 0%nat 0%nat = - (alpha * alpha) + dot3 gamma beta beta ->
  (forall i, (i < 3)%nat -> g 0%nat (S i) = lower3 gamma beta i) ->
  (forall i j, (i < 3)%nat -> (j < 3)%nat -> g (S i) (S j) = gamma i j) ->
  det4 g = - (alpha * alpha * det3 gamma).
Proof.
  intros Hs Hg H00 H0 Hij.
  assert (E : forall i, (i < 3)%nat -> g (S i) 0%nat = lower3 gamma beta i).
  { intros i Hi. rewrite <- H0 by assumption. apply Hs; lia. }
  tensor.
  rewrite H00, (H0 0%nat), (H0 1%nat), (H0 2%nat), (E 0%nat), (E 1%nat), (E 2%nat),
    (Hij 0 0)%nat, (Hij 0 1)%nat, (Hij 0 2)%nat, (Hij 1 0)%nat, (Hij 1 1)%nat, (Hij 1 2)%nat,
    (Hij 2 0)%nat, (Hij 2 1)%nat, (Hij 2 2)%nat by lia.
  rewrite (Hg 1 0)%nat, (Hg 2 0)%nat, (Hg 2 1)%nat by lia. ring.
Qed.

(** assembling the specification: the 4-volume element follows *)
Lemma adm_intro alpha beta g ginv gamma gammainv sg sgg :
  0 < alpha -> symmetric3 gamma ->
  0 < gamma.[0,0] -> 0 < gamma.[0,0] * gamma.[1,1] - gamma.[0,1] * gamma.[0,1] ->
  symmetric4 g ->
  g 0%nat 0%nat = - (alpha * alpha) + dot3 gamma beta beta ->
  (forall i, (i < 3)%nat -> g 0%nat (S i) = lower3 gamma beta i) ->
  (forall i j, (i < 3)%nat -> (j < 3)%nat -> g (S i) (S j) = gamma i j) ->
  inverse4 g ginv -> inverse3 gamma gammainv ->
  0 < sg -> sg * sg = det3 gamma -> sgg = alpha * sg ->
  adm_consistent alpha beta g ginv gamma gammainv sg sgg.
Proof.
  intros Ha Hs H1 H2 Hg H00 H0 Hij I4 I3 Hsg Hd He.
  assert (D : 0 < det3 gamma) by (rewrite <- Hd; apply Rmult_lt_0_compat; assumption).
  constructor; try assumption.
  - apply sylvester3; assumption.
  - split; assumption.
  - rewrite (det4_adm g gamma alpha beta) by assumption. rewrite He, <- Hd. split; [|ring].
    apply Rmult_lt_0_compat; assumption.
Qed.

(** partial derivatives *)
Lemma is_partial_const c s X : is_partial (fun _ => c) s X 0.
Proof. unfold is_partial. apply (is_derive_const c). Qed.

Lemma is_partial_ext f g s X d :
  (forall h, f (moved X s h) = g (moved X s h)) -> is_partial f s X d -> is_partial g s X d.
Proof. intros H. apply is_derive_ext. exact H. Qed.

Lemma is_partial_unique f s X d : is_partial f s X d -> partial f s X = d.
Proof. apply is_derive_unique. Qed.

Lemma is_partial_eq f s X d d' : is_partial f s X d -> d = d' -> is_partial f s X d'.
Proof. intros H <-. exact H. Qed.

(** a derivative needs only local agreement *)
Lemma is_partial_ext_pos f g s X d : 0 < X s ->
  (forall h, 0 < h -> f (moved X s h) = g (moved X s h)) -> is_partial f s X d -> is_partial g s X d.
Proof.
  intros Hp H. apply is_derive_ext_loc.
  exists (mkposreal (X s) Hp). intros y Hy. apply H.
  unfold ball in Hy. cbn in Hy. unfold AbsRing_ball, abs, minus, plus, opp in Hy. cbn in Hy.
  apply Rabs_def2 in Hy. lra.
Qed.

Lemma christoffel_of_derivative g X dg :
  (forall Y, symmetric4 (g Y)) -> is_metric_derivative g X dg ->
  is_christoffel1 g X (SetConnectionCoeffFromMetricDerivs dg).
Proof.
  intros Hs H a b c Ha Hb Hc. unfold SetConnectionCoeffFromMetricDerivs.
  assert (P : forall m n s, (m < 4)%nat -> (n < 4)%nat -> (s < 4)%nat ->
              partial (fun Y => g Y m n) s X = dg m n s).
  { intros m n s Hm Hn Hs'. apply is_partial_unique. now apply H. }
  rewrite !P by assumption.
  assert (Sy : forall m n s, (m < 4)%nat -> (n < 4)%nat -> (s < 4)%nat -> dg m n s = dg n m s).
  { intros m n s Hm Hn Hs'. rewrite <- !P by assumption. unfold partial.
    apply Derive_ext. intros t. now apply Hs. }
  rewrite (Sy b a c), (Sy c a b) by assumption. field.
Qed.

Lemma christoffel_torsion_free g X G :
  (forall Y, symmetric4 (g Y)) -> is_christoffel1 g X G -> torsion_free G.
Proof.
  intros Hs H a b c Ha Hb Hc. rewrite !H by assumption.
  replace (partial (fun Y => g Y c b) a X) with (partial (fun Y => g Y b c) a X).
  - field.
  - apply Derive_ext. intros t. now apply Hs.
Qed.

Lemma christoffel_compatible g X G :
  (forall Y, symmetric4 (g Y)) -> is_christoffel1 g X G -> metric_compatible g X G.
Proof.
  intros Hs H a b c Ha Hb Hc. rewrite !H by assumption.
  replace (partial (fun Y => g Y b a) c X) with (partial (fun Y => g Y a b) c X).
  - field.
  - apply Derive_ext. intros t. now apply Hs.
Qed.
