(** Jacobi's formula and the densitised balance laws. *)
From Coq Require Import Reals Arith Lia Lra Psatz.
From Coquelicot Require Import Coquelicot.
From Verif.Spec Require Import Tensor GeomSpec SystemSpec Relativity GRMHD Conservation.
From Verif.Model Require Import Num Robust LinearAlgebra Geometry Relativity FluidSource.
From Verif.Proofs Require Import NumR TensorTac LinearAlgebraProofs GeomBase AdmProofs RelProofs RelativityProofs.
Local Open Scope R_scope.

Lemma is_derive_mul (f g : R -> R) x a b : is_derive f x a -> is_derive g x b -> is_derive (fun h => f h * g h) x (a * g x + f x * b).
Proof.
  intros F G. evar_last; [apply (is_derive_mult f g x a b F G); intros; apply Rmult_comm|]. reflexivity.
Qed.
Lemma is_derive_add (f g : R -> R) x a b : is_derive f x a -> is_derive g x b -> is_derive (fun h => f h + g h) x (a + b).
Proof. intros F G. exact (is_derive_plus f g x a b F G). Qed.
Lemma is_derive_sub (f g : R -> R) x a b : is_derive f x a -> is_derive g x b -> is_derive (fun h => f h - g h) x (a - b).
Proof. intros F G. exact (is_derive_minus f g x a b F G). Qed.

Lemma adj_inv A B i j : inverse4 A B -> (i < 4)%nat -> (j < 4)%nat -> adjoint (flatten A) (4 * i + j)%nat = det4 A * B i j.
Proof.
  intros I Hi Hj.
  transitivity (sum4 (fun k => adjoint (flatten A) (4 * i + k)%nat * mul4 A B k j)).
  - unfold sum4. rewrite !(inverse4_l _ _ I) by lia. unfold delta. idx; cbn [Nat.eqb]; ring.
  - transitivity (sum4 (fun l => sum4 (fun k => adjoint (flatten A) (4 * i + k)%nat * A k l) * B l j)).
    + unfold mul4, sum4. ring.
    + unfold sum4 at 1. rewrite !(fun l H => proj2 (adj4 A i l Hi H)) by lia. unfold delta. idx; cbn [Nat.eqb]; ring.
Qed.

Definition trace_adj (A D : mat) : R := sum4 (fun i => sum4 (fun j => adjoint (flatten A) (4 * j + i)%nat * D i j)).
Lemma det4_derive (F : R -> mat) (x : R) (D : mat) :
  (forall i j, (i < 4)%nat -> (j < 4)%nat -> is_derive (fun h => F h i j) x (D i j)) ->
  is_derive (fun h => det4 (F h)) x (trace_adj (F x) D).
Proof.
  intros H.
  assert (D2 : forall a b c d, (a < 4)%nat -> (b < 4)%nat -> (c < 4)%nat -> (d < 4)%nat ->
    is_derive (fun h => F h a b * F h c d - F h a d * F h c b) x
      (D a b * F x c d + F x a b * D c d - (D a d * F x c b + F x a d * D c b))).
  { intros a b c d Ha Hb Hc Hd.
    apply (is_derive_sub (fun h => F h a b * F h c d) (fun h => F h a d * F h c b)).
    - apply (is_derive_mul (fun h => F h a b) (fun h => F h c d)); apply H; assumption.
    - apply (is_derive_mul (fun h => F h a d) (fun h => F h c b)); apply H; assumption. }
  assert (D3 : forall p q r, (p < 4)%nat -> (q < 4)%nat -> (r < 4)%nat ->
    is_derive (fun h => F h 1%nat p * (F h 2%nat q * F h 3%nat r - F h 2%nat r * F h 3%nat q) - F h 1%nat q * (F h 2%nat p * F h 3%nat r - F h 2%nat r * F h 3%nat p)
       + F h 1%nat r * (F h 2%nat p * F h 3%nat q - F h 2%nat q * F h 3%nat p)) x
     (D 1%nat p * (F x 2%nat q * F x 3%nat r - F x 2%nat r * F x 3%nat q) + F x 1%nat p * (D 2%nat q * F x 3%nat r + F x 2%nat q * D 3%nat r - (D 2%nat r * F x 3%nat q + F x 2%nat r * D 3%nat q))
      - (D 1%nat q * (F x 2%nat p * F x 3%nat r - F x 2%nat r * F x 3%nat p) + F x 1%nat q * (D 2%nat p * F x 3%nat r + F x 2%nat p * D 3%nat r - (D 2%nat r * F x 3%nat p + F x 2%nat r * D 3%nat p)))
      + (D 1%nat r * (F x 2%nat p * F x 3%nat q - F x 2%nat q * F x 3%nat p) + F x 1%nat r * (D 2%nat p * F x 3%nat q + F x 2%nat p * D 3%nat q - (D 2%nat q * F x 3%nat p + F x 2%nat q * D 3%nat p))))).
  { intros p q r Hp Hq Hr.
    pose proof (is_derive_mul _ _ _ _ _ (H 1%nat p ltac:(lia) Hp) (D2 2%nat q 3%nat r ltac:(lia) Hq ltac:(lia) Hr)) as A1.
    pose proof (is_derive_mul _ _ _ _ _ (H 1%nat q ltac:(lia) Hq) (D2 2%nat p 3%nat r ltac:(lia) Hp ltac:(lia) Hr)) as A2.
    pose proof (is_derive_mul _ _ _ _ _ (H 1%nat r ltac:(lia) Hr) (D2 2%nat p 3%nat q ltac:(lia) Hp ltac:(lia) Hq)) as A3.
    exact (is_derive_add _ _ _ _ _ (is_derive_sub _ _ _ _ _ A1 A2) A3). }
  pose proof (is_derive_mul _ _ _ _ _ (H 0%nat 0%nat ltac:(lia) ltac:(lia)) (D3 1%nat 2%nat 3%nat ltac:(lia) ltac:(lia) ltac:(lia))) as A0.
  pose proof (is_derive_mul _ _ _ _ _ (H 0%nat 1%nat ltac:(lia) ltac:(lia)) (D3 0%nat 2%nat 3%nat ltac:(lia) ltac:(lia) ltac:(lia))) as A1.
  pose proof (is_derive_mul _ _ _ _ _ (H 0%nat 2%nat ltac:(lia) ltac:(lia)) (D3 0%nat 1%nat 3%nat ltac:(lia) ltac:(lia) ltac:(lia))) as A2.
  pose proof (is_derive_mul _ _ _ _ _ (H 0%nat 3%nat ltac:(lia) ltac:(lia)) (D3 0%nat 1%nat 2%nat ltac:(lia) ltac:(lia) ltac:(lia))) as A3.
  pose proof (is_derive_sub _ _ _ _ _ (is_derive_add _ _ _ _ _ (is_derive_sub _ _ _ _ _ A0 A1) A2) A3) as A.
  clear A0 A1 A2 A3 D2 D3 H. cbv beta in A.
  evar_last; [exact A|].
  unfold trace_adj, adjoint, MINOR, sum4, flatten.
  cbn [Nat.div Nat.modulo Nat.divmod Nat.add Nat.mul fst snd Nat.sub]. ring.
Qed.

Lemma sum4_ext' f h : (forall n, (n < 4)%nat -> f n = h n) -> sum4 f = sum4 h.
Proof. intros E. unfold sum4. rewrite !E by lia. reflexivity. Qed.
Lemma moved_same X s : moved X s (X s) = X.
Proof. apply FunctionalExtensionality.functional_extensionality. intros i. unfold moved. destruct (Nat.eqb_spec i s); congruence. Qed.

Section B.
Variables (g : vec -> mat) (ginv : mat) (X : vec) (dg : nat -> nat -> nat -> R).
Hypothesis Hsy : forall Y, symmetric4 (g Y).
Hypothesis Hinv : inverse4 (g X) ginv.
Hypothesis Hdet : det4 (g X) < 0.
Hypothesis Hdg : is_metric_derivative g X dg.

Lemma pdg m n s : (m < 4)%nat -> (n < 4)%nat -> (s < 4)%nat -> partial (fun Y => g Y m n) s X = dg m n s.
Proof. intros. apply is_partial_unique. now apply Hdg. Qed.
Lemma dg_sym m n s : (m < 4)%nat -> (n < 4)%nat -> (s < 4)%nat -> dg m n s = dg n m s.
Proof. intros Hm Hn Hs. rewrite <- !pdg by assumption. apply Derive_ext. intros t. now apply Hsy. Qed.
Lemma ginv_sym m n : (m < 4)%nat -> (n < 4)%nat -> ginv m n = ginv n m.
Proof.
  assert (HT : inverse4 (g X) (fun i j => ginv j i)).
  { intros i j Hi Hj. destruct (Hinv j i Hj Hi) as [E1 E2].
    assert (Dl : delta i j = delta j i) by (unfold delta; idx; reflexivity).
    rewrite Dl. unfold mul4, sum4 in *. pose proof (Hsy X) as Sy. split.
    - rewrite <- E2. rewrite (Sy i 0%nat), (Sy i 1%nat), (Sy i 2%nat), (Sy i 3%nat) by lia. ring.
    - rewrite <- E1. rewrite (Sy 0%nat j), (Sy 1%nat j), (Sy 2%nat j), (Sy 3%nat j) by lia. ring. }
  intros Hm Hn. exact (inverse4_unique _ _ _ Hinv HT m n Hm Hn).
Qed.

(** derivative of sqrt(-g) *)
Lemma volume_partial s : (s < 4)%nat -> is_partial (volume g) s X (volume g X * (sum4 (fun a => sum4 (fun b => ginv a b * dg a b s)) / 2)).
Proof.
  intros Hs. unfold is_partial, volume.
  assert (D : is_derive (fun h => det4 (g (moved X s h))) (X s) (trace_adj (g (moved X s (X s))) (fun a b => dg a b s))).
  { apply (det4_derive (fun h => g (moved X s h))). intros i j Hi Hj. exact (Hdg i j s Hi Hj Hs). }
  rewrite moved_same in D.
  assert (E : trace_adj (g X) (fun a b => dg a b s) = det4 (g X) * sum4 (fun a => sum4 (fun b => ginv a b * dg a b s))).
  { unfold trace_adj, sum4. rewrite !(adj_inv _ _ _ _ Hinv) by lia.
    rewrite (ginv_sym 1 0), (ginv_sym 2 0), (ginv_sym 3 0), (ginv_sym 2 1), (ginv_sym 3 1), (ginv_sym 3 2) by lia. ring. }
  rewrite E in D.
  pose proof (is_derive_sub (fun _ => 0) _ _ _ _ (is_derive_const 0 (X s)) D) as D'.
  assert (Hp : 0 < 0 - det4 (g (moved X s (X s)))) by (rewrite moved_same; lra).
  pose proof (is_derive_sqrt _ _ _ D' Hp) as D2. cbv beta in D2. rewrite moved_same in D2.
  apply (is_derive_ext (fun h => sqrt (0 - det4 (g (moved X s h))))); [intros h; f_equal; ring|].
  evar_last; [exact D2|].
  assert (Q : 0 < sqrt (- det4 (g X))) by (apply sqrt_lt_R0; lra).
  assert (Q2 : sqrt (- det4 (g X)) * sqrt (- det4 (g X)) = - det4 (g X)) by (apply sqrt_sqrt; lra).
  replace (0 - det4 (g X)) with (- det4 (g X)) by ring. set (q := sqrt (- det4 (g X))) in *.
  replace (det4 (g X)) with (- (q * q)) by lra.
  change (@zero R_AbsRing) with 0. change (@zero R_NormedModule) with 0. field. lra.
Qed.

Definition gam1 (a b c : nat) : R := (dg a b c + dg a c b - dg b c a) / 2.
Lemma chr2_val a b c : (b < 4)%nat -> (c < 4)%nat -> christoffel2 g ginv X a b c = sum4 (fun d => ginv a d * gam1 d b c).
Proof. intros Hb Hc. unfold christoffel2, sum4, gam1. rewrite !pdg by lia. reflexivity. Qed.
Lemma chr2_trace l : (l < 4)%nat -> sum4 (fun m => christoffel2 g ginv X m m l) = sum4 (fun a => sum4 (fun b => ginv a b * dg a b l)) / 2.
Proof.
  intros Hl. unfold sum4 at 1. rewrite !chr2_val by lia. unfold sum4, gam1.
  rewrite (ginv_sym 1 0), (ginv_sym 2 0), (ginv_sym 3 0), (ginv_sym 2 1), (ginv_sym 3 1), (ginv_sym 3 2) by lia.
  rewrite (dg_sym 1 0 l), (dg_sym 2 0 l), (dg_sym 3 0 l), (dg_sym 2 1 l), (dg_sym 3 1 l), (dg_sym 3 2 l) by lia. field.
Qed.
Lemma chr2_lower n b c : (n < 4)%nat -> (b < 4)%nat -> (c < 4)%nat ->
  sum4 (fun k => g X k n * christoffel2 g ginv X k b c) = gam1 n b c.
Proof.
  intros Hn Hb Hc. unfold sum4 at 1. rewrite !chr2_val by assumption.
  transitivity (sum4 (fun d => mul4 (g X) ginv n d * gam1 d b c)).
  - unfold mul4, sum4. pose proof (Hsy X) as Sy.
    rewrite (Sy n 0%nat), (Sy n 1%nat), (Sy n 2%nat), (Sy n 3%nat) by lia. ring.
  - unfold sum4. rewrite !(inverse4_l _ _ Hinv) by lia. unfold delta. idx; cbn [Nat.eqb]; ring.
Qed.
Lemma chr2_sym a b c : (a < 4)%nat -> (b < 4)%nat -> (c < 4)%nat -> christoffel2 g ginv X a b c = christoffel2 g ginv X a c b.
Proof. intros Ha Hb Hc. rewrite !chr2_val by assumption. unfold sum4, gam1. rewrite !(dg_sym c b) by lia. field. Qed.

Variable T : vec -> mat.
Hypothesis HT : differentiable_at T X.
Let dT mu nu s := partial (fun Y => T Y mu nu) s X.
Lemma dT_is mu nu s : (mu < 4)%nat -> (nu < 4)%nat -> (s < 4)%nat -> is_partial (fun Y => T Y mu nu) s X (dT mu nu s).
Proof. intros Hm Hn Hs. destruct (HT mu nu s Hm Hn Hs) as [d Hd]. unfold dT. rewrite (is_partial_unique _ _ _ _ Hd). exact Hd. Qed.

(** partials of products *)
Lemma partial_mul f h s a b : is_partial f s X a -> is_partial h s X b -> is_partial (fun Y => f Y * h Y) s X (a * h X + f X * b).
Proof.
  intros Ha Hb. unfold is_partial in *. evar_last; [apply (is_derive_mul _ _ _ _ _ Ha Hb)|]. cbv beta. rewrite moved_same. reflexivity.
Qed.
Lemma partial_add f h s a b : is_partial f s X a -> is_partial h s X b -> is_partial (fun Y => f Y + h Y) s X (a + b).
Proof. intros Ha Hb. exact (is_derive_add _ _ _ _ _ Ha Hb). Qed.

Let C l := sum4 (fun m => christoffel2 g ginv X m m l).
Lemma vol_C s : (s < 4)%nat -> is_partial (volume g) s X (volume g X * C s).
Proof. intros Hs. unfold C. rewrite chr2_trace by exact Hs. now apply volume_partial. Qed.

Lemma mixed_partial mu nu s : (mu < 4)%nat -> (nu < 4)%nat -> (s < 4)%nat ->
  partial (fun Y => mixed_density g T nu Y mu) s X =
  volume g X * (C s * sum4 (fun l => T X mu l * g X l nu) + sum4 (fun l => dT mu l s * g X l nu + T X mu l * dg l nu s)).
Proof.
  intros Hm Hn Hs.
  assert (P : forall l, (l < 4)%nat -> is_partial (fun Y => T Y mu l * g Y l nu) s X (dT mu l s * g X l nu + T X mu l * dg l nu s)).
  { intros l Hl. apply (partial_mul (fun Y => T Y mu l) (fun Y => g Y l nu)); [apply dT_is; assumption|now apply Hdg]. }
  pose proof (partial_add _ _ _ _ _ (partial_add _ _ _ _ _ (partial_add _ _ _ _ _ (P 0%nat ltac:(lia)) (P 1%nat ltac:(lia))) (P 2%nat ltac:(lia))) (P 3%nat ltac:(lia))) as Q.
  pose proof (partial_mul _ _ _ _ _ (vol_C s Hs) Q) as U. unfold mixed_density, sum4. rewrite (is_partial_unique _ _ _ _ U). ring.
Qed.
Lemma mixed_div nu : (nu < 4)%nat ->
  flat_divergence (mixed_density g T nu) X =
  volume g X * (sum4 (fun mu => sum4 (fun l => T X mu l * (dg l nu mu - gam1 nu mu l))) + sum4 (fun k => g X k nu * divergence g ginv T X k)).
Proof.
  intros Hn. unfold flat_divergence. unfold sum4 at 1. rewrite !mixed_partial by lia.
  assert (E : sum4 (fun k => g X k nu * divergence g ginv T X k) =
    sum4 (fun k => g X k nu * sum4 (fun mu => dT mu k mu)) + sum4 (fun k => g X k nu * sum4 (fun l => C l * T X l k)) +
    sum4 (fun mu => sum4 (fun l => gam1 nu mu l * T X mu l))).
  { transitivity (sum4 (fun k => g X k nu * sum4 (fun mu => dT mu k mu)) + sum4 (fun k => g X k nu * sum4 (fun l => C l * T X l k)) +
      sum4 (fun mu => sum4 (fun l => sum4 (fun k => g X k nu * christoffel2 g ginv X k mu l) * T X mu l))).
    - unfold divergence, C, dT, sum4. ring.
    - f_equal. apply sum4_ext'. intros mu Hmu. apply sum4_ext'. intros l Hl. rewrite chr2_lower by assumption. reflexivity. }
  rewrite E. clear E. clearbody C dT. unfold sum4. ring.
Qed.
Lemma gam1_sym n m l : (n < 4)%nat -> (m < 4)%nat -> (l < 4)%nat -> gam1 n m l = gam1 n l m.
Proof. intros. unfold gam1. rewrite (dg_sym m l) by assumption. field. Qed.

Variables (alpha : vec -> R) (da : vec).
Hypothesis Hal : 0 < alpha X.
Hypothesis Hda : is_gradient (fun Y => ln (alpha Y)) X da.
Hypothesis Hap : forall s, (s < 4)%nat -> locally (X s) (fun h => 0 < alpha (moved X s h)).
Lemma alpha_partial s : (s < 4)%nat -> is_partial alpha s X (alpha X * da s).
Proof.
  intros Hs. pose proof (Hda s Hs) as D. unfold is_partial in *.
  apply (is_derive_ext_loc (fun h => exp (ln (alpha (moved X s h))))); [apply (filter_imp _ _ (fun h => exp_ln _) (Hap s Hs))|].
  evar_last; [apply (is_derive_comp exp _ _ _ _ (is_derive_exp _) D)|].
  cbv beta. rewrite moved_same. rewrite exp_ln by exact Hal. unfold scal. cbn. unfold mult. cbn. ring.
Qed.
Lemma normal_div :
  flat_divergence (normal_density g alpha T) X =
  volume g X * (alpha X * (sum4 (fun mu => T X mu 0%nat * da mu) - sum4 (fun mu => sum4 (fun l => christoffel2 g ginv X 0 mu l * T X mu l)) + divergence g ginv T X 0)).
Proof.
  assert (P : forall s, (s < 4)%nat -> partial (fun Y => normal_density g alpha T Y s) s X =
    volume g X * (C s * (alpha X * T X s 0%nat) + alpha X * da s * T X s 0%nat + alpha X * dT s 0%nat s)).
  { intros s Hs. pose proof (partial_mul _ _ _ _ _ (alpha_partial s Hs) (dT_is s 0%nat s Hs ltac:(lia) Hs)) as Q.
    pose proof (partial_mul _ _ _ _ _ (vol_C s Hs) Q) as U. unfold normal_density. rewrite (is_partial_unique _ _ _ _ U). ring. }
  unfold flat_divergence. unfold sum4 at 1. rewrite !P by lia. unfold divergence.
  assert (E : sum4 (fun mu => sum4 (fun l => christoffel2 g ginv X mu mu l * T X l 0%nat)) = sum4 (fun l => C l * T X l 0%nat))
    by (unfold C, sum4; ring).
  rewrite E. clear E P. change (sum4 (fun mu => partial (fun Y => T Y mu 0%nat) mu X)) with (sum4 (fun mu => dT mu 0%nat mu)).
  clearbody C dT. unfold sum4. ring.
Qed.
End B.
