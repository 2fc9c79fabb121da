(** Angular quadrature and the additive structure of the angular grid. *)
From Coq Require Import Reals Arith ZArith Lia Lra Psatz List.
From Coquelicot Require Import Coquelicot.
From Flocq Require Import Core.
From Verif.Model Require Import Num Robust Geometry Modified Interpolation RadClosure MOCMC.
From Verif.Spec Require Import Tensor SphereSpec.
From Verif.Proofs Require Import TransformProofs.
Local Open Scope R_scope.

(** ** One-dimensional integrals *)
Definition ps (xi : R) : R := sqrt (1 - (1 - xi) * (1 - xi)).
Lemma ps_sq xi : 0 <= xi <= 2 -> ps xi * ps xi = 1 - (1 - xi) * (1 - xi).
Proof. intros H. apply sqrt_sqrt. nra. Qed.
Lemma ps_cube xi : ps xi * ps xi * ps xi = xi * (2 - xi) * ps xi.
Proof.
  destruct (Rle_dec 0 (1 - (1 - xi) * (1 - xi))) as [H|H].
  - unfold ps at 1 2. rewrite sqrt_sqrt by exact H. ring.
  - unfold ps. rewrite sqrt_neg_0 by lra. ring.
Qed.
Lemma ps_continuous xi : continuous ps xi.
Proof.
  unfold ps. apply (continuous_comp (fun x => 1 - (1 - x) * (1 - x)) sqrt); [|apply continuous_sqrt].
  apply (ex_derive_continuous (K := R_AbsRing) (V := R_NormedModule)). auto_derive. exact I.
Qed.
Lemma carath (h : R -> R) (a : R) : continuous h a -> is_derive (fun x => (x - a) * h x) a (h a).
Proof.
  intros Hc. apply is_derive_Reals. intros eps He.
  apply continuity_pt_filterlim in Hc. destruct (Hc eps He) as (d & Hd & H).
  exists (mkposreal d Hd). intros k Hk Hk2. cbn in Hk2.
  replace (((a + k - a) * h (a + k) - (a - a) * h a) / k - h a) with (h (a + k) - h a) by (field; exact Hk).
  apply H. split.
  - split; [exact I|]. lra.
  - unfold dist. cbn. unfold R_dist. replace (a + k - a) with k by ring. exact Hk2.
Qed.
Lemma ps3_derive xi : 0 <= xi <= 2 -> is_derive (fun x => ps x * ps x * ps x / 3) xi ((1 - xi) * ps xi).
Proof.
  intros H. destruct (Req_dec xi 0) as [E|E]; [|destruct (Req_dec xi 2) as [E2|E2]].
  - subst xi. apply (is_derive_ext (fun x => (x - 0) * ((2 - x) * ps x / 3))).
    + intros x. rewrite ps_cube. match goal with |- @eq _ ?x ?y => change (@eq R x y) end. field.
    + replace ((1 - 0) * ps 0) with ((2 - 0) * ps 0 / 3).
      * apply (carath (fun x => (2 - x) * ps x / 3)). apply (continuous_mult (fun x => (2 - x) * ps x) (fun _ => / 3)).
        { apply (continuous_mult (fun x => 2 - x) ps); [|apply ps_continuous].
          apply (ex_derive_continuous (K := R_AbsRing) (V := R_NormedModule)). auto_derive. exact I. }
        apply continuous_const.
      * unfold ps. replace (1 - (1 - 0) * (1 - 0)) with 0 by ring. rewrite sqrt_0. field.
  - subst xi. apply (is_derive_ext (fun x => (x - 2) * (- x * ps x / 3))).
    + intros x. rewrite ps_cube. match goal with |- @eq _ ?x ?y => change (@eq R x y) end. field.
    + replace ((1 - 2) * ps 2) with (- (2) * ps 2 / 3).
      * apply (carath (fun x => - x * ps x / 3)). apply (continuous_mult (fun x => - x * ps x) (fun _ => / 3)).
        { apply (continuous_mult (fun x => - x) ps); [|apply ps_continuous].
          apply (ex_derive_continuous (K := R_AbsRing) (V := R_NormedModule)). auto_derive. exact I. }
        apply continuous_const.
      * unfold ps. replace (1 - (1 - 2) * (1 - 2)) with 0 by ring. rewrite sqrt_0. field.
  - assert (P : 0 < 1 - (1 - xi) * (1 - xi)) by nra.
    unfold ps. auto_derive; [tauto|].
    set (q := sqrt (1 - (1 - xi) * (1 - xi))). assert (Q : 0 < q) by (apply sqrt_lt_R0; exact P).
    match goal with |- @eq _ ?x ?y => change (@eq R x y) end.
    replace (1 + - xi) with (1 - xi) by ring.
    replace (sqrt (1 + - ((1 - xi) * (1 - xi)))) with q by (unfold q; f_equal; ring). field. lra.
Qed.

Lemma in02 xi0 xi1 x : 0 <= xi0 <= 2 -> 0 <= xi1 <= 2 -> Rmin xi0 xi1 <= x <= Rmax xi0 xi1 -> 0 <= x <= 2.
Proof. unfold Rmin, Rmax. destruct (Rle_dec xi0 xi1); lra. Qed.

Section Xi.
  Variables xi0 xi1 : R.
  Hypothesis H0 : 0 <= xi0 <= 2.
  Hypothesis H1 : 0 <= xi1 <= 2.
  Definition I_cc : R := ((1 - xi0) ^ 3 - (1 - xi1) ^ 3) / 3.
  Definition I_cs : R := (ps xi1 * ps xi1 * ps xi1 - ps xi0 * ps xi0 * ps xi0) / 3.
  Definition I_ss : R := (1 - xi0) - (1 - xi1) - I_cc.
  Lemma int_cc : is_RInt (fun xi => (1 - xi) * (1 - xi)) xi0 xi1 I_cc.
  Proof.
    replace I_cc with (minus (- (1 - xi1) ^ 3 / 3) (- (1 - xi0) ^ 3 / 3)) by (unfold I_cc, minus, plus, opp; cbn; field).
    apply (is_RInt_derive (V := R_CompleteNormedModule) (fun xi => - (1 - xi) ^ 3 / 3)).
    - intros x _. auto_derive; [exact I|]. match goal with |- @eq _ ?x ?y => change (@eq R x y) end. field.
    - intros x _. apply (ex_derive_continuous (K := R_AbsRing) (V := R_NormedModule)). auto_derive. exact I.
  Qed.
  Lemma int_cs : is_RInt (fun xi => (1 - xi) * ps xi) xi0 xi1 I_cs.
  Proof.
    replace I_cs with (minus (ps xi1 * ps xi1 * ps xi1 / 3) (ps xi0 * ps xi0 * ps xi0 / 3)) by (unfold I_cs, minus, plus, opp; cbn; field).
    apply (is_RInt_derive (V := R_CompleteNormedModule) (fun x => ps x * ps x * ps x / 3)).
    - intros x Hx. apply ps3_derive. exact (in02 _ _ _ H0 H1 Hx).
    - intros x _. apply (continuous_mult (fun x => 1 - x) ps); [|apply ps_continuous].
      apply (ex_derive_continuous (K := R_AbsRing) (V := R_NormedModule)). auto_derive. exact I.
  Qed.
  Lemma int_ss : is_RInt (fun xi => ps xi * ps xi) xi0 xi1 I_ss.
  Proof.
    apply (is_RInt_ext (V := R_NormedModule) (fun xi => 1 - (1 - xi) * (1 - xi))).
    - intros x Hx. symmetry. apply ps_sq. apply (in02 _ _ _ H0 H1). lra.
    - replace I_ss with (minus (- (1 - xi1) + (1 - xi1) ^ 3 / 3) (- (1 - xi0) + (1 - xi0) ^ 3 / 3)) by (unfold I_ss, I_cc, minus, plus, opp; cbn; field).
      apply (is_RInt_derive (V := R_CompleteNormedModule) (fun xi => - (1 - xi) + (1 - xi) ^ 3 / 3)).
      + intros x _. auto_derive; [exact I|]. match goal with |- @eq _ ?x ?y => change (@eq R x y) end. field.
      + intros x _. apply (ex_derive_continuous (K := R_AbsRing) (V := R_NormedModule)). auto_derive. exact I.
  Qed.
End Xi.

Section Phi.
  Variables p0 p1 : R.
  Local Ltac prim F := match goal with |- is_RInt ?f _ _ ?l =>
      replace l with (minus (F p1) (F p0)) by (unfold minus, plus, opp; cbn; field);
      apply (is_RInt_derive (V := R_CompleteNormedModule) F);
      [intros x _; auto_derive; [exact I|]; match goal with |- @eq _ ?x ?y => change (@eq R x y) end; try field
      |intros x _; apply (ex_derive_continuous (K := R_AbsRing) (V := R_NormedModule)); auto_derive; exact I] end.
  Lemma int_cos : is_RInt (fun p => cos p) p0 p1 (sin p1 - sin p0).
  Proof. prim (fun p => sin p). Qed.
  Lemma int_sin : is_RInt (fun p => sin p) p0 p1 (cos p0 - cos p1).
  Proof. prim (fun p => - cos p). Qed.
  Lemma int_coscos : is_RInt (fun p => cos p * cos p) p0 p1 ((p1 - p0) / 2 + (sin p1 * cos p1 - sin p0 * cos p0) / 2).
  Proof.
    prim (fun p => p / 2 + sin p * cos p / 2).
    pose proof (sin2_cos2 x) as E. unfold Rsqr in E. nra.
  Qed.
  Lemma int_sinsin : is_RInt (fun p => sin p * sin p) p0 p1 ((p1 - p0) / 2 - (sin p1 * cos p1 - sin p0 * cos p0) / 2).
  Proof.
    prim (fun p => p / 2 - sin p * cos p / 2).
    pose proof (sin2_cos2 x) as E. unfold Rsqr in E. nra.
  Qed.
  Lemma int_cossin : is_RInt (fun p => cos p * sin p) p0 p1 ((cos p0 * cos p0 - cos p1 * cos p1) / 2).
  Proof. prim (fun p => - (cos p * cos p) / 2). Qed.
  Lemma int_one : is_RInt (fun p => 1) p0 p1 (p1 - p0).
  Proof. prim (fun p : R => p). Qed.
End Phi.

Lemma moment_sep xi0 xi1 p0 p1 i j (a h : R -> R) A H :
  is_RInt h xi0 xi1 H -> is_RInt a p0 p1 A ->
  (forall xi p, ray xi p i * ray xi p j = a p * h xi) ->
  second_moment xi0 xi1 p0 p1 i j = A * H.
Proof.
  intros Hh Ha E. unfold second_moment. apply is_RInt_unique.
  apply (is_RInt_ext (V := R_NormedModule) (fun p => scal H (a p))).
  - intros p _. symmetry. rewrite (RInt_ext (V := R_CompleteNormedModule) _ (fun xi => scal (a p) (h xi))) by (intros xi _; apply E).
    rewrite (is_RInt_unique (V := R_CompleteNormedModule) _ _ _ (scal (a p) H)) by (apply (is_RInt_scal (V := R_NormedModule)); exact Hh).
    unfold scal; cbn. unfold mult; cbn. match goal with |- @eq _ ?x ?y => change (@eq R x y) end. ring.
  - replace (A * H) with (scal H A) by (unfold scal; cbn; unfold mult; cbn; match goal with |- @eq _ ?x ?y => change (@eq R x y) end; ring).
    apply (is_RInt_scal (V := R_NormedModule)). exact Ha.
Qed.

Lemma quad_moment xi0 xi1 p0 p1 i j : 0 <= xi0 <= 2 -> 0 <= xi1 <= 2 -> (i <= j)%nat -> (j < 3)%nat ->
  second_moment xi0 xi1 p0 p1 i j = ninj_quad xi0 xi1 p0 p1 i j.
Proof.
  intros H0 H1 Hij Hj.
  assert (C : (i = 0 /\ j = 0 \/ i = 0 /\ j = 1 \/ i = 0 /\ j = 2 \/ i = 1 /\ j = 1 \/ i = 1 /\ j = 2 \/ i = 2 /\ j = 2)%nat) by lia.
  decompose [or and] C; subst i j; clear C Hij Hj.
  - rewrite (moment_sep _ _ _ _ _ _ (fun _ => 1) (fun xi => (1 - xi) * (1 - xi)) _ _ (int_cc xi0 xi1) (int_one p0 p1)).
    + unfold ninj_quad, I_cc. field.
    + intros xi p. unfold ray. ring.
  - rewrite (moment_sep _ _ _ _ _ _ cos (fun xi => (1 - xi) * ps xi) _ _ (int_cs xi0 xi1 H0 H1) (int_cos p0 p1)).
    + unfold ninj_quad, I_cs, ps. field.
    + intros xi p. unfold ray, ps. ring.
  - rewrite (moment_sep _ _ _ _ _ _ sin (fun xi => (1 - xi) * ps xi) _ _ (int_cs xi0 xi1 H0 H1) (int_sin p0 p1)).
    + unfold ninj_quad, I_cs, ps. field.
    + intros xi p. unfold ray, ps. ring.
  - rewrite (moment_sep _ _ _ _ _ _ (fun p => cos p * cos p) (fun xi => ps xi * ps xi) _ _ (int_ss xi0 xi1 H0 H1) (int_coscos p0 p1)).
    + unfold ninj_quad, I_ss, I_cc. field.
    + intros xi p. unfold ray, ps. ring.
  - rewrite (moment_sep _ _ _ _ _ _ (fun p => cos p * sin p) (fun xi => ps xi * ps xi) _ _ (int_ss xi0 xi1 H0 H1) (int_cossin p0 p1)).
    + unfold ninj_quad, I_ss, I_cc. field.
    + intros xi p. unfold ray, ps. ring.
  - rewrite (moment_sep _ _ _ _ _ _ (fun p => sin p * sin p) (fun xi => ps xi * ps xi) _ _ (int_ss xi0 xi1 H0 H1) (int_sinsin p0 p1)).
    + unfold ninj_quad, I_ss, I_cc. field.
    + intros xi p. unfold ray, ps. ring.
Qed.

Lemma wgts_trace xi0 xi1 p0 p1 :
  ninj_quad xi0 xi1 p0 p1 0 0 + ninj_quad xi0 xi1 p0 p1 1 1 + ninj_quad xi0 xi1 p0 p1 2 2 = (xi1 - xi0) * (p1 - p0).
Proof. unfold ninj_quad. field. Qed.

(** the quadratic form of one box is the integral of (n.v)^2 *)
Lemma wgts_form xi0 xi1 p0 p1 a b c : 0 <= xi0 -> xi0 <= xi1 -> xi1 <= 2 -> p0 <= p1 ->
  0 <= a * a * ninj_quad xi0 xi1 p0 p1 0 0 + b * b * ninj_quad xi0 xi1 p0 p1 1 1 + c * c * ninj_quad xi0 xi1 p0 p1 2 2
       + 2 * a * b * ninj_quad xi0 xi1 p0 p1 0 1 + 2 * a * c * ninj_quad xi0 xi1 p0 p1 0 2 + 2 * b * c * ninj_quad xi0 xi1 p0 p1 1 2.
Proof.
  intros A0 A1 A2 A3. assert (H0 : 0 <= xi0 <= 2) by lra. assert (H1 : 0 <= xi1 <= 2) by lra.
  set (CC := I_cc xi0 xi1). set (CS := I_cs xi0 xi1). set (SS := I_ss xi0 xi1).
  assert (inner : forall d, 0 <= a * a * CC + 2 * a * d * CS + d * d * SS).
  { intros d. apply (is_RInt_ge_0 (fun xi => a * a * ((1 - xi) * (1 - xi)) + 2 * a * d * ((1 - xi) * ps xi) + d * d * (ps xi * ps xi)) xi0 xi1); [lra| |].
    - apply (is_RInt_plus (V := R_NormedModule) (fun xi => a * a * ((1 - xi) * (1 - xi)) + 2 * a * d * ((1 - xi) * ps xi)) (fun xi => d * d * (ps xi * ps xi))).
      + apply (is_RInt_plus (V := R_NormedModule) (fun xi => a * a * ((1 - xi) * (1 - xi))) (fun xi => 2 * a * d * ((1 - xi) * ps xi))).
        * apply (is_RInt_scal (V := R_NormedModule) _ _ _ (a * a)). apply int_cc.
        * apply (is_RInt_scal (V := R_NormedModule) _ _ _ (2 * a * d)). now apply int_cs.
      + apply (is_RInt_scal (V := R_NormedModule) _ _ _ (d * d)). now apply int_ss.
    - intros xi _. replace (a * a * ((1 - xi) * (1 - xi)) + 2 * a * d * ((1 - xi) * ps xi) + d * d * (ps xi * ps xi))
        with ((a * (1 - xi) + d * ps xi) * (a * (1 - xi) + d * ps xi)) by ring. apply Rle_0_sqr. }
  assert (outer : is_RInt (fun p => a * a * CC * 1 + 2 * a * CS * b * cos p + 2 * a * CS * c * sin p + SS * b * b * (cos p * cos p) + 2 * SS * b * c * (cos p * sin p) + SS * c * c * (sin p * sin p)) p0 p1
     (a * a * CC * (p1 - p0) + 2 * a * CS * b * (sin p1 - sin p0) + 2 * a * CS * c * (cos p0 - cos p1) + SS * b * b * ((p1 - p0) / 2 + (sin p1 * cos p1 - sin p0 * cos p0) / 2)
      + 2 * SS * b * c * ((cos p0 * cos p0 - cos p1 * cos p1) / 2) + SS * c * c * ((p1 - p0) / 2 - (sin p1 * cos p1 - sin p0 * cos p0) / 2))).
  { assert (PL : forall (f g : R -> R) x y, is_RInt f p0 p1 x -> is_RInt g p0 p1 y -> is_RInt (fun p => f p + g p) p0 p1 (x + y)).
    { intros f g x y Hf Hg. apply (is_RInt_plus (V := R_NormedModule) f g); assumption. }
    assert (SC : forall k (f : R -> R) x, is_RInt f p0 p1 x -> is_RInt (fun p => k * f p) p0 p1 (k * x)).
    { intros k f x Hf. apply (is_RInt_scal (V := R_NormedModule) f p0 p1 k). exact Hf. }
    apply (PL (fun p => a * a * CC * 1 + 2 * a * CS * b * cos p + 2 * a * CS * c * sin p + SS * b * b * (cos p * cos p) + 2 * SS * b * c * (cos p * sin p)) (fun p => SS * c * c * (sin p * sin p))); [|apply SC, int_sinsin].
    apply (PL (fun p => a * a * CC * 1 + 2 * a * CS * b * cos p + 2 * a * CS * c * sin p + SS * b * b * (cos p * cos p)) (fun p => 2 * SS * b * c * (cos p * sin p))); [|apply SC, int_cossin].
    apply (PL (fun p => a * a * CC * 1 + 2 * a * CS * b * cos p + 2 * a * CS * c * sin p) (fun p => SS * b * b * (cos p * cos p))); [|apply SC, int_coscos].
    apply (PL (fun p => a * a * CC * 1 + 2 * a * CS * b * cos p) (fun p => 2 * a * CS * c * sin p)); [|apply SC, int_sin].
    apply (PL (fun p => a * a * CC * 1) (fun p => 2 * a * CS * b * cos p)); [|apply SC, int_cos].
    apply (SC (a * a * CC) (fun _ => 1)), int_one. }
  apply is_RInt_ge_0 in outer; [|lra|].
  - replace (a * a * ninj_quad xi0 xi1 p0 p1 0 0 + b * b * ninj_quad xi0 xi1 p0 p1 1 1 + c * c * ninj_quad xi0 xi1 p0 p1 2 2
       + 2 * a * b * ninj_quad xi0 xi1 p0 p1 0 1 + 2 * a * c * ninj_quad xi0 xi1 p0 p1 0 2 + 2 * b * c * ninj_quad xi0 xi1 p0 p1 1 2)
      with (a * a * CC * (p1 - p0) + 2 * a * CS * b * (sin p1 - sin p0) + 2 * a * CS * c * (cos p0 - cos p1) + SS * b * b * ((p1 - p0) / 2 + (sin p1 * cos p1 - sin p0 * cos p0) / 2)
      + 2 * SS * b * c * ((cos p0 * cos p0 - cos p1 * cos p1) / 2) + SS * c * c * ((p1 - p0) / 2 - (sin p1 * cos p1 - sin p0 * cos p0) / 2)); [exact outer|].
    unfold CC, CS, SS, I_ss, I_cc, I_cs, ninj_quad, ps. field.
  - intros p _. specialize (inner (b * cos p + c * sin p)).
    replace (a * a * CC * 1 + 2 * a * CS * b * cos p + 2 * a * CS * c * sin p + SS * b * b * (cos p * cos p) + 2 * SS * b * c * (cos p * sin p) + SS * c * c * (sin p * sin p))
      with (a * a * CC + 2 * a * (b * cos p + c * sin p) * CS + (b * cos p + c * sin p) * (b * cos p + c * sin p) * SS) by ring. exact inner.
Qed.

(** ** Sums over the samples *)
Lemma sum_ext f g n : (forall k, (k < n)%nat -> f k = g k) -> sum_to f n = sum_to g n.
Proof. induction n as [|n IH]; intros H; [reflexivity|]. cbn. rewrite IH by (intros; apply H; lia). rewrite H by lia. reflexivity. Qed.
Lemma sum_set f (g : nat -> Rect) n m r : (m < n)%nat ->
  sum_to (fun k => f (set_rect g m r k)) n = sum_to (fun k => f (g k)) n - f (g m) + f r.
Proof.
  induction n as [|n IH]; intros H; [lia|]. cbn [sum_to]. destruct (Nat.eq_dec m n) as [->|D].
  - rewrite (sum_ext _ (fun k => f (g k)) n).
    + unfold set_rect. rewrite Nat.eqb_refl. ring.
    + intros k Hk. unfold set_rect. destruct (Nat.eqb_spec k n); [lia|reflexivity].
  - rewrite IH by lia. unfold set_rect at 1. destruct (Nat.eqb_spec n m); [lia|]. ring.
Qed.
Lemma sum_scal c f n : sum_to (fun k => f k * c) n = sum_to f n * c.
Proof. induction n as [|n IH]; cbn; [ring|]. rewrite IH. ring. Qed.
Lemma sum_plus f g n : sum_to (fun k => f k + g k) n = sum_to f n + sum_to g n.
Proof. induction n as [|n IH]; cbn; [ring|]. rewrite IH. ring. Qed.
Lemma sum_nonneg f n : (forall k, (k < n)%nat -> 0 <= f k) -> 0 <= sum_to f n.
Proof. induction n as [|n IH]; intros H; cbn; [lra|]. pose proof (H n ltac:(lia)). pose proof (IH ltac:(intros; apply H; lia)). lra. Qed.
Lemma sum_pos_term f n : 0 < sum_to f n -> exists k, (k < n)%nat /\ 0 < f k.
Proof.
  induction n as [|n IH]; cbn; [lra|]. intros H. destruct (Rlt_dec 0 (f n)) as [P|P].
  - exists n. split; [lia|exact P].
  - destruct IH as (k & A & B); [lra|]. exists k. split; [lia|exact B].
Qed.

(** a quantity that adds up when a box is cut in two *)
Definition additive (f : Rect -> R) : Prop :=
  (forall a m b p q, f {| mu_lo := a; mu_hi := m; phi_lo := p; phi_hi := q |} + f {| mu_lo := m; mu_hi := b; phi_lo := p; phi_hi := q |}
                     = f {| mu_lo := a; mu_hi := b; phi_lo := p; phi_hi := q |}) /\
  (forall a b p m q, f {| mu_lo := a; mu_hi := b; phi_lo := p; phi_hi := m |} + f {| mu_lo := a; mu_hi := b; phi_lo := m; phi_hi := q |}
                     = f {| mu_lo := a; mu_hi := b; phi_lo := p; phi_hi := q |}).
Lemma split_additive f nt r : additive f -> f (fst (kd_split nt r)) + f (snd (kd_split nt r)) = f r.
Proof.
  intros (A & B). destruct r as [a b p q]. unfold kd_split. cbv zeta. cbn [mu_lo mu_hi phi_lo phi_hi].
  destruct (Rlt_bool (q - p) (b - a)).
  - destruct (Rlt_bool _ _); cbn [fst snd]; [|rewrite Rplus_comm]; apply A.
  - destruct (Rlt_bool _ _); cbn [fst snd]; [|rewrite Rplus_comm]; apply B.
Qed.
Lemma omega_additive : additive rect_omega.
Proof. split; intros; unfold rect_omega; cbn; ring. Qed.
Lemma wgts_additive i j : additive (fun r => rect_wgts r i j).
Proof.
  split; intros; unfold rect_wgts; cbn [mu_lo mu_hi phi_lo phi_hi]; unfold ninj_quad; cbv zeta;
  destruct i as [|[|[|i]]]; destruct j as [|[|[|j]]]; field.
Qed.
(** the signed indicator of a point *)
Definition lower (a x : R) : R := if Rlt_dec a x then 1 else 0.
Definition signed (x y : R) (r : Rect) : R := (lower (mu_lo r) x - lower (mu_hi r) x) * (lower (phi_lo r) y - lower (phi_hi r) y).
Lemma signed_additive x y : additive (signed x y).
Proof. split; intros; unfold signed; cbn [mu_lo mu_hi phi_lo phi_hi]; ring. Qed.

Lemma first_below_some P n m : first_below P n = Some m -> (m < n)%nat /\ P m = true.
Proof.
  induction n as [|n IH]; cbn; [discriminate|]. destruct (first_below P n) as [k|] eqn:E.
  - intros H. injection H as <-. destruct (IH eq_refl). split; [lia|assumption].
  - destruct (P n) eqn:Q; [|discriminate]. intros H. injection H as <-. split; [lia|exact Q].
Qed.
Lemma first_below_none P n : first_below P n = None -> forall k, (k < n)%nat -> P k = false.
Proof.
  induction n as [|n IH]; cbn; intros H k Hk; [lia|]. destruct (first_below P n) eqn:E; [discriminate|].
  destruct (P n) eqn:Q; [discriminate|]. destruct (Nat.eq_dec k n) as [->|D]; [exact Q|]. apply IH; [reflexivity|lia].
Qed.

Definition placed (nt : nat -> vec) (g0 : nat -> Rect) (n : nat) : Prop :=
  forall k, (0 < k < n)%nat -> kd_find (nt k) (kd_grid nt g0 k) k <> None.
Lemma kd_sum f nt g0 n : additive f -> placed nt g0 (S n) -> sum_to (fun k => f (kd_grid nt g0 (S n) k)) (S n) = f whole_sphere.
Proof.
  intros A. induction n as [|n IH]; intros P.
  - cbn. ring.
  - specialize (IH (fun k Hk => P k ltac:(lia))).
    change (kd_grid nt g0 (S (S n))) with (kd_step (nt (S n)) (S n) (kd_grid nt g0 (S n))).
    set (g := kd_grid nt g0 (S n)) in *. unfold kd_step.
    specialize (P (S n) ltac:(lia)). fold g in P. destruct (kd_find (nt (S n)) g (S n)) as [m|] eqn:E; [|congruence].
    destruct (kd_split (nt (S n)) (g m)) as [rn rm] eqn:K.
    destruct (first_below_some _ _ _ E) as (Hm & _).
    rewrite (sum_set f) by lia. change (sum_to (fun k => f (set_rect g m rm k)) (S (S n))) with
      (sum_to (fun k => f (set_rect g m rm k)) (S n) + f (set_rect g m rm (S n))).
    rewrite (sum_set f g (S n) m rm) by lia. rewrite IH.
    pose proof (split_additive f (nt (S n)) (g m) A) as Q. rewrite K in Q. cbn [fst snd] in Q. lra.
Qed.
