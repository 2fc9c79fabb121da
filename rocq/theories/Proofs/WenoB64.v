(** WENO5-Z in binary64: range analysis with powers of two. *)
From Coq Require Import ZArith Reals Lra Lia Bool Psatz.
From Flocq Require Import Core BinarySingleNaN Ulp.
From Verif.Model Require Import Num ReconIEEE.
From Verif.Proofs Require Import NumB64 ReconB64.
Local Open Scope R_scope.

Notation b2 := (bpow radix2).

(** finite with magnitude at most 2^e *)
Definition fin (x : B64) (e : Z) : Prop := is_finite x = true /\ Rabs (B2R x) <= b2 e.
(** finite and between 2^a and 2^e *)
Definition pos (x : B64) (a e : Z) : Prop := is_finite x = true /\ b2 a <= B2R x <= b2 e.

Lemma fin_w x e e' : fin x e -> (e <= e')%Z -> fin x e'.
Proof. intros [F B] H. split; [exact F|]. eapply Rle_trans; [exact B|]. apply bpow_le, H. Qed.
Lemma pos_w x a e a' e' : pos x a e -> (a' <= a)%Z -> (e <= e')%Z -> pos x a' e'.
Proof.
  intros [F [A B]] H1 H2. split; [exact F|].
  pose proof (bpow_le radix2 a' a H1). pose proof (bpow_le radix2 e e' H2). lra.
Qed.
Lemma pos_fin x a e : pos x a e -> fin x e.
Proof. intros [F [A B]]. split; [exact F|]. pose proof (bpow_gt_0 radix2 a). rewrite Rabs_pos_eq; lra. Qed.

Lemma fin_add x y e : fin x e -> fin y e -> (-1075 <= e <= 1022)%Z -> fin (nadd x y) (e + 1).
Proof.
  intros [Fx Bx] [Fy By] He.
  assert (H : Rabs (B2R x + B2R y) <= b2 (e + 1)).
  { rewrite bp_double. eapply Rle_trans; [apply Rabs_triang|]. lra. }
  destruct (add64 x y Fx Fy) as [E F].
  { eapply Rle_trans; [exact H|]. apply bpow_le. lia. }
  split; [exact F|]. rewrite E. apply rnd64_abs_le; [lia|exact H].
Qed.
Lemma fin_sub x y e : fin x e -> fin y e -> (-1075 <= e <= 1022)%Z -> fin (nsub x y) (e + 1).
Proof.
  intros [Fx Bx] [Fy By] He.
  assert (H : Rabs (B2R x - B2R y) <= b2 (e + 1)).
  { rewrite bp_double. unfold Rminus. eapply Rle_trans; [apply Rabs_triang|]. rewrite Rabs_Ropp. lra. }
  destruct (sub64 x y Fx Fy) as [E F].
  { eapply Rle_trans; [exact H|]. apply bpow_le. lia. }
  split; [exact F|]. rewrite E. apply rnd64_abs_le; [lia|exact H].
Qed.
Lemma fin_mul x y e f : fin x e -> fin y f -> (-1074 <= e + f <= 1023)%Z -> fin (nmul x y) (e + f).
Proof.
  intros [Fx Bx] [Fy By] He.
  assert (H : Rabs (B2R x * B2R y) <= b2 (e + f)).
  { rewrite bpow_plus, Rabs_mult. apply Rmult_le_compat; try apply Rabs_pos; assumption. }
  destruct (mul64 x y Fx Fy) as [E F].
  { eapply Rle_trans; [exact H|]. apply bpow_le. lia. }
  split; [exact F|]. rewrite E. apply rnd64_abs_le; [lia|exact H].
Qed.
Lemma fin_abs x e : fin x e -> fin (nabs x) e.
Proof. intros [F B]. destruct (abs64 x F) as [E F']. split; [exact F'|]. rewrite E, Rabs_Rabsolu. exact B. Qed.

Lemma rnd64_in x a e : (-1074 <= a)%Z -> (-1074 <= e)%Z -> b2 a <= x <= b2 e -> b2 a <= rnd64 x <= b2 e.
Proof.
  intros Ha He [H1 H2]. rewrite <- (rnd64_bpow a Ha), <- (rnd64_bpow e He). split; apply rnd64_le; assumption.
Qed.
Lemma pos_abs x a e : pos x a e -> Rabs (B2R x) <= b2 e.
Proof. intros P. apply (proj2 (pos_fin _ _ _ P)). Qed.

Lemma pos_mul x y a e b f : pos x a e -> pos y b f -> (-1074 <= a + b)%Z -> (-1074 <= e + f <= 1023)%Z ->
  pos (nmul x y) (a + b) (e + f).
Proof.
  intros [Fx [Ax Bx]] [Fy [Ay By]] H1 H2.
  pose proof (bpow_gt_0 radix2 a). pose proof (bpow_gt_0 radix2 b).
  assert (Hq : b2 (a + b) <= B2R x * B2R y <= b2 (e + f)).
  { rewrite !bpow_plus. split; apply Rmult_le_compat; lra. }
  destruct (mul64 x y Fx Fy) as [E F].
  { pose proof (bpow_gt_0 radix2 (a + b)). rewrite Rabs_pos_eq by lra.
    eapply Rle_trans; [apply Hq|]. apply bpow_le. lia. }
  split; [exact F|]. rewrite E. apply rnd64_in; [lia|lia|exact Hq].
Qed.
Lemma pos_add (x y : B64) a e b : pos x a e -> is_finite y = true -> 0 <= B2R y <= b2 b -> (b <= e)%Z ->
  (-1074 <= a)%Z -> (-1075 <= e <= 1022)%Z -> pos (nadd x y) a (e + 1).
Proof.
  intros [Fx [Ax Bx]] Fy [Ay By] Hb Ha He.
  pose proof (bpow_gt_0 radix2 a). pose proof (bpow_le radix2 b e Hb).
  assert (Hq : b2 a <= B2R x + B2R y <= b2 (e + 1)) by (rewrite bp_double; lra).
  destruct (add64 x y Fx Fy) as [E F].
  { rewrite Rabs_pos_eq by lra. eapply Rle_trans; [apply Hq|]. apply bpow_le. lia. }
  split; [exact F|]. rewrite E. apply rnd64_in; [lia|lia|exact Hq].
Qed.
Lemma pos_addp x y a e b f : pos x a e -> pos y b f -> (f <= e)%Z ->
  (-1074 <= a)%Z -> (-1075 <= e <= 1022)%Z -> pos (nadd x y) a (e + 1).
Proof.
  intros Px [Fy [Ay By]] Hb Ha He. apply (pos_add x y a e f Px Fy); try assumption.
  pose proof (bpow_gt_0 radix2 b). lra.
Qed.
Lemma pos_add_r (x y : B64) a e b : is_finite x = true -> 0 <= B2R x <= b2 b -> pos y a e -> (b <= e)%Z ->
  (-1074 <= a)%Z -> (-1075 <= e <= 1022)%Z -> pos (nadd x y) a (e + 1).
Proof.
  intros Fx [Ax Bx] [Fy [Ay By]] Hb Ha He.
  pose proof (bpow_gt_0 radix2 a). pose proof (bpow_le radix2 b e Hb).
  assert (Hq : b2 a <= B2R x + B2R y <= b2 (e + 1)) by (rewrite bp_double; lra).
  destruct (add64 x y Fx Fy) as [E F].
  { rewrite Rabs_pos_eq by lra. eapply Rle_trans; [apply Hq|]. apply bpow_le. lia. }
  split; [exact F|]. rewrite E. apply rnd64_in; [lia|lia|exact Hq].
Qed.
Lemma pos_div x y a e b f : pos x a e -> pos y b f -> (-1074 <= a - f)%Z -> (-1074 <= e - b <= 1023)%Z ->
  pos (ndiv x y) (a - f) (e - b).
Proof.
  intros [Fx [Ax Bx]] [Fy [Ay By]] H1 H2.
  pose proof (bpow_gt_0 radix2 a). pose proof (bpow_gt_0 radix2 b). pose proof (bpow_gt_0 radix2 f).
  assert (Hq : b2 (a - f) <= B2R x / B2R y <= b2 (e - b)).
  { unfold Zminus. rewrite !bpow_plus, !bpow_opp. unfold Rdiv.
    assert (/ b2 f <= / B2R y <= / b2 b) by (split; apply Rinv_le; lra).
    assert (0 < / b2 f) by (apply Rinv_0_lt_compat; lra).
    split; apply Rmult_le_compat; lra. }
  destruct (div64 x y Fx) as [E F].
  { apply Rgt_not_eq. lra. }
  { pose proof (bpow_gt_0 radix2 (a - f)). rewrite Rabs_pos_eq by lra.
    eapply Rle_trans; [apply Hq|]. apply bpow_le. lia. }
  split; [exact F|]. rewrite E. apply rnd64_in; [lia|lia|exact Hq].
Qed.

(** literals: decided by computation on doubles *)
Definition b64pow (e : Z) : B64 :=
  binary_normalize prec64 emax64 prec64_gt_0 prec64_lt_emax64 mode_NE 1 e false.
Lemma b64pow_val e : (-1074 <= e <= 1023)%Z -> B2R (b64pow e) = b2 e /\ is_finite (b64pow e) = true.
Proof.
  intros He.
  pose proof (binary_normalize_correct prec64 emax64 prec64_gt_0 prec64_lt_emax64 mode_NE 1 e false) as C.
  cbv zeta in C.
  replace (F2R (Float radix2 1 e)) with (b2 e) in C by (unfold F2R; cbn -[bpow]; ring).
  change (round radix2 fexp64 (round_mode mode_NE)) with rnd64 in C.
  rewrite rnd64_overflow_free in C.
  - destruct C as (E & F & _). rewrite rnd64_bpow in E by lia. split; assumption.
  - rewrite Rabs_pos_eq by apply bpow_ge_0. apply bpow_le. lia.
Qed.
Lemma lit_pos (x : B64) a e : (-1074 <= a <= 1023)%Z -> (-1074 <= e <= 1023)%Z ->
  (is_finite x && (nle (b64pow a) x && nle x (b64pow e)))%bool = true -> pos x a e.
Proof.
  intros Ha He H. apply andb_true_iff in H. destruct H as [F H]. apply andb_true_iff in H. destruct H as [H1 H2].
  destruct (b64pow_val a Ha) as [Ea Fa]. destruct (b64pow_val e He) as [Ee Fe].
  rewrite le64 in H1, H2 by assumption. rewrite Ea in H1. rewrite Ee in H2.
  split; [exact F|]. split.
  - destruct (Rle_bool_spec (b2 a) (B2R x)); [assumption|discriminate H1].
  - destruct (Rle_bool_spec (B2R x) (b2 e)); [assumption|discriminate H2].
Qed.
Lemma lit_fin (x : B64) e : (-1074 <= e <= 1023)%Z ->
  (is_finite x && nle (nabs x) (b64pow e))%bool = true -> fin x e.
Proof.
  intros He H. apply andb_true_iff in H. destruct H as [F H].
  destruct (b64pow_val e He) as [Ee Fe]. destruct (abs64 x F) as [Eb Fb].
  rewrite le64 in H by assumption. rewrite Ee, Eb in H. split; [exact F|].
  destruct (Rle_bool_spec (Rabs (B2R x)) (b2 e)); [assumption|discriminate H].
Qed.
Ltac lit := first [apply lit_pos | apply lit_fin]; [lia..|vm_compute; reflexivity].

Lemma eps_pos : pos g_eps (-333) (-332).
Proof. lit. Qed.
