(** The Thomas algorithm of Model/MonopoleGR.v. *)
From Coq Require Import Reals ZArith List Lia Lra Arith.
From Verif.Model Require Import MonopoleGR.
From Verif.Spec Require Import Hypersurface.
Local Open Scope R_scope.

Section T.
  Variables l d u b : nat -> R.
  Fixpoint pd (i : nat) : R := match i with O => d 0%nat | S k => d (S k) - l (S k) / pd k * u k end.
  Fixpoint pb (i : nat) : R := match i with O => b 0%nat | S k => b (S k) - l (S k) / pd k * pb k end.

  Lemma upd_same f i v : upd f i v i = v.
  Proof. unfold upd. rewrite Nat.eqb_refl. reflexivity. Qed.
  Lemma upd_other f i v k : k <> i -> upd f i v k = f k.
  Proof. intros H. unfold upd. apply Nat.eqb_neq in H. rewrite H. reflexivity. Qed.

  Lemma forward_spec n : forall i D B,
    (forall k, (k <= i)%nat -> D k = pd k /\ B k = pb k) ->
    (forall k, (i < k)%nat -> D k = d k /\ B k = b k) ->
    let '(D', B') := forward l u n (S i) D B in
    forall k, (k <= i + n)%nat -> D' k = pd k /\ B' k = pb k.
  Proof.
    induction n as [|n IH]; intros i D B H1 H2; cbn [forward].
    - intros k Hk. apply H1. lia.
    - replace (S i - 1)%nat with i by lia.
      assert (E1 : forall k, (k <= S i)%nat ->
        upd D (S i) (D (S i) - l (S i) / D i * u i) k = pd k /\ upd B (S i) (B (S i) - l (S i) / D i * B i) k = pb k).
      { intros k Hk. destruct (Nat.eq_dec k (S i)) as [->|N].
        - rewrite !upd_same. destruct (H1 i (le_n i)) as [Ed Eb]. destruct (H2 (S i) (Nat.lt_succ_diag_r i)) as [Ed2 Eb2].
          rewrite Ed, Eb, Ed2, Eb2. split; reflexivity.
        - rewrite !upd_other by exact N. apply H1. lia. }
      assert (E2 : forall k, (S i < k)%nat ->
        upd D (S i) (D (S i) - l (S i) / D i * u i) k = d k /\ upd B (S i) (B (S i) - l (S i) / D i * B i) k = b k).
      { intros k Hk. rewrite !upd_other by lia. apply H2. lia. }
      specialize (IH (S i) _ _ E1 E2). cbv zeta.
      destruct (forward l u n (S (S i)) _ _) as [D' B'].
      intros k Hk. apply IH. lia.
  Qed.
  Lemma backward_above D B k : forall alpha j, (k <= j)%nat -> backward u D B k alpha j = alpha j.
  Proof.
    induction k as [|k IH]; intros alpha j Hj; cbn [backward]; [reflexivity|].
    rewrite IH by lia. apply upd_other. lia.
  Qed.
  Lemma backward_spec D B k : forall alpha j, (j < k)%nat ->
    backward u D B k alpha j = (B j - u j * backward u D B k alpha (S j)) / D j.
  Proof.
    induction k as [|k IH]; intros alpha j Hj; [lia|]. cbn [backward].
    destruct (Nat.eq_dec j k) as [->|N].
    - rewrite !backward_above by lia. rewrite upd_same, upd_other by lia. reflexivity.
    - apply IH. lia.
  Qed.

  Variable n : nat.
  Variable alpha0 : nat -> R.
  Hypothesis Hn : (1 <= n)%nat.
  Let x := thomas l d u b n alpha0.

  Lemma thomas_last : x (n - 1)%nat = pb (n - 1) / pd (n - 1).
  Proof.
    unfold x, thomas. pose proof (forward_spec (n - 1) 0 d b) as F.
    destruct (forward l u (n - 1) 1 d b) as [D B].
    rewrite backward_above by lia. rewrite upd_same.
    assert (F' : forall k, (k <= 0 + (n - 1))%nat -> D k = pd k /\ B k = pb k).
    { apply F; intros k Hk; [replace k with 0%nat by lia; split; reflexivity | split; reflexivity]. }
    destruct (F' (n - 1)%nat ltac:(lia)) as [-> ->]. reflexivity.
  Qed.
  Lemma thomas_row i : (i < n - 1)%nat -> x i = (pb i - u i * x (S i)) / pd i.
  Proof.
    intros Hi. unfold x, thomas. pose proof (forward_spec (n - 1) 0 d b) as F.
    destruct (forward l u (n - 1) 1 d b) as [D B].
    assert (F' : forall k, (k <= 0 + (n - 1))%nat -> D k = pd k /\ B k = pb k).
    { apply F; intros k Hk; [replace k with 0%nat by lia; split; reflexivity | split; reflexivity]. }
    rewrite backward_spec by exact Hi. destruct (F' i ltac:(lia)) as [-> ->]. reflexivity.
  Qed.

  Hypothesis Hp : forall i, (i < n)%nat -> pd i <> 0.

  (** eliminated rows *)
  Definition eliminated (y : nat -> R) : Prop :=
    pd (n - 1) * y (n - 1)%nat = pb (n - 1) /\ forall i, (i < n - 1)%nat -> pd i * y i + u i * y (S i) = pb i.

  Lemma thomas_eliminated : eliminated x.
  Proof.
    split.
    - rewrite thomas_last. field. apply Hp. lia.
    - intros i Hi. rewrite (thomas_row i Hi). field. apply Hp. lia.
  Qed.
  Lemma eliminated_unique y z : eliminated y -> eliminated z -> forall i, (i < n)%nat -> y i = z i.
  Proof.
    intros [Y1 Y2] [Z1 Z2].
    assert (H : forall k i, (i + k = n - 1)%nat -> (i < n)%nat -> y i = z i).
    { induction k as [|k IH]; intros i Hi Hin.
      - replace i with (n - 1)%nat by lia. apply (Rmult_eq_reg_l (pd (n - 1))); [lra | apply Hp; lia].
      - destruct (Nat.eq_dec i (n - 1)) as [->|N].
        + apply (Rmult_eq_reg_l (pd (n - 1))); [lra | apply Hp; lia].
        + specialize (IH (S i) ltac:(lia) ltac:(lia)). specialize (Y2 i ltac:(lia)). specialize (Z2 i ltac:(lia)).
          apply (Rmult_eq_reg_l (pd i)); [|apply Hp; lia]. rewrite IH in Y2. lra. }
    intros i Hi. apply (H (n - 1 - i)%nat); lia.
  Qed.
  Lemma solves_eliminated y : solves_tridiagonal l d u b n y <-> eliminated y.
  Proof.
    unfold solves_tridiagonal, tridiagonal_row. split.
    - intros H.
      assert (E : forall i, (i < n)%nat -> pd i * y i + (if Nat.eqb i (n - 1) then 0 else u i * y (S i)) = pb i).
      { induction i as [|i IH]; intros Hi.
        - specialize (H 0%nat Hi). cbn [pd pb]. change (Nat.eqb 0 0) with true in H. cbv iota in H. lra.
        - specialize (IH ltac:(lia)). specialize (H (S i) Hi).
          replace (S i - 1)%nat with i in H by lia. change (Nat.eqb (S i) 0) with false in H. cbv iota in H.
          assert (N : Nat.eqb i (n - 1) = false) by (apply Nat.eqb_neq; lia). rewrite N in IH.
          cbn [pd pb]. rewrite <- H. rewrite <- IH.
          assert (P : pd i <> 0) by (apply Hp; lia).
          destruct (Nat.eqb (S i) (n - 1)); field; exact P. }
      split.
      + specialize (E (n - 1)%nat ltac:(lia)). rewrite Nat.eqb_refl in E. lra.
      + intros i Hi. specialize (E i ltac:(lia)). assert (N : Nat.eqb i (n - 1) = false) by (apply Nat.eqb_neq; lia). rewrite N in E. exact E.
    - intros [E1 E2] i Hi.
      assert (E : forall i, (i < n)%nat -> pd i * y i + (if Nat.eqb i (n - 1) then 0 else u i * y (S i)) = pb i).
      { intros k Hk. destruct (Nat.eqb k (n - 1)) eqn:N.
        - apply Nat.eqb_eq in N. subst k. lra.
        - apply Nat.eqb_neq in N. apply E2. lia. }
      destruct i as [|i].
      + specialize (E 0%nat Hi). cbn [pd pb] in E. change (Nat.eqb 0 0) with true. cbv iota. lra.
      + pose proof (E (S i) Hi) as A. pose proof (E i ltac:(lia)) as B.
        replace (S i - 1)%nat with i by lia. change (Nat.eqb (S i) 0) with false. cbv iota.
        assert (N : Nat.eqb i (n - 1) = false) by (apply Nat.eqb_neq; lia). rewrite N in B.
        cbn [pd pb] in A.
        assert (P : pd i <> 0) by (apply Hp; lia).
        assert (A' : b (S i) = (d (S i) - l (S i) / pd i * u i) * y (S i) +
          (if Nat.eqb (S i) (n - 1) then 0 else u (S i) * y (S (S i))) + l (S i) / pd i * pb i) by lra.
        rewrite A', <- B. destruct (Nat.eqb (S i) (n - 1)); field; exact P.
  Qed.
  Lemma thomas_solves : solves_tridiagonal l d u b n x.
  Proof. apply solves_eliminated. apply thomas_eliminated. Qed.
  Lemma thomas_unique y : solves_tridiagonal l d u b n y -> forall i, (i < n)%nat -> y i = x i.
  Proof. intros H. apply eliminated_unique; [apply solves_eliminated; exact H | apply thomas_eliminated]. Qed.
End T.

(** pivots and solution of the system with rows: u_i > 0, l_i >= 0, l_i + u_i + d_i <= 0, b = 0 but in the last row *)
Section M.
  Variables l d u b : nat -> R.
  Variable n : nat.
  Hypothesis Hn : (2 <= n)%nat.
  Hypothesis H0 : d 0%nat = - 1 /\ u 0%nat = 1 /\ b 0%nat = 0.
  Hypothesis Hi : forall i, (0 < i < n - 1)%nat -> 0 < u i /\ 0 <= l i /\ l i + u i + d i <= 0 /\ b i = 0.
  Hypothesis Hl : 0 <= l (n - 1)%nat /\ l (n - 1)%nat + d (n - 1)%nat = b (n - 1)%nat /\ b (n - 1)%nat < 0.

  Lemma pivots i : (i < n - 1)%nat -> 0 < u i <= - pd l d u i /\ pb l d u b i = 0.
  Proof.
    induction i as [|i IH]; intros Hin.
    - cbn [pd pb]. destruct H0 as (-> & -> & ->). lra.
    - specialize (IH ltac:(lia)). destruct (Hi (S i) ltac:(lia)) as (Hu & Hll & Hs & Hb).
      cbn [pd pb]. destruct IH as [[I1 I2] I3]. rewrite I3, Hb.
      assert (N : pd l d u i <> 0) by lra.
      assert (Q : 0 < - (u i / pd l d u i) <= 1).
      { assert (E : - (u i / pd l d u i) = u i / - pd l d u i) by (field; exact N). rewrite E. split.
        - apply Rdiv_lt_0_compat; lra.
        - apply (Rmult_le_reg_r (- pd l d u i)); [lra|]. unfold Rdiv. rewrite Rmult_assoc, Rinv_l by lra. lra. }
      split; [|ring].
      assert (E : l (S i) / pd l d u i * u i = l (S i) * (u i / pd l d u i)) by (field; exact N).
      rewrite E. split; [exact Hu|].
      assert (M : l (S i) * - (u i / pd l d u i) <= l (S i) * 1) by (apply Rmult_le_compat_l; lra). lra.
  Qed.
  Lemma last_pivot : pd l d u (n - 1) <= b (n - 1)%nat /\ pb l d u b (n - 1) = b (n - 1)%nat.
  Proof.
    destruct (pivots (n - 2) ltac:(lia)) as [[I1 I2] I3].
    replace (n - 1)%nat with (S (n - 2)) in * by lia. cbn [pd pb]. rewrite I3.
    assert (N : pd l d u (n - 2) <> 0) by lra.
    assert (Q : - (u (n - 2)%nat / pd l d u (n - 2)) <= 1).
    { assert (E : - (u (n - 2)%nat / pd l d u (n - 2)) = u (n - 2)%nat / - pd l d u (n - 2)) by (field; exact N). rewrite E.
      apply (Rmult_le_reg_r (- pd l d u (n - 2))); [lra|]. unfold Rdiv. rewrite Rmult_assoc, Rinv_l by lra. lra. }
    split; [|ring].
    assert (E : l (S (n - 2)) / pd l d u (n - 2) * u (n - 2)%nat = l (S (n - 2)) * (u (n - 2)%nat / pd l d u (n - 2))) by (field; exact N).
    rewrite E. destruct Hl as (L1 & L2 & L3).
    assert (M : l (S (n - 2)) * - (u (n - 2)%nat / pd l d u (n - 2)) <= l (S (n - 2)) * 1) by (apply Rmult_le_compat_l; lra). lra.
  Qed.
  Lemma pivots_nonzero i : (i < n)%nat -> pd l d u i <> 0.
  Proof.
    intros Hin. destruct (Nat.eq_dec i (n - 1)) as [->|N].
    - destruct last_pivot as [A _]. destruct Hl as (_ & _ & B). lra.
    - destruct (pivots i ltac:(lia)) as [A _]. lra.
  Qed.
  Variable alpha0 : nat -> R.
  Let x := thomas l d u b n alpha0.
  Lemma last_value : 0 < x (n - 1)%nat <= 1.
  Proof.
    unfold x. rewrite thomas_last by lia. destruct last_pivot as [A ->]. destruct Hl as (_ & _ & B).
    assert (E : b (n - 1)%nat / pd l d u (n - 1) = (- b (n - 1)%nat) / (- pd l d u (n - 1))) by (field; lra).
    rewrite E. split; [apply Rdiv_lt_0_compat; lra|].
    apply (Rmult_le_reg_r (- pd l d u (n - 1))); [lra|]. unfold Rdiv. rewrite Rmult_assoc, Rinv_l by lra. lra.
  Qed.
  Lemma value_step i : (i < n - 1)%nat -> 0 < x (S i) -> 0 < x i <= x (S i).
  Proof.
    intros Hin Hx. unfold x in *. rewrite thomas_row by lia. destruct (pivots i Hin) as [[A B] ->].
    set (y := thomas l d u b n alpha0 (S i)) in *.
    assert (E : (0 - u i * y) / pd l d u i = y * (u i / - pd l d u i)) by (field; lra).
    rewrite E.
    assert (Q : 0 < u i / - pd l d u i <= 1).
    { split; [apply Rdiv_lt_0_compat; lra|]. apply (Rmult_le_reg_r (- pd l d u i)); [lra|]. unfold Rdiv. rewrite Rmult_assoc, Rinv_l by lra. lra. }
    split; [apply Rmult_lt_0_compat; lra|].
    assert (M : y * (u i / - pd l d u i) <= y * 1) by (apply Rmult_le_compat_l; lra). lra.
  Qed.
  Lemma values k : forall i, (i + k = n - 1)%nat -> 0 < x i <= 1 /\ ((i < n - 1)%nat -> x i <= x (S i)).
  Proof.
    induction k as [|k IH]; intros i Hik.
    - replace i with (n - 1)%nat by lia. split; [apply last_value | lia].
    - destruct (Nat.eq_dec i (n - 1)) as [->|N]; [split; [apply last_value | lia]|].
      destruct (le_lt_dec (n - 1) i) as [L|L]; [assert (i = n - 1)%nat by lia; contradiction|].
      destruct (IH (S i) ltac:(lia)) as [[P Q] _]. destruct (value_step i L P) as [A B].
      split; [lra | intros _; exact B].
  Qed.
End M.
