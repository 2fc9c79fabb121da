(** sums over integer ranges and blocks *)
From Coq Require Import ZArith Reals List Lia Lra.
From Verif.Model Require Import ParFor FluxFix.
From Verif.Spec Require Import FluxSpec.
Local Open Scope R_scope.
Lemma sum_from_ext a n f g : (forall x, (a <= x < a + Z.of_nat n)%Z -> f x = g x) -> sum_from a n f = sum_from a n g.
Proof.
  revert a. induction n as [|n IH]; intros a E; cbn [sum_from]; [reflexivity|].
  rewrite (E a) by lia. f_equal. apply IH. intros x Hx. apply E. lia.
Qed.
Lemma sum_from_plus a n f g : sum_from a n (fun x => f x + g x) = sum_from a n f + sum_from a n g.
Proof. revert a. induction n as [|n IH]; intros a; cbn [sum_from]; [ring|]. rewrite IH. ring. Qed.
Lemma sum_from_scal a n f c : sum_from a n (fun x => f x * c) = sum_from a n f * c.
Proof. revert a. induction n as [|n IH]; intros a; cbn [sum_from]; [ring|]. rewrite IH. ring. Qed.
Lemma sum_from_zero a n : sum_from a n (fun _ => 0) = 0.
Proof. revert a. induction n as [|n IH]; intros a; cbn [sum_from]; [ring|]. rewrite IH. ring. Qed.
Lemma sum_from_swap a n b m (f : Z -> Z -> R) :
  sum_from a n (fun x => sum_from b m (fun y => f x y)) = sum_from b m (fun y => sum_from a n (fun x => f x y)).
Proof.
  revert a. induction n as [|n IH]; intros a; cbn [sum_from]; [symmetry; apply sum_from_zero|].
  rewrite IH, <- sum_from_plus. reflexivity.
Qed.
Lemma sum_from_le a n f g : (forall x, (a <= x < a + Z.of_nat n)%Z -> f x <= g x) -> sum_from a n f <= sum_from a n g.
Proof.
  revert a. induction n as [|n IH]; intros a E; cbn [sum_from]; [lra|].
  apply Rplus_le_compat; [apply E; lia|]. apply IH. intros x Hx. apply E. lia.
Qed.
Lemma sum_from_telescope a n f : sum_from a n (fun x => f x - f (x + 1)%Z) = f a - f (a + Z.of_nat n)%Z.
Proof.
  revert a. induction n as [|n IH]; intros a.
  - cbn [sum_from Z.of_nat]. replace (a + 0)%Z with a by lia. ring.
  - cbn [sum_from]. rewrite IH. replace (a + 1 + Z.of_nat n)%Z with (a + Z.of_nat (S n))%Z by lia. ring.
Qed.
Lemma sum_range_telescope a b f : (a <= b)%Z -> sum_range a b (fun x => f x - f (x + 1)%Z) = f a - f (b + 1)%Z.
Proof. intros K. unfold sum_range. rewrite sum_from_telescope. do 2 f_equal. lia. Qed.
Lemma sum_range_ext a b f g : (forall x, (a <= x <= b)%Z -> f x = g x) -> sum_range a b f = sum_range a b g.
Proof. intros E. apply sum_from_ext. intros x Hx. apply E. lia. Qed.
Lemma sum_range_le a b f g : (forall x, (a <= x <= b)%Z -> f x <= g x) -> sum_range a b f <= sum_range a b g.
Proof. intros E. apply sum_from_le. intros x Hx. apply E. lia. Qed.
Lemma sum_range_plus a b f g : sum_range a b (fun x => f x + g x) = sum_range a b f + sum_range a b g.
Proof. apply sum_from_plus. Qed.
Lemma sum_range_scal a b f c : sum_range a b (fun x => f x * c) = sum_range a b f * c.
Proof. apply sum_from_scal. Qed.
Lemma sum_range_zero a b : sum_range a b (fun _ => 0) = 0.
Proof. apply sum_from_zero. Qed.
Lemma sum_range_swap a b c d (f : Z -> Z -> R) :
  sum_range a b (fun x => sum_range c d (fun y => f x y)) = sum_range c d (fun y => sum_range a b (fun x => f x y)).
Proof. apply sum_from_swap. Qed.
Lemma total_ext B f g : (forall c, in_box B c -> f c = g c) -> total B f = total B g.
Proof.
  intros E. unfold total. apply sum_range_ext. intros k Hk. apply sum_range_ext. intros j Hj. apply sum_range_ext. intros i Hi.
  apply E. cbn. auto.
Qed.
Lemma total_plus B f g : total B (fun c => f c + g c) = total B f + total B g.
Proof.
  unfold total. rewrite <- sum_range_plus. apply sum_range_ext. intros k _. rewrite <- sum_range_plus. apply sum_range_ext. intros j _. apply sum_range_plus.
Qed.
Lemma total_scal B f c : total B (fun x => f x * c) = total B f * c.
Proof.
  unfold total. rewrite <- sum_range_scal. apply sum_range_ext. intros k _. rewrite <- sum_range_scal. apply sum_range_ext. intros j _. apply sum_range_scal.
Qed.
Lemma total_zero B : total B (fun _ => 0) = 0.
Proof.
  unfold total. rewrite (sum_range_ext _ _ _ (fun _ => 0)); [apply sum_range_zero|]. intros k _.
  rewrite (sum_range_ext _ _ _ (fun _ => 0)); [apply sum_range_zero|]. intros j _. apply sum_range_zero.
Qed.
(** the divergence theorem on a block *)
Lemma total_d1 B F : nonempty B -> total B (fun c => F D1 c - F D1 (next D1 c)) =
  sum_range (ks B) (ke B) (fun k => sum_range (js B) (je B) (fun j => F D1 (k, j, is_ B) - F D1 (k, j, (ie B + 1)%Z))).
Proof.
  intros N. unfold total. apply sum_range_ext. intros k _. apply sum_range_ext. intros j _. cbn [next].
  apply (sum_range_telescope _ _ (fun i => F D1 (k, j, i))). apply N.
Qed.
Lemma total_d2 B F : nonempty B -> total B (fun c => F D2 c - F D2 (next D2 c)) =
  sum_range (ks B) (ke B) (fun k => sum_range (is_ B) (ie B) (fun i => F D2 (k, js B, i) - F D2 (k, (je B + 1)%Z, i))).
Proof.
  intros N. unfold total. apply sum_range_ext. intros k _. rewrite sum_range_swap. apply sum_range_ext. intros i _. cbn [next].
  apply (sum_range_telescope _ _ (fun j => F D2 (k, j, i))). apply N.
Qed.
Lemma total_d3 B F : nonempty B -> total B (fun c => F D3 c - F D3 (next D3 c)) =
  sum_range (js B) (je B) (fun j => sum_range (is_ B) (ie B) (fun i => F D3 (ks B, j, i) - F D3 ((ke B + 1)%Z, j, i))).
Proof.
  intros N. unfold total. rewrite sum_range_swap. apply sum_range_ext. intros j _. rewrite sum_range_swap. apply sum_range_ext. intros i _. cbn [next].
  apply (sum_range_telescope _ _ (fun k => F D3 (k, j, i))). apply N.
Qed.
Lemma le_zero_sum a b f : (forall x, (a <= x <= b)%Z -> f x <= 0) -> sum_range a b f <= 0.
Proof. intros K. rewrite <- (sum_range_zero a b). apply sum_range_le, K. Qed.
Lemma zero_sum a b f : (forall x, (a <= x <= b)%Z -> f x = 0) -> sum_range a b f = 0.
Proof. intros K. rewrite <- (sum_range_zero a b). apply sum_range_ext, K. Qed.
