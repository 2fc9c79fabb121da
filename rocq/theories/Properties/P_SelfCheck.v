(** C65: the start-up self-checks *)
From Coq Require Import ZArith List Reals Lra Lia Permutation.
From Flocq Require Import Core BinarySingleNaN.
From Verif.Model Require Import Num Robust SelfCheck.
From Verif.Spec Require Import SelfCheckSpec.
From Verif.Proofs Require Import NumR.
Import ListNotations.
Local Open Scope R_scope.

Local Notation small := (10 / IZR (2 ^ 1022)).

Lemma ratio_R a b : ratio (T:=R) a b = a / (b + (if Rle_bool 0 b then small else - small)).
Proof.
  unfold ratio, SMALL, nzero. cbn [nlit nle nmul nadd ndiv Num_R]. change (IZR (Z.pos (2 ^ 1022))) with (IZR (2 ^ 1022)).
  set (s := 10 / IZR (2 ^ 1022)). clearbody s. replace (0 / 1) with 0 by field. destruct (Rle_bool 0 b); f_equal; field.
Qed.
Lemma small_pos : 0 < small.
Proof. apply Rdiv_lt_0_compat; [lra | apply IZR_lt; reflexivity]. Qed.
Lemma RelErr_R a b : @RelErr R Num_R a b = Rmin (2 * (Rabs (a - b) / (a + b + (if Rle_bool 0 (a + b) then small else - small)))) (Rabs (a - b)).
Proof. unfold RelErr. rewrite std_min_R, ratio_R. cbn [nlit nmul nabs nsub nadd Num_R]. rewrite div1. reflexivity. Qed.

Lemma RelErr_agree a b t : 0 <= t -> (@RelErr R Num_R a b <= t <-> (0 <= a + b -> agree small t a b)).
Proof.
  intros Ht. rewrite RelErr_R. pose proof small_pos as S. set (s := small) in *. clearbody s. unfold agree.
  pose proof (Rabs_pos (a - b)) as D. set (d := Rabs (a - b)) in *. clearbody d.
  destruct (Rle_or_lt 0 (a + b)) as [L | L].
  - rewrite Rle_bool_true by exact L.
    assert (E : 2 * (d / (a + b + s)) <= t <-> d <= t * ((a + b + s) / 2)).
    { split; intros Q.
      - apply (Rmult_le_compat_r ((a + b + s) / 2)) in Q; [| lra]. replace (2 * (d / (a + b + s)) * ((a + b + s) / 2)) with d in Q by (field; lra). exact Q.
      - apply Rmult_le_reg_r with ((a + b + s) / 2); [lra |]. replace (2 * (d / (a + b + s)) * ((a + b + s) / 2)) with d by (field; lra). exact Q. }
    split.
    + intros Q _. unfold Rmin in Q. destruct (Rle_dec _ _); [right; apply E, Q | left; exact Q].
    + intros Q. destruct (Q L) as [Q' | Q']; [eapply Rle_trans; [apply Rmin_r | exact Q'] | eapply Rle_trans; [apply Rmin_l | apply E, Q']].
  - rewrite Rle_bool_false by exact L. split; [lra |]. intros _. eapply Rle_trans; [apply Rmin_l |].
    assert (N : / (a + b + - s) < 0) by (apply Rinv_lt_0_compat; lra).
    unfold Rdiv. assert (d * / (a + b + - s) <= 0) by nra. lra.
Qed.

Lemma lowest_neg : @lowest R Num_R < 0.
Proof. unfold lowest. cbn [nlit nmul nopp Num_R]. rewrite !div1. assert (0 < IZR (2 ^ 53 - 1)) by (apply IZR_lt; reflexivity). assert (0 < IZR (2 ^ 971)) by (apply IZR_lt; reflexivity). nra. Qed.

Lemma components_le (l : list (R * R)) (le t : R) : @check_components R Num_R le l <= t <-> le <= t /\ forall a b, In (a, b) l -> @RelErr R Num_R a b <= t.
Proof.
  revert le. induction l as [| [a b] l IH]; intros le.
  - cbn. split; [intros Q; split; [exact Q | intros ? ? []] | intros (Q & _); exact Q].
  - change (@check_components R Num_R le ((a, b) :: l)) with (@check_components R Num_R (std_max le (@RelErr R Num_R a b)) l).
    rewrite IH, std_max_R. split.
    + intros (M & Q). pose proof (Rmax_l le (@RelErr R Num_R a b)). pose proof (Rmax_r le (@RelErr R Num_R a b)).
      split; [lra |]. intros a' b' [E | E]; [injection E; intros; subst; lra | apply Q, E].
    + intros (M & Q). split; [apply Rmax_lub; [exact M | apply Q; left; reflexivity] | intros; apply Q; right; assumption].
Qed.
Lemma plan_le (p : Plan R) (t : R) : @par_reduce_max R Num_R p <= t <-> @lowest R Num_R <= t /\ forall a b, In (a, b) (visited p) -> @RelErr R Num_R a b <= t.
Proof.
  induction p as [l | p IHp q IHq].
  - apply components_le.
  - cbn [par_reduce_max visited]. rewrite std_max_R. split.
    + intros M. pose proof (Rmax_l (@par_reduce_max R Num_R p) (@par_reduce_max R Num_R q)). pose proof (Rmax_r (@par_reduce_max R Num_R p) (@par_reduce_max R Num_R q)).
      destruct (proj1 IHp ltac:(lra)) as (L & P), (proj1 IHq ltac:(lra)) as (_ & Q). split; [exact L |].
      intros a b I. apply in_app_or in I as [I | I]; auto.
    + intros (L & Q). apply Rmax_lub; [apply IHp | apply IHq]; (split; [exact L | intros; apply Q, in_or_app; auto]).
Qed.

(** check_cached_geom, every way Kokkos deals out the comparisons: the printed error is at most t
    exactly when all compared components whose sum is not negative agree to t. *)
Theorem C65_geometry_report (p : Plan R) (compared : list (R * R)) (t : R) : Permutation (visited p) compared -> 0 <= t ->
  (par_reduce_max p <= t <-> forall analytic cached, In (analytic, cached) compared -> 0 <= analytic + cached -> agree (10 / IZR (2 ^ 1022)) t analytic cached).
Proof.
  intros P Ht. rewrite plan_le. pose proof lowest_neg. split.
  - intros (_ & Q) a b I. apply RelErr_agree; [exact Ht |]. apply Q. apply (Permutation_in _ (Permutation_sym P)), I.
  - intros Q. split; [lra |]. intros a b I. apply RelErr_agree; [exact Ht |]. apply Q, (Permutation_in _ P), I.
Qed.
Print Assumptions C65_geometry_report.
Example C65_geometry_report_nonvacuous : Permutation (visited (Join (Thread [(2, 3)]) (Thread [(1, 1); (0, 0)]))) [(1, 1); (2, 3); (0, 0)] /\ ~ agree (10 / IZR (2 ^ 1022)) (1 / 10) 2 3.
Proof.
  split; [apply perm_swap |]. unfold agree. assert (small < 1). { apply Rmult_lt_reg_r with (IZR (2 ^ 1022)); [apply IZR_lt; reflexivity |]. unfold Rdiv. rewrite Rmult_assoc, Rinv_l, Rmult_1_r, Rmult_1_l; [apply IZR_lt; reflexivity | apply not_0_IZR; discriminate]. }
  rewrite Rabs_left by lra. lra.
Qed.

(** ... and the number printed does not depend on that choice *)
Theorem C65_geometry_schedule (p q : Plan R) : Permutation (visited p) (visited q) -> par_reduce_max p = par_reduce_max q.
Proof.
  intros P. apply Rle_antisym; apply plan_le.
  - destruct (proj1 (plan_le q _) (Rle_refl _)) as (L & Q). split; [exact L |]. intros a b I. apply Q, (Permutation_in _ P), I.
  - destruct (proj1 (plan_le p _) (Rle_refl _)) as (L & Q). split; [exact L |]. intros a b I. apply Q, (Permutation_in _ (Permutation_sym P)), I.
Qed.
Print Assumptions C65_geometry_schedule.

(** VIOLATION: components that are negative, such as the time-time component of every metric, are
    divided by their negative sum; however wrong they are, the printed error is zero. *)
Theorem C65_geometry_negative_refuted : forall e, 0 < e ->
  exists analytic cached, Rabs (analytic - cached) = e /\ par_reduce_max (Thread [(0, 0); (analytic, cached)]) = 0.
Proof.
  intros e He. exists (- 1), (- 1 - e). split; [replace (- 1 - (- 1 - e)) with e by lra; apply Rabs_pos_eq; lra |].
  apply Rle_antisym.
  - apply (C65_geometry_report _ [(0, 0); (- 1, - 1 - e)]); [apply Permutation_refl | lra |].
    intros a b [E | [E | []]] L; injection E; intros; subst; [left; rewrite Rminus_0_r, Rabs_R0; lra | lra].
  - destruct (proj1 (plan_le (Thread [(0, 0); (- 1, - 1 - e)]) _) (Rle_refl _)) as (_ & Q).
    specialize (Q 0 0 (or_introl eq_refl)). rewrite RelErr_R in Q. replace (0 - 0) with 0 in Q by ring. rewrite Rabs_R0 in Q. unfold Rdiv in Q at 1. rewrite Rmult_0_l, Rmult_0_r, Rmin_left in Q by lra. exact Q.
Qed.
Print Assumptions C65_geometry_negative_refuted.

(** VIOLATION, in double precision: a component that is not a number is not an error. *)
Lemma RelErr_nan (a : B64) : @RelErr B64 Num_B64 a B754_nan = B754_nan.
Proof.
  unfold RelErr, ratio. assert (E : nabs (nsub a (B754_nan : B64)) = (B754_nan : B64)) by (destruct a; reflexivity). rewrite E.
  assert (F : forall y : B64, ndiv (B754_nan : B64) y = B754_nan) by (intros y; destruct y; reflexivity). rewrite F.
  assert (G : forall y : B64, nmul y (B754_nan : B64) = B754_nan) by (intros y; destruct y; reflexivity). rewrite G. reflexivity.
Qed.
Lemma max_nan (x : B64) : std_max x (B754_nan : B64) = x.
Proof. unfold std_max. assert (E : nlt x (B754_nan : B64) = false) by (destruct x as [[] | [] | | []]; reflexivity). rewrite E. reflexivity. Qed.
Theorem C65_geometry_nan_refuted (before after : list (B64 * B64)) (analytic : B64) :
  par_reduce_max (Thread (before ++ (analytic, B754_nan) :: after)) = par_reduce_max (Thread (before ++ after)).
Proof. cbn [par_reduce_max]. unfold check_components. rewrite !fold_left_app. cbn [fold_left fst snd]. rewrite RelErr_nan, max_nan. reflexivity. Qed.
Print Assumptions C65_geometry_nan_refuted.

Lemma report_le (f : R -> R) (x : nat -> R) (v : nat -> nat -> nat -> R) (t : R) (l : list nat) (m : R) :
  fold_left (fun me i => if @nlt R Num_R me (Rabs (f (x i) - v O O i) / f (x i)) then Rabs (f (x i) - v O O i) / f (x i) else me) l m <= t <->
  m <= t /\ forall i, In i l -> Rabs (f (x i) - v O O i) / f (x i) <= t.
Proof.
  revert m. induction l as [| j l IH]; intros m.
  - cbn. split; [intros Q; split; [exact Q | intros ? []] | intros (Q & _); exact Q].
  - cbn [fold_left]. rewrite IH. set (e := Rabs (f (x j) - v O O j) / f (x j)). cbn [nlt Num_R].
    destruct (Rlt_bool_spec m e) as [L | L].
    + split; [intros (M & Q); split; [lra | intros i [<- | I]; [exact M | auto]] | intros (M & Q); split; [apply Q; left; reflexivity | intros; apply Q; right; assumption]].
    + split; [intros (M & Q); split; [lra | intros i [<- | I]; [fold e; lra | auto]] | intros (M & Q); split; [exact M | intros; apply Q; right; assumption]].
Qed.
Lemma ReportError_le (f : R -> R) x v n t : @ReportError R Num_R f x v n <= t <-> 0 <= t /\ forall i, (i < n)%nat -> Rabs (f (x i) - v O O i) / f (x i) <= t.
Proof.
  unfold ReportError. cbv zeta. change (nlit 0 1) with (0 / 1). rewrite div1. rewrite (report_le f x v t (seq 0 n) 0). split; intros (A & B); (split; [exact A |]); intros i I; apply B; [apply in_seq; lia | apply in_seq in I; lia].
Qed.

(** p2c2p: the error printed for a profile is at most t exactly when every zone of the row differs
    from the profile by at most t times its value ... *)
Theorem C65_recovery_report (profile : R -> R) (x : nat -> R) (recovered : nat -> nat -> nat -> R) (n : nat) (t : R) : 0 <= t -> (forall i, (i < n)%nat -> 0 < profile (x i)) ->
  (ReportError profile x recovered n <= t <-> forall i, (i < n)%nat -> Rabs (recovered O O i - profile (x i)) <= t * profile (x i)).
Proof.
  intros Ht P. rewrite ReportError_le. split.
  - intros (_ & Q) i I. specialize (Q i I). specialize (P i I). rewrite Rabs_minus_sym.
    apply (Rmult_le_compat_r (profile (x i))) in Q; [| lra]. unfold Rdiv in Q. rewrite Rmult_assoc, Rinv_l, Rmult_1_r in Q by lra. exact Q.
  - intros Q. split; [exact Ht |]. intros i I. specialize (Q i I). specialize (P i I). rewrite Rabs_minus_sym.
    apply Rmult_le_reg_r with (profile (x i)); [exact P |]. unfold Rdiv. rewrite Rmult_assoc, Rinv_l, Rmult_1_r by lra. exact Q.
Qed.
Print Assumptions C65_recovery_report.
(** ... and all eight profiles meet that hypothesis everywhere *)
Theorem C65_recovery_profiles (x y : R) : In y (p2c2p_profiles x) -> 1 / 10 <= y.
Proof.
  unfold p2c2p_profiles. intros I. cbn [In] in I.
  pose proof (SIN_bound x). pose proof (COS_bound x). pose proof (SIN_bound (x - 3 / 10)). pose proof (COS_bound (x - 2 / 10)). pose proof (SIN_bound (x + 1 / 10)). pose proof (SIN_bound (x - 1 / 10)).
  repeat (destruct I as [<- | I]; [lra |]). destruct I.
Qed.
Print Assumptions C65_recovery_profiles.
Example C65_recovery_report_nonvacuous : (forall i, (i < 3)%nat -> 0 < 1 + 3 / 10 * sin (INR i)) /\
  ~ ReportError (fun x => 1 + 3 / 10 * sin x) INR (fun _ _ i => 2) 1 <= 1 / 2.
Proof.
  split; [intros i _; pose proof (SIN_bound (INR i)); lra |]. intros Q. apply (C65_recovery_report (fun x => 1 + 3 / 10 * sin x) INR (fun _ _ _ => 2) 1) with (i := O) in Q; [| lra | intros i _; pose proof (SIN_bound (INR i)); lra | lia].
  revert Q. cbn [INR]. rewrite sin_0, Rmult_0_r, Rplus_0_r, Rabs_pos_eq by lra. lra.
Qed.

(** VIOLATION: zones outside the first row are not looked at: a state that is wrong in all of them
    still reports no error. *)
Theorem C65_recovery_rows_refuted (profile : R -> R) (x : nat -> R) (n : nat) : (forall i, (i < n)%nat -> 0 < profile (x i)) ->
  exists recovered, (forall k j i, (k + j > 0)%nat -> recovered k j i <> profile (x i)) /\ ReportError profile x recovered n = 0.
Proof.
  intros P. exists (fun k j i => if (k + j =? 0)%nat then profile (x i) else profile (x i) + 1). split.
  - intros k j i Q. destruct (Nat.eqb_spec (k + j) 0); [lia | intros E; lra].
  - apply Rle_antisym.
    + apply C65_recovery_report; [lra | exact P |]. intros i I. cbn. replace (profile (x i) - profile (x i)) with 0 by ring. rewrite Rabs_R0. lra.
    + match goal with |- 0 <= ?e => destruct (proj1 (ReportError_le profile x (fun k j i => if (k + j =? 0)%nat then profile (x i) else profile (x i) + 1) n e) (Rle_refl _)) as (Q & _); exact Q end.
Qed.
Print Assumptions C65_recovery_rows_refuted.

(** VIOLATION, in double precision: when the inversion returns NaN everywhere, the error is zero. *)
Theorem C65_recovery_nan_refuted (profile : B64 -> B64) (x : nat -> B64) (recovered : nat -> nat -> nat -> B64) (n : nat) :
  (forall i, recovered O O i = B754_nan) -> ReportError profile x recovered n = B754_zero false.
Proof.
  intros V. unfold ReportError.
  assert (E : forall (l : list nat) (m : B64), fold_left (fun (max_error : B64) i => let val := profile (x i) in let err := ndiv (nabs (nsub val (recovered O O i))) val in if nlt max_error err then err else max_error) l m = m).
  { induction l as [| i l IH]; intros m; [reflexivity |]. cbn [fold_left]. rewrite IH. rewrite V.
    assert (F : forall y : B64, ndiv (nabs (nsub y (B754_nan : B64))) y = B754_nan) by (intros y; destruct y; reflexivity). cbv zeta. rewrite F.
    assert (G : nlt m (B754_nan : B64) = false) by (destruct m as [[] | [] | | []]; reflexivity). rewrite G. reflexivity. }
  rewrite E. reflexivity.
Qed.
Print Assumptions C65_recovery_nan_refuted.
