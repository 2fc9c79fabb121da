(** C02, C03, C04: root finders.  Proofs are in Proofs/RootFindProofs.v and
    Proofs/RootFindB64.v; the vocabulary is in Spec/RootSpec.v. *)
From Coq Require Import ZArith Reals Lra Lia List.
From Flocq Require Import Core BinarySingleNaN.
From Verif.Model Require Import Num RootFind RootFindITP.
From Verif.Spec Require Import RootSpec.
From Verif.Proofs Require Import NumR NumB64 RootFindProofs RootFindB64.
Local Open Scope R_scope.

(** ** C02: a reported success is a root *)

(** Full claim: for every bracketed continuous residual.  The hypothesis
    ~ (f a = 0 /\ 0 < f b) cannot be dropped: see C02_bisect_left_root_refuted. *)
Theorem C02_bisect_sound : forall f rf a b tol x rf' tr,
  0 <= tol -> a <= b -> (iteration_count rf <= max_iter rf)%Z ->
  continuous_on f a b -> ~ (f a = 0 /\ 0 < f b) ->
  bisect f rf a b tol true = Returned x (Some success) rf' tr ->
  inside a b x /\ near_root f a b (tol / 2) x /\ Forall (inside a b) tr.
Proof. exact bisect_sound. Qed.
Print Assumptions C02_bisect_sound.

(** For regula falsi the excluded inputs have zeros at both ends of the
    refined bracket (the code then divides 0 by 0). *)
Theorem C02_regula_falsi_sound : forall f rf a b tol guess x rf' tr,
  0 <= tol -> a <= b -> (iteration_count rf <= max_iter rf)%Z ->
  continuous_on f a b ->
  ~ (f a = 0 /\ f b = 0) -> (inside a b guess -> ~ (f guess = 0 /\ f b = 0)) ->
  regula_falsi f rf a b tol guess true = Returned x (Some success) rf' tr ->
  inside a b x /\ near_root f a b tol x /\ Forall (inside a b) tr.
Proof. exact regula_falsi_sound_in. Qed.
Print Assumptions C02_regula_falsi_sound.

Theorem C02_itp_sound : forall f rf a b tol guess x rf' tr,
  0 < tol -> a < b -> (iteration_count rf <= max_iter rf)%Z ->
  continuous_on f a b ->
  ~ (f a = 0 /\ 0 <= f b) -> ~ (f guess = 0 /\ 0 <= f b) ->
  itp f rf a b tol guess true = Returned x (Some success) rf' tr ->
  inside a b x /\ near_root f a b tol x /\ Forall (inside a b) tr.
Proof. exact itp_sound. Qed.
Print Assumptions C02_itp_sound.

(** the hypotheses are met, with a successful run, for f x = x^2 - 1/2 *)
Example C02_sound_nonvacuous : let f := fun x => x ^ 2 - 1 / 2 in
  continuous_on f 0 1 /\ ~ (f 0 = 0 /\ 0 <= f 1) /\ ~ (f (3 / 4) = 0 /\ 0 <= f 1) /\
  (exists x rf' tr, bisect f (new_RootFind 20) 0 1 (1 / 1000) true = Returned x (Some success) rf' tr) /\
  (exists x rf' tr, itp f (new_RootFind 20) 0 1 (1 / 1000) (3 / 4) true = Returned x (Some success) rf' tr).
Proof.
  intros f. split.
  { intros x _. apply derivable_continuous_pt, derivable_pt_minus;
      [apply derivable_pt_pow|apply derivable_pt_const]. }
  unfold f. split; [lra|]. split; [lra|]. split.
  - destruct (bisect_terminates f (new_RootFind 20) 0 1 (1 / 1000) 10) as (x & rf' & tr & E & _);
      [lra|lra|unfold bracketed, f; lra|cbn; lia|]. eauto.
  - destruct (itp_terminates f (new_RootFind 20) 0 1 (1 / 1000) (3 / 4) 10) as (x & rf' & tr & E & _);
      [lra|lra|lra|unfold bracketed, f; lra|reflexivity|cbn; lia|]. eauto.
Qed.
Example C02_regula_nonvacuous : let f := fun x => x - 1 / 2 in
  exists x rf' tr, regula_falsi f (new_RootFind 2) 0 1 (1 / 1000) (1 / 4) true
    = Returned x (Some success) rf' tr /\ x = 1 / 2.
Proof.
  intros f. unfold regula_falsi, refine_bracket, check_bracket, f; num_R.
  rewrite !Rle_bool_true by lra. cbn [andb].
  rewrite (Rlt_bool_false 0 ((1 / 4 - 1 / 2) * (1 - 1 / 2))) by lra. cbn [negb]. cbv zeta.
  rewrite (Rlt_bool_true (1 / 4 - 1 / 2) 0) by lra.
  change (budget (new_RootFind 2)) with 2%nat. cbn [regula_loop]. num_R. cbv zeta.
  rewrite (Rlt_bool_true (2 * (1 / 1000)) (1 - 1 / 4)) by lra.
  replace ((1 / 4 * ((1 - 1 / 2) * 1) - 1 * ((1 / 4 - 1 / 2) * 1)) /
     ((1 - 1 / 2) * 1 - (1 / 4 - 1 / 2) * 1)) with (1 / 2) by lra.
  rewrite (Req_bool_false (1 / 2) (1 / 4)), (Req_bool_false (1 / 2) 1) by lra.
  rewrite (Rlt_bool_false 0 (1 * (1 / 2 - 1 / 2))), (Rlt_bool_false (1 * (1 / 2 - 1 / 2)) 0) by lra.
  rewrite (Rlt_bool_false (2 * (1 / 1000)) (1 / 2 - 1 / 2)) by lra.
  rewrite ?(Rlt_bool_false 0 ((1 / 4 - 1 / 2) * (1 - 1 / 2))) by lra. cbn [negb].
  eexists _, _, _. split; [reflexivity|lra].
Qed.

(** An interval with no sign change is reported as a failure, and the fallback
    is the midpoint (bisect); without a status pointer the program aborts. *)
Theorem C02_bisect_unbracketed : forall f rf a b tol,
  0 < f a * f b ->
  bisect f rf a b tol true = Returned ((a + b) / 2) (Some failure) rf (a :: b :: nil) /\
  bisect f rf a b tol false = Aborted.
Proof.
  intros f rf a b tol H. unfold bisect, check_bracket; num_R.
  rewrite Rlt_bool_true by exact H. split; reflexivity.
Qed.
Print Assumptions C02_bisect_unbracketed.

(** The guess is returned by regula falsi and itp, with status failure, when neither half of
    the interval brackets a root (or, if the guess lies outside, the interval does not);
    without a status pointer the program aborts. *)
Theorem C02_guess_unbracketed : forall f rf a b tol guess,
  0 < f a * f b -> (inside a b guess -> 0 < f guess * f b) ->
  (exists tr, regula_falsi f rf a b tol guess true = Returned guess (Some failure) rf tr) /\
  regula_falsi f rf a b tol guess false = Aborted /\
  (exists tr, itp f rf a b tol guess true = Returned guess (Some failure) rf tr) /\
  itp f rf a b tol guess false = Aborted.
Proof.
  intros f rf a b tol guess H3 H4.
  unfold regula_falsi, itp, refine_bracket, check_bracket; num_R.
  destruct (Rle_bool a guess && Rle_bool guess b)%bool eqn:E.
  - apply andb_prop in E. destruct E as [E1 E2].
    assert (H1 : a <= guess) by (destruct (Rle_bool_spec a guess); [assumption|discriminate]).
    assert (H2 : guess <= b) by (destruct (Rle_bool_spec guess b); [assumption|discriminate]).
    specialize (H4 (conj H1 H2)).
    assert (H5 : 0 < f a * f guess) by (destruct (Rlt_le_dec 0 (f b)); nra).
    rewrite (Rlt_bool_true 0 (f guess * f b)) by exact H4.
    rewrite (Rlt_bool_true 0 (f a * f guess)) by exact H5.
    repeat split; try (eexists; reflexivity).
  - rewrite (Rlt_bool_true 0 (f a * f b)) by exact H3.
    repeat split; try (eexists; reflexivity).
Qed.
Print Assumptions C02_guess_unbracketed.

Theorem C02_bisect_left_root_refuted :
  exists (f : R -> R) rf a b tol x rf' tr,
    continuous_on f a b /\ a <= b /\ 0 < tol /\ bracketed f a b /\
    bisect f rf a b tol true = Returned x (Some success) rf' tr /\
    ~ near_root f a b tol x.
Proof.
  destruct bisect_left_root_lost as (rf' & tr & E).
  exists (fun x => x), (new_RootFind 2), 0, 1, (1 / 2), (3 / 4), rf', tr.
  split; [intros x _; apply derivable_continuous_pt, derivable_pt_id|].
  split; [lra|]. split; [lra|]. split; [unfold bracketed; lra|]. split; [exact E|].
  intros (r & _ & Er & Hr). subst r. rewrite Rabs_right in Hr; lra.
Qed.
Print Assumptions C02_bisect_left_root_refuted.

Theorem C02_secant_refuted :
  exists (f : R -> R) rf a b tol guess x rf' tr,
    continuous_on f a b /\ a <= guess <= b /\ 0 < tol /\ bracketed f a b /\
    secant f rf a b tol guess true = Returned x (Some success) rf' tr /\
    ~ near_root f a b (100 * tol) x.
Proof.
  destruct secant_false_success as (x & rf' & tr & E & Hx).
  exists (fun x => 1000001 * x ^ 20 - 1), (new_RootFind 2), 0, 1, (1 / 1000), 0, x, rf', tr.
  split.
  { intros y _. apply derivable_continuous_pt.
    apply derivable_pt_minus; [|apply derivable_pt_const].
    apply derivable_pt_scal. apply derivable_pt_pow. }
  split; [lra|]. split; [lra|]. split; [unfold bracketed; lra|]. split; [exact E|].
  intros (r & Hr & Er & Hd). unfold inside in Hr.
  assert (Hle : r <= 1 / 4).
  { apply Rabs_le_inv in Hd. lra. }
  assert (r ^ 20 <= (1 / 4) ^ 20) by (apply pow_incr; lra).
  lra.
Qed.
Print Assumptions C02_secant_refuted.

(** In double precision, for every residual that never returns NaN and strictly
    changes sign: a reported success lies between two doubles inside the
    original bracket at which the residual has opposite signs and whose computed
    distance is not above tol; the residual is only ever called inside [a,b]. *)
Theorem C02_bisect_b64 : forall (f : B64 -> B64) rf a b tol x rf' tr,
  (iteration_count rf <= max_iter rf)%Z ->
  (forall z, is_nan (f z) = false) ->
  is_finite a = true -> is_finite b = true ->
  Rabs (B2R a) <= bpow radix2 1022 -> Rabs (B2R b) <= bpow radix2 1022 ->
  B2R a <= B2R b -> straddles64 f a b ->
  bisect f rf a b tol true = Returned x (Some success) rf' tr ->
  Forall (inside64 a b) tr /\
  exists a' b', inside64 a b a' /\ inside64 a b b' /\ inside64 a' b' x /\
    brackets64 f a' b' /\ nlt tol (nsub b' a') = false.
Proof. exact bisect_B64. Qed.
Print Assumptions C02_bisect_b64.

(** In double precision the bracket test can pass for two values of the same
    strict sign, because their product underflows. *)
Theorem C02_bracket_underflow_refuted :
  exists y : B64, nlt nzero y = true /\ check_bracket y y = true.
Proof. exact check_bracket_underflow. Qed.
Print Assumptions C02_bracket_underflow_refuted.

(** ** C03: termination and status *)

(** In any number system, for any residual: the counter never passes max_iter,
    failure is reported exactly when it reaches max_iter, and the number of
    residual evaluations is at most the number of counted iterations plus the
    initial ones. *)
Definition within_budget {T} (init : Z) (rf : RootFind) (o : outcome T) : Prop :=
  match o with
  | Returned x st rf' tr =>
      max_iter rf' = max_iter rf /\
      (iteration_count rf <= iteration_count rf' <= max_iter rf)%Z /\
      (Z.of_nat (length tr) <= init + (iteration_count rf' - iteration_count rf))%Z
  | _ => True
  end.

Theorem C03_bisect_budget : forall (T : Type) (N : Num T) (f : T -> T) rf a b tol,
  (iteration_count rf <= max_iter rf)%Z ->
  within_budget 2 rf (bisect f rf a b tol true).
Proof.
  intros T N f rf a b tol Hrf. unfold bisect. cbv zeta.
  destruct (negb _).
  - unfold within_budget; cbn [iteration_count max_iter length]. lia.
  - destruct (bisect_loop _ _ _ _ _ _ _ _) as [[[a' b'] c] tr] eqn:E.
    apply bisect_loop_count in E. rewrite budget_Z in E by exact Hrf. unfold within_budget; cbn [iteration_count max_iter length] in *. lia.
Qed.
Print Assumptions C03_bisect_budget.

Theorem C03_regula_budget : forall (T : Type) (N : Num T) (f : T -> T) rf a b tol guess,
  (iteration_count rf <= max_iter rf)%Z ->
  within_budget 3 rf (regula_falsi f rf a b tol guess true).
Proof.
  intros T N f rf a b tol guess Hrf. unfold regula_falsi.
  destruct (refine_bracket f guess a b) as [[[[a1 b1] ya] yb] tr1] eqn:Er.
  apply refine_bracket_trace in Er.
  destruct (negb _).
  - unfold within_budget; cbn [iteration_count max_iter length]. lia.
  - cbv zeta. destruct (regula_loop _ _ _ _ _ _ _ _ _ _ _ _) as [[[a' b'] c] tr] eqn:E.
    apply regula_loop_count in E. rewrite budget_Z in E by exact Hrf. unfold within_budget; cbn [iteration_count max_iter length] in *. lia.
Qed.
Print Assumptions C03_regula_budget.

Theorem C03_secant_budget : forall (T : Type) (N : Num T) (f : T -> T) rf a b tol guess,
  (iteration_count rf <= max_iter rf)%Z ->
  within_budget 3 rf (secant f rf a b tol guess true).
Proof.
  intros T N f rf a b tol guess Hrf. unfold secant.
  destruct (refine_bracket f guess a b) as [[[[a1 b1] ya] yb] tr1] eqn:Er.
  apply refine_bracket_trace in Er. cbv zeta.
  destruct (if _ : bool then _ else _) as [[[[x1 y1] x2] y2]|]; [|exact I].
  destruct (secant_loop _ _ _ _ _ _ _ _ _ _) as [[[a' b'] c] tr] eqn:E.
  apply secant_loop_count in E. rewrite budget_Z in E by exact Hrf. unfold within_budget; cbn [iteration_count max_iter length] in *. lia.
Qed.
Print Assumptions C03_secant_budget.

Theorem C03_itp_budget : forall (f : R -> R) rf a b tol guess,
  (iteration_count rf <= max_iter rf)%Z ->
  within_budget 3 rf (itp f rf a b tol guess true).
Proof.
  intros f rf a b tol guess Hrf. unfold itp.
  destruct (refine_bracket f guess a b) as [[[[a1 b1] ya] yb] tr1] eqn:Er.
  apply refine_bracket_trace in Er. cbv zeta.
  destruct (negb _).
  - unfold within_budget; cbn [iteration_count max_iter length]. lia.
  - destruct (itp_loop _ _ _ _ _ _ _ _ _ _ _) as [[[a' b'] c] tr] eqn:E.
    apply itp_loop_count in E. rewrite budget_Z in E by exact Hrf. unfold within_budget; cbn [iteration_count max_iter length] in *. lia.
Qed.
Print Assumptions C03_itp_budget.

(** Bisection needs at most n steps, n any integer with (b-a) <= tol 2^n,
    whatever the residual and however often the solver was used before. *)
Theorem C03_bisect_terminates : forall f rf a b tol n,
  0 <= tol -> b - a <= tol * 2 ^ n -> bracketed f a b ->
  (iteration_count rf + Z.of_nat n < max_iter rf)%Z ->
  exists x rf' tr, bisect f rf a b tol true = Returned x (Some success) rf' tr /\
    (iteration_count rf' <= iteration_count rf + Z.of_nat n)%Z /\
    (length tr <= n + 2)%nat.
Proof. exact bisect_terminates. Qed.
Print Assumptions C03_bisect_terminates.
Example C03_bisect_terminates_nonvacuous :
  1 - 0 <= 1 / 1000 * 2 ^ 10 /\ bracketed (fun x => x ^ 2 - 1 / 2) 0 1.
Proof. unfold bracketed. lra. Qed.

(** ITP is never slower than bisection, on a fresh solver object. *)
Theorem C03_itp_terminates : forall f rf a b tol guess n,
  0 < tol -> a < b -> b - a <= 2 * (tol * 2 ^ n) -> bracketed f a b ->
  iteration_count rf = 0%Z -> (Z.of_nat n < max_iter rf)%Z ->
  exists x rf' tr, itp f rf a b tol guess true = Returned x (Some success) rf' tr /\
    (iteration_count rf' <= Z.of_nat n)%Z /\ (length tr <= n + 3)%nat.
Proof. exact itp_terminates. Qed.
Print Assumptions C03_itp_terminates.

(** Failure is reported exactly when the counter has reached max_iter ... *)
Theorem C03_status_iff : forall (T : Type) (N : Num T) (f : T -> T) rf a b tol x st rf' tr,
  check_bracket (f a) (f b) = true ->
  bisect f rf a b tol true = Returned x (Some st) rf' tr ->
  (st = failure <-> iteration_count rf' = max_iter rf').
Proof.
  intros T N f rf a b tol x st rf' tr Hb. unfold bisect. cbv zeta. rewrite Hb. cbn [negb].
  destruct (bisect_loop _ _ _ _ _ _ _ _) as [[[a' b'] c] tr'].
  intros E; injection E as _ <- <- _. cbn. apply final_status_spec.
Qed.
Print Assumptions C03_status_iff.

(** ... so a call that converges on its very last permitted iteration is still
    reported as a failure, and a used-up solver object fails at once. *)
Theorem C03_status_means_not_converged_refuted :
  exists (f : R -> R) rf a b tol x rf' tr,
    bisect f rf a b tol true = Returned x (Some failure) rf' tr /\
    continuous_on f a b /\ bracketed f a b /\ f x = 0.
Proof.
  destruct status_converged_failure as (x & rf' & tr & E & ->).
  exists (fun x => x - 1 / 2), (new_RootFind 1), 0, 1, (1 / 2), (1 / 2), rf', tr.
  split; [exact E|]. split.
  { intros y _. apply derivable_continuous_pt.
    apply derivable_pt_minus; [apply derivable_pt_id|apply derivable_pt_const]. }
  split; [unfold bracketed|]; lra.
Qed.
Print Assumptions C03_status_means_not_converged_refuted.

(** ** C04: indeterminate data *)
(** The bracketing methods read no uninitialised variable, whatever the arithmetic (in
    particular IEEE binary64), the residual, the bracket and the guess. *)
Theorem C04_bracketing_defined : forall (T : Type) (N : Num T) (f : T -> T) rf a b tol guess hs,
  bisect f rf a b tol hs <> Undefined /\ regula_falsi f rf a b tol guess hs <> Undefined.
Proof.
  intros T N f rf a b tol guess hs. split.
  - unfold bisect. destruct (negb _); [destruct hs; discriminate|].
    destruct (bisect_loop _ _ _ _ _ _ _ _) as [[[? ?] ?] ?]. discriminate.
  - unfold regula_falsi. destruct (refine_bracket f guess a b) as [[[[? ?] ?] ?] ?].
    destruct (negb _); [destruct hs; discriminate|].
    destruct (regula_loop _ _ _ _ _ _ _ _ _ _ _ _) as [[[? ?] ?] ?]. discriminate.
Qed.
Print Assumptions C04_bracketing_defined.
Theorem C04_itp_defined : forall (f : R -> R) rf a b tol guess hs, itp f rf a b tol guess hs <> Undefined.
Proof.
  intros f rf a b tol guess hs. unfold itp. destruct (refine_bracket f guess a b) as [[[[? ?] ?] ?] ?].
  destruct (negb _); [destruct hs; discriminate|].
  destruct (itp_loop _ _ _ _ _ _ _ _ _ _ _) as [[[? ?] ?] ?]. discriminate.
Qed.
Print Assumptions C04_itp_defined.

Theorem C04_secant_defined_iff : forall (f : R -> R) rf a b tol guess hs,
  a <= b ->
  (secant f rf a b tol guess hs = Undefined <-> ~ inside a b guess).
Proof. exact secant_undefined_iff. Qed.
Print Assumptions C04_secant_defined_iff.

Theorem C04_secant_uninitialised_refuted :
  exists (f : R -> R) rf a b tol guess,
    continuous_on f a b /\ bracketed f a b /\
    secant f rf a b tol guess true = Undefined.
Proof.
  exists (fun x => x - 1 / 2), (new_RootFind 10), 0, 1, (1 / 2), 2.
  split.
  { intros y _. apply derivable_continuous_pt.
    apply derivable_pt_minus; [apply derivable_pt_id|apply derivable_pt_const]. }
  split; [unfold bracketed; lra|].
  apply secant_undefined_iff; [lra|unfold inside; lra].
Qed.
Print Assumptions C04_secant_uninitialised_refuted.

Theorem C04_nan_residual_refuted :
  exists (f : B64 -> B64) rf a b tol x rf' tr,
    (forall z, is_nan (f z) = true) /\
    bisect f rf a b tol true = Returned x (Some success) rf' tr.
Proof.
  destruct bisect_nan_success as (x & rf' & tr & E).
  exists (fun _ => B754_nan), (new_RootFind 100), nzero, (nlit 1 1), (nlit 1 1000), x, rf', tr.
  split; [reflexivity|exact E].
Qed.
Print Assumptions C04_nan_residual_refuted.

(** ITP never overshoots: the point it evaluates lies between the false-position point
    and the midpoint of the bracket, whenever the slack tol * 2^(nmax - j) - (b - a)/2 is
    not negative (which C03_itp_terminates' invariant maintains). *)
Theorem C03_itp_between : forall nmax tol a b ya yb count,
  a < b -> ya <> yb -> b - a <= 2 * (tol * powerRZ 2 (nmax - count)) ->
  let xf := (yb * a - ya * b) / (yb - ya) in
  let xh := (a + b) / 2 in
  Rmin xf xh <= itp_point nmax tol a b ya yb count <= Rmax xf xh.
Proof. exact itp_point_between. Qed.
Print Assumptions C03_itp_between.

Example C03_itp_between_nonvacuous :
  let p := itp_point 4 (1 / 8) 0 1 (-1) 3 0 in 1 / 4 <= p <= 1 / 2.
Proof.
  assert (H := C03_itp_between 4 (1 / 8) 0 1 (-1) 3 0). cbv zeta in *.
  assert (P : powerRZ 2 (4 - 0) = 16) by (change (powerRZ 2 (4 - 0)) with (2 ^ 4); ring).
  rewrite P in H.
  replace ((3 * 0 - -1 * 1) / (3 - -1)) with (1 / 4) in H by field.
  replace ((0 + 1) / 2) with (1 / 2) in H by field.
  rewrite Rmin_left, Rmax_right in H by lra. apply H; lra.
Qed.
