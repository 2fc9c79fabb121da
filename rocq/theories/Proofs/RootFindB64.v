(** Bisection in IEEE binary64, and counterexamples for every root finder. *)
From Coq Require Import ZArith Reals Lra Lia Bool List.
From Flocq Require Import Core BinarySingleNaN.
From Verif.Model Require Import Num RootFind RootFindITP.
From Verif.Spec Require Import RootSpec.
From Verif.Proofs Require Import NumR NumB64 RobustProofs RootFindProofs.
Import ListNotations.
Local Open Scope R_scope.

Lemma lt0_mul_one (y : B64) : nlt nzero (nmul (nlit 1 1) y) = nlt nzero y /\
  nlt (nmul (nlit 1 1) y) nzero = nlt y nzero.
Proof.
  rewrite zero_eq.
  destruct y as [s|s| |s m e H];
    [destruct s; vm_compute; split; reflexivity|destruct s; vm_compute; split; reflexivity
    |vm_compute; split; reflexivity|].
  destruct (mul64_sign (nlit 1 1) (B754_finite s m e H)) as [E F];
    [left; split; [apply B2R_lit_one|vm_compute; reflexivity]|reflexivity|].
  rewrite B2R_lit_one, Rmult_1_l in E.
  rewrite !lt64 by (reflexivity || exact F). rewrite E. split; reflexivity.
Qed.

Lemma lt0_mul_mone (y : B64) : nlt nzero (nmul (nlit (-1) 1) y) = nlt y nzero /\
  nlt (nmul (nlit (-1) 1) y) nzero = nlt nzero y.
Proof.
  rewrite zero_eq.
  destruct y as [s|s| |s m e H];
    [destruct s; vm_compute; split; reflexivity|destruct s; vm_compute; split; reflexivity
    |vm_compute; split; reflexivity|].
  destruct (mul64_sign (nlit (-1) 1) (B754_finite s m e H)) as [E F];
    [right; split; [apply B2R_lit_mone|vm_compute; reflexivity]|reflexivity|].
  rewrite B2R_lit_mone in E.
  rewrite !lt64 by (reflexivity || exact F). rewrite E. cbn [B2R].
  set (y := F2R _). clearbody y.
  split; [destruct (Rlt_bool_spec 0 (-1 * y)), (Rlt_bool_spec y 0)
         |destruct (Rlt_bool_spec (-1 * y) 0), (Rlt_bool_spec 0 y)]; try lra; reflexivity.
Qed.

(** signs at the ends as the code sees them, for each choice of [sign] *)
Definition oriented64 (f : B64 -> B64) (sign a b : B64) : Prop :=
  (sign = nlit 1 1 /\ nle (f a) nzero = true /\ nle nzero (f b) = true) \/
  (sign = nlit (-1) 1 /\ nle nzero (f a) = true /\ nle (f b) nzero = true).

Lemma nzero_nan : is_nan (nzero : B64) = false.
Proof. rewrite zero_eq. reflexivity. Qed.

Lemma nle_of_nlt (x y : B64) : is_nan x = false -> is_nan y = false ->
  nlt x y = true -> nle x y = true.
Proof.
  intros Nx Ny H. rewrite nlt_le_trans_B in H by assumption.
  destruct x as [sx|sx| |sx mx ex Hx], y as [sy|sy| |sy my ey Hy]; try discriminate;
    try reflexivity; try (destruct sx; reflexivity || discriminate);
    try (destruct sy; reflexivity || discriminate);
    try (destruct sx, sy; reflexivity || discriminate).
  rewrite le64 in * by reflexivity.
  destruct (Rle_bool_spec (B2R (B754_finite sy my ey Hy : B64)) (B2R (B754_finite sx mx ex Hx : B64)));
    [discriminate|]. apply Rle_bool_true. lra.
Qed.

Lemma nle_of_not_nlt (x y : B64) : is_nan x = false -> is_nan y = false ->
  nlt x y = false -> nle y x = true.
Proof.
  intros Nx Ny H. rewrite nlt_le_trans_B in H by assumption.
  destruct (nle y x); [reflexivity|discriminate].
Qed.

Lemma bisect_loop_B64 (f : B64 -> B64) fuel tol sign a b count tr a' b' count' tr' a0 b0 :
  (forall z, is_nan (f z) = false) ->
  Rabs (B2R a0) <= bpow radix2 1022 -> Rabs (B2R b0) <= bpow radix2 1022 ->
  inside64 a0 b0 a -> inside64 a0 b0 b -> B2R a <= B2R b ->
  oriented64 f sign a b ->
  Forall (inside64 a0 b0) tr ->
  bisect_loop f fuel tol sign a b count tr = (a', b', count', tr') ->
  inside64 a0 b0 a' /\ inside64 a0 b0 b' /\ B2R a' <= B2R b' /\
  oriented64 f sign a' b' /\ Forall (inside64 a0 b0) tr' /\
  ((count' < count + Z.of_nat fuel)%Z -> nlt tol (nsub b' a') = false).
Proof.
  intros Hnan Ha0 Hb0.
  apply Rabs_le_inv in Ha0. apply Rabs_le_inv in Hb0.
  revert a b count tr.
  induction fuel as [|fuel IH]; intros a b count tr Ia Ib Hab Ho Htr; cbn [bisect_loop].
  - intros E; injection E as <- <- <- <-.
    split; [exact Ia|]. split; [exact Ib|]. split; [exact Hab|]. split; [exact Ho|].
    split; [exact Htr|]. intros; lia.
  - destruct (nlt tol (nsub b a)) eqn:Ew.
    2:{ intros E; injection E as <- <- <- <-.
        split; [exact Ia|]. split; [exact Ib|]. split; [exact Hab|]. split; [exact Ho|].
        split; [exact Htr|]. intros _. exact Ew. }
    cbv zeta.
    destruct Ia as [Fa Ia], Ib as [Fb Ib].
    destruct (midpoint64 a b Fa Fb) as (Fm & Im & _);
      [apply Rabs_le; lra|apply Rabs_le; lra|exact Hab|].
    set (xh := nmul (nlit 1 2) (nadd a b)) in *. clearbody xh.
    assert (Ih : inside64 a0 b0 xh) by (split; [exact Fm|lra]).
    assert (Htr' : Forall (inside64 a0 b0) (tr ++ [xh])).
    { apply Forall_app; split; [exact Htr|]. constructor; [exact Ih|constructor]. }
    assert (Na := Hnan xh).
    assert (N0 := nzero_nan).
    assert (Hlast : forall a b, inside64 a0 b0 a -> inside64 a0 b0 b -> B2R a <= B2R b ->
       oriented64 f sign a b ->
       bisect_loop f fuel tol sign a b (count + 1) (tr ++ [xh]) = (a', b', count', tr') ->
       inside64 a0 b0 a' /\ inside64 a0 b0 b' /\ B2R a' <= B2R b' /\
       oriented64 f sign a' b' /\ Forall (inside64 a0 b0) tr' /\
       ((count' < count + Z.of_nat (S fuel))%Z -> nlt tol (nsub b' a') = false)).
    { intros a1 b1 I1 I2 I3 I4 E. apply IH in E; try assumption.
      destruct E as (E1 & E2 & E3 & E4 & E5 & E6).
      repeat (split; [assumption|]). intros Hc; apply E6; lia. }
    assert (Ia' : inside64 a0 b0 a) by (split; [exact Fa|lra]).
    assert (Ib' : inside64 a0 b0 b) by (split; [exact Fb|lra]).
    destruct Ho as [(-> & H1 & H2)|(-> & H1 & H2)].
    + destruct (lt0_mul_one (f xh)) as [-> ->].
      destruct (nlt nzero (f xh)) eqn:Ep; [|destruct (nlt (f xh) nzero) eqn:En].
      * apply Hlast; try assumption; try lra. left. repeat split; auto. apply nle_of_nlt; assumption.
      * apply Hlast; try assumption; try lra. left. repeat split; auto. apply nle_of_nlt; assumption.
      * apply Hlast; try assumption; try lra. left. repeat split; auto; apply nle_of_not_nlt; assumption.
    + destruct (lt0_mul_mone (f xh)) as [-> ->].
      destruct (nlt (f xh) nzero) eqn:Ep; [|destruct (nlt nzero (f xh)) eqn:En].
      * apply Hlast; try assumption; try lra. right. repeat split; auto. apply nle_of_nlt; assumption.
      * apply Hlast; try assumption; try lra. right. repeat split; auto. apply nle_of_nlt; assumption.
      * apply Hlast; try assumption; try lra. right. repeat split; auto; apply nle_of_not_nlt; assumption.
Qed.

Lemma nlt_asym_B (x y : B64) : nlt x y = true -> nlt y x = false.
Proof.
  intros H.
  destruct x as [sx|sx| |sx mx ex Hx], y as [sy|sy| |sy my ey Hy]; try discriminate;
    try reflexivity; try (destruct sx; reflexivity || discriminate);
    try (destruct sy; reflexivity || discriminate);
    try (destruct sx, sy; reflexivity || discriminate).
  rewrite lt64 in * by reflexivity.
  destruct (Rlt_bool_spec (B2R (B754_finite sx mx ex Hx : B64)) (B2R (B754_finite sy my ey Hy : B64)));
    [|discriminate]. apply Rlt_bool_false. lra.
Qed.

Lemma bisect_B64 (f : B64 -> B64) rf a b tol x rf' tr :
  (iteration_count rf <= max_iter rf)%Z ->
  (forall z, is_nan (f z) = false) ->
  is_finite a = true -> is_finite b = true ->
  Rabs (B2R a) <= bpow radix2 1022 -> Rabs (B2R b) <= bpow radix2 1022 ->
  B2R a <= B2R b -> straddles64 f a b ->
  bisect f rf a b tol true = Returned x (Some success) rf' tr ->
  Forall (inside64 a b) tr /\
  exists a' b', inside64 a b a' /\ inside64 a b b' /\ inside64 a' b' x /\
    brackets64 f a' b' /\ nlt tol (nsub b' a') = false.
Proof.
  intros Hrf Hnan Fa Fb Ha Hb Hab Hs.
  unfold bisect. cbv zeta.
  destruct (check_bracket (f a) (f b)); cbn [negb].
  2:{ intros E; inversion E. }
  set (sg := if nlt (f a) nzero then nlit 1 1 else nlit (-1) 1).
  assert (Ho : oriented64 f sg a b).
  { unfold oriented64, sg. destruct Hs as [[H1 H2]|[H1 H2]].
    - rewrite H1. left. repeat split; auto.
      apply nle_of_nlt; [apply Hnan|apply nzero_nan|exact H1].
    - rewrite (nlt_asym_B _ _ H1). right. repeat split; auto.
      apply nle_of_nlt; [apply nzero_nan|apply Hnan|exact H1]. }
  destruct (bisect_loop _ _ _ _ _ _ _ _) as [[[a' b'] count'] tr'] eqn:El.
  intros E; injection E as Ex Est Erf Etr; subst x rf' tr.
  apply report_success in Est.
  pose proof (bisect_loop_count _ _ _ _ _ _ _ _ _ _ _ _ El) as [Hcnt _].
  assert (Ia : inside64 a b a) by (split; [exact Fa|lra]).
  assert (Ib : inside64 a b b) by (split; [exact Fb|lra]).
  apply (bisect_loop_B64 f _ _ _ _ _ _ _ _ _ _ _ a b) in El; try assumption.
  2:{ constructor; [exact Ia|]. constructor; [exact Ib|constructor]. }
  destruct El as (E1 & E2 & E3 & E4 & E5 & E6).
  split; [exact E5|].
  exists a', b'. split; [exact E1|]. split; [exact E2|].
  apply Rabs_le_inv in Ha. apply Rabs_le_inv in Hb.
  destruct E1 as [Fa' Ia'], E2 as [Fb' Ib'].
  split; [|split].
  - destruct (midpoint64 a' b' Fa' Fb') as (Fm & Im & _);
      [apply Rabs_le; lra|apply Rabs_le; lra|exact E3|]. split; [exact Fm|exact Im].
  - unfold brackets64. destruct E4 as [(_ & H1 & H2)|(_ & H1 & H2)]; auto.
  - apply E6. rewrite budget_Z in * by exact Hrf. lia.
Qed.

(** ** Counterexamples *)

(** a zero exactly at the left end with a positive value at the right end is lost *)
Lemma bisect_left_root_lost :
  exists rf' tr,
    bisect (fun x : R => x) (new_RootFind 2) 0 1 (1 / 2) true
    = Returned (3 / 4) (Some success) rf' tr.
Proof.
  unfold bisect, check_bracket; num_R. cbv zeta.
  rewrite Rmult_0_l, (Rlt_bool_false 0 0) by lra. cbn [negb].
  change (budget (new_RootFind 2)) with 2%nat.
  cbn [bisect_loop]. num_R.
  rewrite (Rlt_bool_true (1 / 2) (1 - 0)) by lra.
  rewrite (Rlt_bool_false 0 (-1 * (1 / 2 * (0 + 1)))) by lra.
  rewrite (Rlt_bool_true (-1 * (1 / 2 * (0 + 1))) 0) by lra.
  rewrite (Rlt_bool_false (1 / 2) (1 - 1 / 2 * (0 + 1))) by lra.
  eexists _, _. f_equal. lra.
Qed.

(** a NaN residual is reported as a converged root *)
Lemma bisect_nan_success :
  exists x rf' tr,
    bisect (fun _ : B64 => B754_nan) (new_RootFind 100) nzero (nlit 1 1) (nlit 1 1000) true
    = Returned x (Some success) rf' tr.
Proof.
  assert (E : (match bisect (fun _ : B64 => B754_nan) (new_RootFind 100) nzero (nlit 1 1) (nlit 1 1000) true
               with Returned _ (Some success) _ _ => true | _ => false end) = true)
    by (vm_compute; reflexivity).
  destruct (bisect _ _ _ _ _ _) as [x [[|]|] rf' tr| |]; try discriminate.
  eexists _, _, _. reflexivity.
Qed.

(** two tiny residuals of the same sign pass the bracket test by underflow *)
Lemma check_bracket_underflow :
  exists y : B64, nlt nzero y = true /\ check_bracket y y = true.
Proof. exists (nlit 1 (2 ^ 600)). vm_compute. split; reflexivity. Qed.

(** secant reads uninitialised variables exactly when the guess is outside the bracket *)
Lemma secant_undefined_iff (f : R -> R) rf a b tol guess hs :
  a <= b ->
  (secant f rf a b tol guess hs = Undefined <-> ~ inside a b guess).
Proof.
  intros Hab. unfold secant, refine_bracket, inside; num_R.
  destruct (Rle_bool_spec a guess) as [H1|H1], (Rle_bool_spec guess b) as [H2|H2];
    cbn [andb]; [destruct (Rlt_bool_spec 0 (f guess * f b)) as [Hp|Hp]| | |];
    repeat match goal with
    | |- context [Req_bool ?x ?y] => destruct (Req_bool_spec x y); try lra
    | |- context [secant_loop ?a1 ?a2 ?a3 ?a4 ?a5 ?a6 ?a7 ?a8 ?a9 ?a10] =>
        destruct (secant_loop a1 a2 a3 a4 a5 a6 a7 a8 a9 a10) as [[[? ?] ?] ?]
    end; split; intros; try lra; try congruence; try reflexivity.
Qed.

(** secant can report success far from any root *)
Lemma secant_false_success :
  exists x rf' tr,
    secant (fun x => 1000001 * x ^ 20 - 1) (new_RootFind 2) 0 1 (1 / 1000) 0 true
    = Returned x (Some success) rf' tr /\ 0 <= x <= 1 / 1000.
Proof.
  unfold secant, refine_bracket; num_R.
  rewrite (Rle_bool_true 0 0), (Rle_bool_true 0 1) by lra. cbn [andb].
  replace (1000001 * 0 ^ 20 - 1) with (-1) by ring.
  replace (1000001 * 1 ^ 20 - 1) with 1000000 by ring.
  rewrite (Rlt_bool_false 0 (-1 * 1000000)) by lra.
  rewrite (Req_bool_true 0 0) by reflexivity.
  cbv zeta.
  rewrite (Rlt_bool_true (-1) 0) by lra.
  change (budget (new_RootFind 2)) with 2%nat.
  cbn [secant_loop]. num_R. cbv zeta.
  rewrite (Rlt_bool_true (2 * (1 / 1000)) (Rabs (1 - 0))) by (rewrite Rabs_right; lra).
  replace ((0 * (1000000 * 1) - 1 * (-1 * 1)) / (1000000 * 1 - -1 * 1)) with (1 / 1000001) by lra.
  rewrite (Req_bool_false (1 / 1000001) 0) by lra.
  rewrite (Req_bool_false (1 / 1000001) 1) by lra.
  rewrite (Rlt_bool_false (2 * (1 / 1000)) (Rabs (0 - 1 / 1000001)))
    by (rewrite Rabs_left; lra).
  eexists _, _, _. split; [reflexivity|]. lra.
Qed.

(** a bracket that is already converged on the last permitted iteration is
    reported as a failure *)
Lemma status_converged_failure :
  exists x rf' tr,
    bisect (fun x : R => x - 1 / 2) (new_RootFind 1) 0 1 (1 / 2) true
    = Returned x (Some failure) rf' tr /\ x = 1 / 2.
Proof.
  unfold bisect, check_bracket; num_R. cbv zeta.
  rewrite (Rlt_bool_false 0 ((0 - 1 / 2) * (1 - 1 / 2))) by lra. cbn [negb].
  change (budget (new_RootFind 1)) with 1%nat.
  cbn [bisect_loop]. num_R.
  rewrite (Rlt_bool_true (0 - 1 / 2) 0) by lra.
  rewrite (Rlt_bool_true (1 / 2) (1 - 0)) by lra.
  rewrite (Rlt_bool_false 0 (1 * (1 / 2 * (0 + 1) - 1 / 2))) by lra.
  rewrite (Rlt_bool_false (1 * (1 / 2 * (0 + 1) - 1 / 2)) 0) by lra.
  eexists _, _, _. split; [reflexivity|]. lra.
Qed.
