From Coq Require Import ZArith Reals Lra Lia Bool List.
From Flocq Require Import Core.
From Verif.Model Require Import Num RootFind RootFindITP.
From Verif.Spec Require Import RootSpec.
From Verif.Proofs Require Import NumR.
Import ListNotations.
Local Open Scope R_scope.

(** ** Facts that hold in every number system *)
Section Generic.
  Context {T : Type} `{Num T}.
  Variable func : T -> T.

  Lemma bisect_loop_count fuel tol sign a b count tr a' b' count' tr' :
    bisect_loop func fuel tol sign a b count tr = (a', b', count', tr') ->
    (count <= count' <= count + Z.of_nat fuel)%Z /\
    (Z.of_nat (length tr') = Z.of_nat (length tr) + (count' - count))%Z.
  Proof.
    revert a b count tr.
    induction fuel as [|fuel IH]; intros a b count tr; cbn [bisect_loop].
    - intros E; inversion E; subst; lia.
    - destruct (_ : bool).
      2:{ intros E; inversion E; subst; lia. }
      destruct (_ : bool); [|destruct (_ : bool)]; intros E; apply IH in E;
        rewrite ?app_length in E; cbn [length] in E; lia.
  Qed.

  Lemma regula_loop_count fuel tol sign a b ya yb b1 b2 count tr a' b' count' tr' :
    regula_loop func fuel tol sign a b ya yb b1 b2 count tr = (a', b', count', tr') ->
    (count <= count' <= count + Z.of_nat fuel)%Z /\
    (Z.of_nat (length tr') <= Z.of_nat (length tr) + (count' - count))%Z.
  Proof.
    revert a b ya yb b1 b2 count tr.
    induction fuel as [|fuel IH]; intros a b ya yb b1 b2 count tr; cbn [regula_loop].
    - intros E; inversion E; subst; lia.
    - destruct (_ : bool).
      2:{ intros E; inversion E; subst; lia. }
      cbv zeta.
      do 4 (destruct (_ : bool); [intros E; apply IH in E;
        rewrite ?app_length in E; cbn [length] in E; lia|]).
      intros E; apply IH in E;
        rewrite ?app_length in E; cbn [length] in E; lia.
  Qed.

  Lemma secant_loop_count fuel tol sign x1 x2 y1 y2 count tr a' b' count' tr' :
    secant_loop func fuel tol sign x1 x2 y1 y2 count tr = (a', b', count', tr') ->
    (count <= count' <= count + Z.of_nat fuel)%Z /\
    (Z.of_nat (length tr') <= Z.of_nat (length tr) + (count' - count))%Z.
  Proof.
    revert x1 x2 y1 y2 count tr.
    induction fuel as [|fuel IH]; intros x1 x2 y1 y2 count tr; cbn [secant_loop].
    - intros E; inversion E; subst; lia.
    - destruct (_ : bool).
      2:{ intros E; inversion E; subst; lia. }
      cbv zeta.
      do 2 (destruct (_ : bool); [intros E; apply IH in E;
        rewrite ?app_length in E; cbn [length] in E; lia|]).
      intros E; apply IH in E;
        rewrite ?app_length in E; cbn [length] in E; lia.
  Qed.

  Lemma refine_bracket_trace guess a b a' b' ya yb tr :
    refine_bracket func guess a b = (a', b', ya, yb, tr) -> (length tr <= 3)%nat.
  Proof.
    unfold refine_bracket.
    destruct (_ && _); [destruct (_ : bool)|]; intros E; inversion E; cbn; lia.
  Qed.

  Lemma final_status_spec count maxi :
    final_status count maxi = failure <-> count = maxi.
  Proof. unfold final_status. destruct (Z.eqb_spec count maxi); split; congruence. Qed.
End Generic.

Lemma itp_loop_count func fuel nmax tol sign a b ya yb count tr a' b' count' tr' :
  itp_loop func fuel nmax tol sign a b ya yb count tr = (a', b', count', tr') ->
  (count <= count' <= count + Z.of_nat fuel)%Z /\
  (Z.of_nat (length tr') = Z.of_nat (length tr) + (count' - count))%Z.
Proof.
  revert a b ya yb count tr.
  induction fuel as [|fuel IH]; intros a b ya yb count tr; cbn [itp_loop].
  - intros E; inversion E; subst; lia.
  - destruct (Rlt_bool _ _).
    2:{ intros E; inversion E; subst; lia. }
    cbv zeta.
    destruct (Rlt_bool _ _); [|destruct (Rlt_bool _ _)]; intros E; apply IH in E;
      rewrite ?app_length in E; cbn [length] in E; lia.
Qed.

(** ** Real-number soundness *)

Definition is_sign (s : R) := s = 1 \/ s = -1.

Lemma ivt_sign f a b s :
  continuous_on f a b -> a <= b -> is_sign s -> s * f a <= 0 <= s * f b ->
  exists r, inside a b r /\ f r = 0.
Proof.
  intros Hc Hab Hs [Ha Hb].
  destruct (Req_dec (f a) 0) as [E|Na]; [exists a; unfold inside; split; [lra|exact E]|].
  destruct (Req_dec (f b) 0) as [E|Nb]; [exists b; unfold inside; split; [lra|exact E]|].
  destruct (Req_dec a b) as [->|Nab].
  { exfalso. destruct Hs as [-> | ->]; lra. }
  assert (Hlt : a < b) by lra.
  destruct Hs as [-> | ->].
  - destruct (Ranalysis5.IVT_interv f a b) as [z [Hz Ez]]; [|lra..|].
    + intros x Hx; apply Hc; exact Hx.
    + exists z; split; [exact Hz|exact Ez].
  - destruct (Ranalysis5.IVT_interv (fun x => - f x) a b) as [z [Hz Ez]]; [|lra..|].
    + intros x Hx. apply (continuity_pt_opp f); apply Hc; exact Hx.
    + exists z; split; [exact Hz|lra].
Qed.

Lemma continuous_on_sub f a b a' b' :
  continuous_on f a b -> a <= a' -> b' <= b -> continuous_on f a' b'.
Proof. unfold continuous_on, inside; intros H H1 H2 x Hx; apply H; lra. Qed.

(** *** bisection *)
Lemma bisect_loop_inv f fuel tol sign a b count tr a' b' count' tr' a0 b0 :
  is_sign sign -> 0 <= tol -> a0 <= a -> a <= b -> b <= b0 ->
  sign * f a <= 0 <= sign * f b ->
  Forall (inside a0 b0) tr ->
  bisect_loop f fuel tol sign a b count tr = (a', b', count', tr') ->
  (a <= a' /\ a' <= b' /\ b' <= b) /\ sign * f a' <= 0 <= sign * f b' /\
  Forall (inside a0 b0) tr' /\
  ((count' < count + Z.of_nat fuel)%Z -> b' - a' <= tol).
Proof.
  intros Hs Htol.
  revert a b count tr.
  induction fuel as [|fuel IH]; intros a b count tr H0 Hab H1 Hf Htr; cbn [bisect_loop].
  - intros E; inversion E; subst; clear E. repeat split; try lra; try assumption. intros; lia.
  - num_R. destruct (Rlt_bool_spec tol (b - a)) as [Hw|Hw].
    2:{ intros E; inversion E; subst; clear E. repeat split; try lra; assumption. }
    cbv zeta.
    assert (Hx : a <= 1 / 2 * (a + b) <= b) by lra.
    set (xh := 1 / 2 * (a + b)) in *. clearbody xh.
    assert (Htr' : Forall (inside a0 b0) (tr ++ [xh])).
    { apply Forall_app; split; [exact Htr|]. constructor; [unfold inside; lra|constructor]. }
    rcase; [|rcase]; intros E; apply IH in E;
      try lra; try assumption;
      destruct E as (E1 & E2 & E3 & E4);
      (split; [lra|]; split; [exact E2|]; split; [exact E3|]);
      intros Hc; apply E4; lia.
Qed.

Lemma bisect_loop_converges f sign n : forall fuel tol a b count tr a' b' count' tr',
  0 <= tol -> b - a <= tol * 2 ^ n -> (n < fuel)%nat ->
  bisect_loop f fuel tol sign a b count tr = (a', b', count', tr') ->
  (count' <= count + Z.of_nat n)%Z.
Proof.
  induction n as [|n IH]; intros fuel tol a b count tr a' b' count' tr' Ht Hw Hf;
    (destruct fuel as [|fuel]; [lia|]); cbn [bisect_loop]; num_R.
  - cbn [pow] in Hw. destruct (Rlt_bool_spec tol (b - a)); [lra|].
    intros E; inversion E; subst; lia.
  - destruct (Rlt_bool_spec tol (b - a)).
    2:{ intros E; inversion E; subst; lia. }
    cbv zeta. cbn [pow] in Hw.
    assert (0 <= tol * 2 ^ n).
    { apply Rmult_le_pos; [exact Ht|]. apply pow_le; lra. }
    rcase; [|rcase]; intros E; apply IH in E; try lra; try lia.
Qed.

Lemma check_bracket_R f a b : check_bracket (f a) (f b) = true <-> bracketed f a b.
Proof.
  unfold check_bracket, bracketed; num_R.
  destruct (Rlt_bool_spec 0 (f a * f b)); cbn; split; intros; try lra; congruence.
Qed.

Lemma budget_Z rf : (iteration_count rf <= max_iter rf)%Z ->
  (Z.of_nat (budget rf) = max_iter rf - iteration_count rf)%Z.
Proof. unfold budget; lia. Qed.

Lemma report_success count maxi : final_status count maxi = success -> count <> maxi.
Proof.
  unfold final_status. destruct (Z.eqb_spec count maxi); congruence.
Qed.

Lemma sign_choice y : is_sign (if Rlt_bool y 0 then 1 else -1).
Proof. unfold is_sign; destruct (Rlt_bool y 0); auto. Qed.

Lemma bisect_sound f rf a b tol x rf' tr :
  0 <= tol -> a <= b -> (iteration_count rf <= max_iter rf)%Z ->
  continuous_on f a b -> ~ (f a = 0 /\ 0 < f b) ->
  bisect f rf a b tol true = Returned x (Some success) rf' tr ->
  inside a b x /\ near_root f a b (tol / 2) x /\ Forall (inside a b) tr.
Proof.
  intros Ht Hab Hrf Hc Hedge.
  unfold bisect. cbv zeta.
  destruct (check_bracket (f a) (f b)) eqn:Eb; cbn [negb].
  2:{ intros E; inversion E. }
  apply check_bracket_R in Eb. unfold bracketed in Eb.
  num_R.
  set (sg := if Rlt_bool (f a) 0 then 1 else -1).
  assert (Hsg : is_sign sg).
  { unfold sg, is_sign. destruct (Rlt_bool (f a) 0); lra. }
  assert (Hf : sg * f a <= 0 <= sg * f b).
  { unfold sg. destruct (Rlt_bool_spec (f a) 0) as [Hn|Hp].
    - assert (0 <= f b) by nra. lra.
    - assert (f b <= 0).
      { destruct (Rle_lt_dec (f b) 0) as [|Hb]; [assumption|].
        exfalso. apply Hedge. split; [nra|exact Hb]. }
      lra. }
  destruct (bisect_loop f (budget rf) tol sg a b (iteration_count rf) [a; b])
    as [[[a' b'] count'] tr'] eqn:El.
  intros E; injection E as Ex Est Erf Etr; subst x rf' tr.
  apply (report_success count' (max_iter rf)) in Est.
  pose proof (bisect_loop_count _ _ _ _ _ _ _ _ _ _ _ _ El) as [Hcnt _].
  apply (bisect_loop_inv f _ _ _ _ _ _ _ _ _ _ _ a b) in El; try assumption; try lra.
  2:{ repeat apply Forall_cons; try apply Forall_nil; unfold inside; lra. }
  destruct El as (E1 & E2 & E3 & E4).
  assert (Hw : b' - a' <= tol).
  { apply E4. rewrite budget_Z in * by exact Hrf. lia. }
  split; [unfold inside; lra|]. split; [|exact E3].
  destruct (ivt_sign f a' b' sg) as [r [Hr Er]]; try assumption; try lra.
  { apply continuous_on_sub with a b; [assumption|lra|lra]. }
  exists r. unfold inside in *. split; [lra|]. split; [exact Er|].
  apply Rabs_le; lra.
Qed.

Lemma bisect_terminates f rf a b tol n :
  0 <= tol -> b - a <= tol * 2 ^ n -> bracketed f a b ->
  (iteration_count rf + Z.of_nat n < max_iter rf)%Z ->
  exists x rf' tr, bisect f rf a b tol true = Returned x (Some success) rf' tr /\
    (iteration_count rf' <= iteration_count rf + Z.of_nat n)%Z /\
    (length tr <= n + 2)%nat.
Proof.
  intros Ht Hw Hb Hn.
  unfold bisect. cbv zeta.
  apply check_bracket_R in Hb. rewrite Hb. cbn [negb].
  destruct (bisect_loop _ _ _ _ _ _ _ _) as [[[a' b'] count'] tr'] eqn:El.
  pose proof (bisect_loop_count _ _ _ _ _ _ _ _ _ _ _ _ El) as [Hcnt Hlen].
  apply (bisect_loop_converges f _ n) in El; try assumption.
  2:{ unfold budget. lia. }
  eexists _, _, _. split; [|split].
  - unfold report, final_status. destruct (Z.eqb_spec count' (max_iter rf)); [lia|reflexivity].
  - cbn. lia.
  - cbn [length] in Hlen. lia.
Qed.

(** *** bracket refinement *)
Lemma refine_bracket_R f guess a b a' b' ya yb tr :
  a <= b -> refine_bracket f guess a b = (a', b', ya, yb, tr) ->
  a <= a' /\ a' <= b' /\ b' <= b /\ ya = f a' /\ yb = f b' /\
  Forall (inside a b) tr /\
  (bracketed f a b -> bracketed f a' b') /\
  ((a' = a /\ b' = b) \/ (a' = guess /\ b' = b) \/ (a' = a /\ b' = guess /\ 0 < f guess * f b)).
Proof.
  intros Hab. unfold refine_bracket, bracketed, inside; num_R.
  destruct (Rle_bool_spec a guess) as [H1|H1], (Rle_bool_spec guess b) as [H2|H2];
    cbn [andb];
    [destruct (Rlt_bool_spec 0 (f guess * f b)) as [Hp|Hp]| | |];
    intros E; injection E as <- <- <- <- <-;
    repeat split; try lra;
    try (repeat apply Forall_cons; try apply Forall_nil; lra); try nra; auto.
Qed.

(** *** regula falsi *)
(** values carried for an end of the bracket: same sign as the residual there
    and zero only at a zero *)
Definition carries (s y : R) : Prop := (y < 0 /\ s < 0) \/ (y = 0 /\ s = 0) \/ (0 < y /\ 0 < s).

Lemma falsi_between a b ya yb :
  a <= b -> ya <= 0 <= yb -> ya < yb ->
  a <= (a * yb - b * ya) / (yb - ya) <= b.
Proof.
  intros Hab Hy Hlt.
  split; apply Rmult_le_reg_r with (yb - ya); try lra;
    unfold Rdiv; rewrite Rmult_assoc, Rinv_l, Rmult_1_r by lra; nra.
Qed.

Lemma falsi_eq_a a b ya yb :
  a < b -> ya < yb -> (a * yb - b * ya) / (yb - ya) = a -> ya = 0.
Proof.
  intros Hab Hlt E.
  assert (E' : a * yb - b * ya = a * (yb - ya)).
  { rewrite <- E at 2. field. lra. }
  assert (ya * (a - b) = 0) by lra.
  apply Rmult_integral in H. lra.
Qed.
Lemma falsi_eq_b a b ya yb :
  a < b -> ya < yb -> (a * yb - b * ya) / (yb - ya) = b -> yb = 0.
Proof.
  intros Hab Hlt E.
  assert (E' : a * yb - b * ya = b * (yb - ya)).
  { rewrite <- E at 2. field. lra. }
  assert (yb * (a - b) = 0) by lra.
  apply Rmult_integral in H. lra.
Qed.

Lemma regula_loop_inv f fuel tol sign a b ya yb b1 b2 count tr a' b' count' tr' a0 b0 :
  is_sign sign -> 0 <= tol -> a0 <= a -> a <= b -> b <= b0 ->
  (a < b -> carries (sign * f a) ya /\ carries (sign * f b) yb /\ ya <= 0 <= yb /\ ya < yb) ->
  sign * f a <= 0 <= sign * f b ->
  Forall (inside a0 b0) tr ->
  regula_loop f fuel tol sign a b ya yb b1 b2 count tr = (a', b', count', tr') ->
  (a <= a' /\ a' <= b' /\ b' <= b) /\ sign * f a' <= 0 <= sign * f b' /\
  Forall (inside a0 b0) tr' /\
  ((count' < count + Z.of_nat fuel)%Z -> b' - a' <= 2 * tol).
Proof.
  intros Hs Htol.
  revert a b ya yb b1 b2 count tr.
  induction fuel as [|fuel IH];
    intros a b ya yb b1 b2 count tr H0 Hab H1 Hy Hf Htr; cbn [regula_loop].
  - intros E; injection E as <- <- <- <-. repeat split; try lra; try assumption. intros; lia.
  - num_R. destruct (Rlt_bool_spec (2 * tol) (b - a)) as [Hw|Hw].
    2:{ intros E; injection E as <- <- <- <-. repeat split; try lra; assumption. }
    cbv zeta.
    destruct Hy as (Hca & Hcb & Hy & Hlt); [lra|].
    pose proof (falsi_between a b ya yb Hab Hy Hlt) as Hc.
    pose proof (falsi_eq_a a b ya yb ltac:(lra) Hlt) as Ea.
    pose proof (falsi_eq_b a b ya yb ltac:(lra) Hlt) as Eb.
    set (c := (a * yb - b * ya) / (yb - ya)) in *. clearbody c.
    assert (Htr' : Forall (inside a0 b0) (tr ++ [c])).
    { apply Forall_app; split; [exact Htr|]. constructor; [unfold inside; lra|constructor]. }
    unfold carries in Hca, Hcb.
    destruct (Req_bool_spec c a) as [Eca|Nca];
      [|destruct (Req_bool_spec c b) as [Ecb|Ncb]].
    + specialize (Ea Eca).
      intros E; apply IH in E; try lra; try assumption;
      destruct E as (E1 & E2 & E3 & E4);
      (split; [lra|]; split; [exact E2|]; split; [exact E3|]);
      intros Hc'; apply E4; lia.
    + specialize (Eb Ecb).
      intros E; apply IH in E; try lra; try assumption;
      destruct E as (E1 & E2 & E3 & E4);
      (split; [lra|]; split; [exact E2|]; split; [exact E3|]);
      intros Hc'; apply E4; lia.
    + set (ha := if (1 <? b1 + 1)%Z then 1 / 2 else 1).
      set (hb := if (1 <? b2 + 1)%Z then 1 / 2 else 1).
      assert (Hha : 0 < ha) by (unfold ha; destruct (1 <? b1 + 1)%Z; lra).
      assert (Hhb : 0 < hb) by (unfold hb; destruct (1 <? b2 + 1)%Z; lra).
      clearbody ha hb.
      rcase; [|rcase]; intros E; apply IH in E;
      try lra; try assumption;
      try (intros _; unfold carries; repeat split; nra);
      destruct E as (E1 & E2 & E3 & E4);
      (split; [lra|]; split; [exact E2|]; split; [exact E3|]);
      intros Hc'; apply E4; lia.
Qed.

(** when the residual vanishes at the left end, regula falsi stops there *)
Lemma regula_loop_left f fuel tol sign a b yb b1 b2 count tr a' b' count' tr' :
  0 <= tol -> a <= b -> yb <> 0 ->
  regula_loop f fuel tol sign a b 0 yb b1 b2 count tr = (a', b', count', tr') ->
  (count' < count + Z.of_nat fuel)%Z ->
  a' = a /\ (b' - a' <= 2 * tol) /\ b' <= b /\ a <= b' /\ tr' = tr.
Proof.
  intros Ht Hab Hy. destruct fuel as [|fuel]; cbn [regula_loop].
  - intros E; injection E as <- <- <- <-; lia.
  - num_R. destruct (Rlt_bool_spec (2 * tol) (b - a)) as [Hw|Hw].
    2:{ intros E; injection E as <- <- <- <-; intros _. repeat split; lra. }
    cbv zeta.
    replace ((a * yb - b * 0) / (yb - 0)) with a by (field; lra).
    rewrite Req_bool_true by reflexivity.
    destruct fuel as [|fuel]; cbn [regula_loop].
    + intros E; injection E as <- <- <- <-; lia.
    + num_R. rewrite Rlt_bool_false by lra.
      intros E; injection E as <- <- <- <-; intros _. repeat split; lra.
Qed.

Lemma regula_falsi_sound_in f rf a b tol guess x rf' tr :
  0 <= tol -> a <= b -> (iteration_count rf <= max_iter rf)%Z ->
  continuous_on f a b ->
  ~ (f a = 0 /\ f b = 0) -> (inside a b guess -> ~ (f guess = 0 /\ f b = 0)) ->
  regula_falsi f rf a b tol guess true = Returned x (Some success) rf' tr ->
  inside a b x /\ near_root f a b tol x /\ Forall (inside a b) tr.
Proof.
  intros Ht Hab Hrf Hc Hab0 Hgb0.
  unfold regula_falsi.
  destruct (refine_bracket f guess a b) as [[[[a1 b1] ya] yb] tr1] eqn:Er.
  apply (refine_bracket_R f guess a b) in Er; [|exact Hab].
  destruct Er as (Ha1 & Hab1 & Hb1 & -> & -> & Htr1 & _ & Hends).
  destruct (check_bracket (f a1) (f b1)) eqn:Eb; cbn [negb].
  2:{ intros E; inversion E. }
  apply check_bracket_R in Eb. unfold bracketed in Eb.
  cbv zeta. num_R.
  set (sg := if Rlt_bool (f a1) 0 then 1 else -1).
  assert (Hsg : is_sign sg) by apply sign_choice.
  destruct (regula_loop f (budget rf) tol sg a1 b1 (f a1 * sg) (f b1 * sg) 0 0 _ _)
    as [[[a' b'] count'] tr'] eqn:El.
  intros E; injection E as Ex Est Erf Etr; subst x rf' tr.
  apply report_success in Est.
  pose proof (regula_loop_count _ _ _ _ _ _ _ _ _ _ _ _ _ _ _ _ El) as [Hcnt _].
  assert (Hlt : (count' < iteration_count rf + Z.of_nat (budget rf))%Z).
  { rewrite budget_Z in * by exact Hrf. lia. }
  assert (Hends' : ~ (f a1 = 0 /\ f b1 = 0)).
  { destruct Hends as [[-> ->]|[[Eg Eb1]|(-> & -> & Hp)]]; auto.
    - subst a1 b1. apply Hgb0. unfold inside. lra.
    - intros [_ E]. rewrite E in Hp. lra. }
  destruct (Req_dec (f a1) 0) as [Ez|Nz].
  - rewrite Ez, Rmult_0_l in El.
    assert (Hsb : f b1 * sg <> 0).
    { unfold is_sign in Hsg. intros E. apply Rmult_integral in E. destruct E; [tauto|lra]. }
    apply (regula_loop_left f _ _ _ _ _ _ _ _ _ _ _ _ _ _ Ht Hab1 Hsb) in El; [|exact Hlt].
    destruct El as (-> & Hw & Hb' & Hb'' & ->).
    unfold inside. split; [lra|]. split; [|exact Htr1].
    exists a1. unfold inside. split; [lra|]. split; [exact Ez|]. apply Rabs_le; lra.
  - assert (Hf : sg * f a1 < 0 <= sg * f b1).
    { unfold sg. destruct (Rlt_bool_spec (f a1) 0) as [Hn|Hp].
      - assert (0 <= f b1) by nra. lra.
      - assert (f b1 <= 0) by nra. lra. }
    apply (regula_loop_inv f _ _ _ _ _ _ _ _ _ _ _ _ _ _ _ a b) in El; try assumption; try lra.
    2:{ intros _. unfold carries. rewrite (Rmult_comm (f a1)), (Rmult_comm (f b1)). lra. }
    destruct El as (E1 & E2 & E3 & E4).
    specialize (E4 Hlt).
    split; [unfold inside; lra|]. split; [|exact E3].
    destruct (ivt_sign f a' b' sg) as [r [Hr Er]]; try assumption; try lra.
    { apply continuous_on_sub with a b; [assumption|lra|lra]. }
    exists r. unfold inside in *. split; [lra|]. split; [exact Er|].
    apply Rabs_le; lra.
Qed.

Lemma regula_falsi_sound f rf a b tol guess x rf' tr :
  0 <= tol -> a <= b -> (iteration_count rf <= max_iter rf)%Z ->
  continuous_on f a b ->
  ~ (f a = 0 /\ f b = 0) -> ~ (f guess = 0 /\ f b = 0) ->
  regula_falsi f rf a b tol guess true = Returned x (Some success) rf' tr ->
  inside a b x /\ near_root f a b tol x /\ Forall (inside a b) tr.
Proof. intros; eapply regula_falsi_sound_in; eauto. Qed.

(** *** ITP *)
Lemma itp_point_in nmax tol a b ya yb count :
  0 < tol -> a < b -> ya <= 0 <= yb -> ya < yb ->
  a <= itp_point nmax tol a b ya yb count <= b.
Proof.
  intros Ht Hab Hy Hlt.
  pose proof (falsi_between a b ya yb ltac:(lra) Hy Hlt) as Hxf.
  unfold itp_point. cbv zeta.
  replace ((yb * a - ya * b) / (yb - ya)) with ((a * yb - b * ya) / (yb - ya)) by (field; lra).
  set (xf := (a * yb - b * ya) / (yb - ya)) in *. clearbody xf.
  assert (Hr : - (/ 2 * (b - a)) < tol * powerRZ 2 (nmax - count) - / 2 * (b - a)).
  { pose proof (powerRZ_lt 2 (nmax - count) ltac:(lra)). nra. }
  set (r := tol * powerRZ 2 (nmax - count) - / 2 * (b - a)) in *. clearbody r.
  rewrite std_min_R.
  set (k := 1 / 10 * (b - a) ^ 2).
  assert (Hk : 0 <= k) by (unfold k; nra). clearbody k.
  set (xh := / 2 * (a + b)).
  destruct (Rlt_bool_spec 0 (xh - xf)) as [Hs|Hs].
  - rewrite (Rabs_right (xh - xf)) by lra.
    rewrite Rle_bool_true by (rewrite Rmult_1_l; apply Rmin_r).
    pose proof (Rmin_r k (xh - xf)). assert (0 <= Rmin k (xh - xf)) by (apply Rmin_glb; lra).
    set (d := Rmin k (xh - xf)) in *. clearbody d.
    unfold Rabs. destruct (Rcase_abs _); rcase; unfold xh in *; lra.
  - rewrite (Rabs_left1 (xh - xf)) by lra.
    rewrite Rle_bool_true by (replace (-1 * (xh - xf)) with (- (xh - xf)) by ring; apply Rmin_r).
    pose proof (Rmin_r k (- (xh - xf))). assert (0 <= Rmin k (- (xh - xf))) by (apply Rmin_glb; lra).
    set (d := Rmin k (- (xh - xf))) in *. clearbody d.
    unfold Rabs. destruct (Rcase_abs _); rcase; unfold xh in *; lra.
Qed.

(** the evaluation point is never farther from the midpoint than the slack r *)
Lemma itp_point_slack nmax tol a b ya yb count :
  b - a <= 2 * (tol * powerRZ 2 (nmax - count)) ->
  Rabs (itp_point nmax tol a b ya yb count - / 2 * (a + b)) <=
  tol * powerRZ 2 (nmax - count) - / 2 * (b - a).
Proof.
  intros Hw. unfold itp_point. cbv zeta.
  set (r := tol * powerRZ 2 (nmax - count) - / 2 * (b - a)) in *.
  assert (Hr : 0 <= r) by (unfold r; lra). clearbody r.
  match goal with |- context [Rlt_bool r (Rabs ?e)] => destruct (Rlt_bool_spec r (Rabs e)) as [H|H] end.
  - set (xh := / 2 * (a + b)) in *. clearbody xh. rcase; unfold Rabs; destruct (Rcase_abs _); lra.
  - exact H.
Qed.

Lemma itp_point_between nmax tol a b ya yb count :
  a < b -> ya <> yb -> b - a <= 2 * (tol * powerRZ 2 (nmax - count)) ->
  let xf := (yb * a - ya * b) / (yb - ya) in
  let xh := (a + b) / 2 in
  Rmin xf xh <= itp_point nmax tol a b ya yb count <= Rmax xf xh.
Proof.
  intros Hab Hy Hw xf xh. unfold itp_point. cbv zeta. fold xf.
  replace (/ 2 * (a + b)) with xh by (unfold xh; field).
  set (r := tol * _ - _). assert (Hr : 0 <= r) by (unfold r; lra).
  set (q := 1 / 10 * (b - a) ^ 2).
  assert (Hq : 0 <= q) by (unfold q; nra).
  clearbody r q xf xh. unfold std_min. num_R.
  assert (Hmin : forall u v : R, (if Rlt_bool v u then v else u) = Rmin u v).
  { intros u v. destruct (Rlt_bool_spec v u); unfold Rmin; destruct (Rle_dec u v); lra. }
  rewrite Hmin.
  assert (Hd : 0 <= Rmin q (Rabs (xh - xf)) <= Rabs (xh - xf)).
  { split; [apply Rmin_glb; [assumption|apply Rabs_pos]|apply Rmin_r]. }
  set (d := Rmin q _) in *. clearbody d.
  destruct (Rlt_bool_spec 0 (xh - xf)) as [H0|H0].
  - rewrite (Rabs_pos_eq (xh - xf)) in Hd by lra. rewrite Rmin_left, Rmax_right by lra.
    destruct (Rle_bool_spec d (1 * (xh - xf))); match goal with |- context[Rlt_bool r ?e] =>
      destruct (Rlt_bool_spec r e) as [H2|H2] end; try lra.
    + rewrite Rabs_left1 in H2 by lra. lra.
  - rewrite (Rabs_left1 (xh - xf)) in Hd by lra. rewrite Rmin_right, Rmax_left by lra.
    destruct (Rle_bool_spec d (-1 * (xh - xf))); match goal with |- context[Rlt_bool r ?e] =>
      destruct (Rlt_bool_spec r e) as [H2|H2] end; try lra.
    + rewrite Rabs_pos_eq in H2 by lra. lra.
Qed.

Lemma itp_loop_inv f fuel nmax tol sign a b ya yb count tr a' b' count' tr' a0 b0 :
  is_sign sign -> 0 < tol -> a0 <= a -> a <= b -> b <= b0 ->
  (a < b -> ya = sign * f a /\ yb = sign * f b /\ ya < yb) ->
  sign * f a <= 0 <= sign * f b ->
  Forall (inside a0 b0) tr ->
  itp_loop f fuel nmax tol sign a b ya yb count tr = (a', b', count', tr') ->
  (a <= a' /\ a' <= b' /\ b' <= b) /\ sign * f a' <= 0 <= sign * f b' /\
  Forall (inside a0 b0) tr' /\
  ((count' < count + Z.of_nat fuel)%Z -> b' - a' <= 2 * tol).
Proof.
  intros Hs Htol.
  revert a b ya yb count tr.
  induction fuel as [|fuel IH];
    intros a b ya yb count tr H0 Hab H1 Hy Hf Htr; cbn [itp_loop].
  - intros E; injection E as <- <- <- <-. repeat split; try lra; try assumption. intros; lia.
  - destruct (Rlt_bool_spec (2 * tol) (b - a)) as [Hw|Hw].
    2:{ intros E; injection E as <- <- <- <-. repeat split; try lra; assumption. }
    cbv zeta.
    destruct Hy as (-> & -> & Hlt); [lra|].
    pose proof (itp_point_in nmax tol a b (sign * f a) (sign * f b) count Htol ltac:(lra) Hf Hlt) as Hc.
    set (c := itp_point nmax tol a b (sign * f a) (sign * f b) count) in *. clearbody c.
    assert (Htr' : Forall (inside a0 b0) (tr ++ [c])).
    { apply Forall_app; split; [exact Htr|]. constructor; [unfold inside; lra|constructor]. }
    rcase; [|rcase]; intros E; apply IH in E;
      try lra; try assumption;
      destruct E as (E1 & E2 & E3 & E4);
      (split; [lra|]; split; [exact E2|]; split; [exact E3|]);
      intros Hc'; apply E4; lia.
Qed.

Lemma itp_loop_converges f fuel : forall nmax tol sign a b ya yb count tr a' b' count' tr',
  0 < tol -> b - a <= 2 * (tol * powerRZ 2 (nmax - count)) ->
  (nmax < count + Z.of_nat fuel)%Z ->
  itp_loop f fuel nmax tol sign a b ya yb count tr = (a', b', count', tr') ->
  (count' <= Z.max count nmax)%Z.
Proof.
  induction fuel as [|fuel IH]; intros nmax tol sign a b ya yb count tr a' b' count' tr' Ht Hw Hf;
    cbn [itp_loop].
  - intros E; injection E as <- <- <- <-. lia.
  - destruct (Rlt_bool_spec (2 * tol) (b - a)) as [Hw'|Hw'].
    2:{ intros E; injection E as <- <- <- <-. lia. }
    cbv zeta.
    assert (Hlt : (count < nmax)%Z).
    { destruct (Z.lt_ge_cases count nmax) as [|Hge]; [assumption|exfalso].
      assert (powerRZ 2 (nmax - count) <= 1).
      { change 1 with (powerRZ 2 0). rewrite <- !(bpow_powerRZ radix2).
        apply bpow_le. lia. }
      nra. }
    pose proof (itp_point_slack nmax tol a b ya yb count Hw) as Hs.
    pose proof (powerRZ_lt 2 (nmax - (count + 1)) ltac:(lra)) as Hpos.
    assert (Hd : powerRZ 2 (nmax - count) = 2 * powerRZ 2 (nmax - (count + 1))).
    { replace (nmax - count)%Z with (1 + (nmax - (count + 1)))%Z by lia.
      rewrite powerRZ_add by lra. rewrite powerRZ_1. reflexivity. }
    rewrite Hd in *.
    set (p := powerRZ 2 (nmax - (count + 1))) in *.
    set (c := itp_point nmax tol a b ya yb count) in *. clearbody c.
    assert (Htp : 0 <= tol * p) by nra.
    assert (Hc : c - a <= 2 * (tol * p) /\ b - c <= 2 * (tol * p)).
    { revert Hs. unfold Rabs. destruct (Rcase_abs _); lra. }
    rcase; [|rcase]; intros E; apply IH in E; fold p; try lra; try lia.
Qed.

Lemma ln_le' x y : 0 < x -> x <= y -> ln x <= ln y.
Proof.
  intros Hx [H| ->]; [left; apply ln_increasing; assumption|right; reflexivity].
Qed.
Lemma exp_le' x y : x <= y -> exp x <= exp y.
Proof. intros [H| ->]; [left; apply exp_increasing; assumption|right; reflexivity]. Qed.

Lemma itp_nmax_spec a b tol n :
  a < b -> 0 < tol -> b - a <= 2 * (tol * 2 ^ n) ->
  (itp_nmax a b tol <= Z.of_nat n)%Z /\
  b - a <= 2 * (tol * powerRZ 2 (itp_nmax a b tol)).
Proof.
  intros Hab Ht Hn. unfold itp_nmax.
  assert (Hl2 : 0 < ln 2) by (rewrite <- ln_1; apply ln_increasing; lra).
  assert (Hq : 0 < / 2 * (b - a) / tol) by (apply Rdiv_lt_0_compat; lra).
  split.
  - apply Zceil_glb. apply Rmult_le_reg_r with (ln 2); [exact Hl2|].
    unfold Rdiv at 1. rewrite Rmult_assoc, Rinv_l, Rmult_1_r by lra.
    rewrite <- INR_IZR_INZ, <- ln_pow by lra.
    apply ln_le'; [exact Hq|].
    apply Rmult_le_reg_r with tol; [exact Ht|].
    unfold Rdiv. rewrite Rmult_assoc, Rinv_l, Rmult_1_r by lra. lra.
  - set (z := Zceil _).
    pose proof (Zceil_ub (ln (/ 2 * (b - a) / tol) / ln 2)) as Hz. fold z in Hz.
    assert (Hle : / 2 * (b - a) / tol <= powerRZ 2 z).
    { rewrite <- (exp_ln (/ 2 * (b - a) / tol)) by exact Hq.
      rewrite <- (bpow_powerRZ radix2).
      rewrite bpow_exp. cbn [radix_val radix2].
      apply exp_le'. replace (IZR 2) with 2 by reflexivity.
      apply Rmult_le_compat_r with (r := ln 2) in Hz; [|lra].
      unfold Rdiv at 1 in Hz. rewrite Rmult_assoc, Rinv_l, Rmult_1_r in Hz by lra. lra. }
    apply Rmult_le_compat_r with (r := tol) in Hle; [|lra].
    unfold Rdiv in Hle. rewrite Rmult_assoc, Rinv_l, Rmult_1_r in Hle by lra. lra.
Qed.

Lemma itp_sound f rf a b tol guess x rf' tr :
  0 < tol -> a < b -> (iteration_count rf <= max_iter rf)%Z ->
  continuous_on f a b ->
  ~ (f a = 0 /\ 0 <= f b) -> ~ (f guess = 0 /\ 0 <= f b) ->
  itp f rf a b tol guess true = Returned x (Some success) rf' tr ->
  inside a b x /\ near_root f a b tol x /\ Forall (inside a b) tr.
Proof.
  intros Ht Hab Hrf Hc Hab0 Hgb0.
  unfold itp.
  destruct (refine_bracket f guess a b) as [[[[a1 b1] ya] yb] tr1] eqn:Er.
  apply (refine_bracket_R f guess a b) in Er; [|lra].
  destruct Er as (Ha1 & Hab1 & Hb1 & -> & -> & Htr1 & _ & Hends).
  destruct (check_bracket (f a1) (f b1)) eqn:Eb; cbn [negb].
  2:{ intros E; inversion E. }
  apply check_bracket_R in Eb. unfold bracketed in Eb.
  cbv zeta.
  set (sg := if Rlt_bool (f a1) 0 then 1 else -1).
  assert (Hsg : is_sign sg) by apply sign_choice.
  destruct (itp_loop f (budget rf) (itp_nmax a b tol) tol sg a1 b1 (f a1 * sg) (f b1 * sg) _ _)
    as [[[a' b'] count'] tr'] eqn:El.
  intros E; injection E as Ex Est Erf Etr; subst x rf' tr.
  apply report_success in Est.
  pose proof (itp_loop_count _ _ _ _ _ _ _ _ _ _ _ _ _ _ _ El) as [Hcnt _].
  assert (Hlt : (count' < iteration_count rf + Z.of_nat (budget rf))%Z).
  { rewrite budget_Z in * by exact Hrf. lia. }
  assert (Hends' : ~ (f a1 = 0 /\ 0 <= f b1) \/ (f a1 = 0 /\ 0 < f b1 * f b)).
  { destruct Hends as [[-> ->]|[[-> ->]|(-> & -> & Hp)]]; [auto|auto|].
    destruct (Req_dec (f a) 0) as [Ez|Nz]; [right; tauto|left; tauto]. }
  assert (Hf : sg * f a1 <= 0 <= sg * f b1 /\ (sg * f a1 < sg * f b1)).
  { assert (Hx : ~ (f a1 = 0 /\ 0 <= f b1)).
    { destruct Hends as [[-> ->]|[[-> ->]|(-> & -> & Hp)]]; [auto|auto|].
      intros [E1 E2]. apply Hab0. split; [exact E1|]. nra. }
    unfold sg. destruct (Rlt_bool_spec (f a1) 0) as [Hn|Hp].
    - assert (0 <= f b1) by nra. lra.
    - destruct (Req_dec (f a1) 0) as [E|N].
      + assert (f b1 < 0) by (apply Rnot_le_lt; tauto). lra.
      + assert (f b1 <= 0) by nra. lra. }
  apply (itp_loop_inv f _ _ _ _ _ _ _ _ _ _ _ _ _ _ a b) in El; try assumption; try lra.
  destruct El as (E1 & E2 & E3 & E4).
  specialize (E4 Hlt).
  split; [unfold inside; lra|]. split; [|exact E3].
  destruct (ivt_sign f a' b' sg) as [r [Hr Er]]; try assumption; try lra.
  { apply continuous_on_sub with a b; [assumption|lra|lra]. }
  exists r. unfold inside in *. split; [lra|]. split; [exact Er|].
  apply Rabs_le; lra.
Qed.

Lemma itp_terminates f rf a b tol guess n :
  0 < tol -> a < b -> b - a <= 2 * (tol * 2 ^ n) ->
  bracketed f a b ->
  iteration_count rf = 0%Z -> (Z.of_nat n < max_iter rf)%Z ->
  exists x rf' tr, itp f rf a b tol guess true = Returned x (Some success) rf' tr /\
    (iteration_count rf' <= Z.of_nat n)%Z /\ (length tr <= n + 3)%nat.
Proof.
  intros Ht Hab Hn Hb H0 Hm.
  destruct (itp_nmax_spec a b tol n Hab Ht Hn) as [Hnm Hw].
  unfold itp.
  destruct (refine_bracket f guess a b) as [[[[a1 b1] ya] yb] tr1] eqn:Er.
  pose proof (refine_bracket_trace _ _ _ _ _ _ _ _ _ Er) as Htr.
  apply (refine_bracket_R f guess a b) in Er; [|lra].
  destruct Er as (Ha1 & Hab1 & Hb1 & -> & -> & _ & Hbb & _).
  specialize (Hbb Hb). apply check_bracket_R in Hbb. rewrite Hbb. cbn [negb]. cbv zeta.
  destruct (itp_loop _ _ _ _ _ _ _ _ _ _ _) as [[[a' b'] count'] tr'] eqn:El.
  pose proof (itp_loop_count _ _ _ _ _ _ _ _ _ _ _ _ _ _ _ El) as [Hcnt Hlen].
  rewrite H0 in *.
  apply itp_loop_converges in El; try assumption.
  2:{ rewrite Z.sub_0_r. lra. }
  2:{ unfold budget. lia. }
  eexists _, _, _. split; [|split].
  - unfold report, final_status. destruct (Z.eqb_spec count' (max_iter rf)); [lia|reflexivity].
  - cbn. lia.
  - lia.
Qed.
