(** the Newton loop of the classic inversion, over the reals *)
From Coq Require Import Reals ZArith Arith Bool Lia Lra Psatz.
From Flocq Require Import Core.
From Verif.Spec Require Import Tensor.
From Verif.Model Require Import Num Robust Geometry Relativity Prim2Con Con2PrimClassic.
From Verif.Proofs Require Import NumR RobustProofs.
Local Open Scope R_scope.

Section Generic.
Context {T : Type} `{Num T}.
Variables (P E : T -> T -> T) (D tau Bsq Ssq BdotS tol : T) (mx : Z).
Notation pass := (pass P E D tau Bsq Ssq BdotS tol).
Notation loop := (loop P E D tau Bsq Ssq BdotS tol mx).

Lemma pass_n s : it_n (pass s) = (it_n s + 1)%Z.
Proof.
  unfold Con2PrimClassic.pass. destruct (nlt _ _); [reflexivity|].
  destruct (jacobian _ _ _ _ _ _ _ _ _ _ _ _) as [[a b] [c d]]. destruct (line_search _ _ _ _ _ _ _ _ _ _ _ _ _ _ _) as [al rf]. reflexivity.
Qed.
Lemma iter_shift {A} (f : A -> A) k x : Nat.iter (S k) f x = Nat.iter k f (f x).
Proof. induction k as [|k IH]; [reflexivity|]. change (f (Nat.iter (S k) f x) = f (Nat.iter k f (f x))). f_equal. exact IH. Qed.
Lemma loop_pass fuel s : it_conv s = false ->
  exists k s0, s0 = Nat.iter k pass s /\ (k <= fuel)%nat /\ it_conv s0 = false /\ loop fuel s = pass s0 /\
    (it_conv (pass s0) = false -> (k = fuel)%nat \/ (mx <= it_n (pass s0))%Z) /\ ((0 < k)%nat -> (it_n s0 < mx)%Z).
Proof.
  revert s. induction fuel as [|k IH]; intros s Hc.
  - exists 0%nat, s. cbn. repeat split; auto. lia.
  - cbn [Con2PrimClassic.loop]. destruct (it_conv (pass s)) eqn:Ec; cbn [negb andb].
    + exists 0%nat, s. cbn. repeat split; auto; [lia|rewrite Ec; discriminate|lia].
    + destruct (it_n (pass s) <? mx)%Z eqn:En.
      * destruct (IH (pass s) Ec) as (m & s0 & E0 & L & C & El & F & G). exists (S m), s0.
        split; [rewrite E0; symmetry; exact (iter_shift pass m s)|]. split; [lia|]. split; [exact C|]. split; [exact El|]. split.
        { intros Q. destruct (F Q) as [Q2|Q2]; [left; lia|right; exact Q2]. }
        { intros _. destruct m as [|m]; [cbn in E0; rewrite E0; apply Z.ltb_lt; exact En|apply G; lia]. }
      * exists 0%nat, s. cbn. repeat split; auto; [lia|intros _; right; apply Z.ltb_ge; exact En|lia].
Qed.
Lemma iter_n k s : it_n (Nat.iter k pass s) = (it_n s + Z.of_nat k)%Z.
Proof. induction k as [|k IH]; [cbn; lia|]. change (Nat.iter (S k) pass s) with (pass (Nat.iter k pass s)). rewrite pass_n, IH. lia. Qed.
Lemma iter_inv (Q : It -> Prop) : (forall s, Q s -> Q (pass s)) -> forall k s, Q s -> Q (Nat.iter k pass s).
Proof. intros Hp k s Hs. induction k as [|k IH]; [exact Hs|]. change (Q (pass (Nat.iter k pass s))). apply Hp. exact IH. Qed.
End Generic.

Section Real.
Variables (P E : R -> R -> R) (D tau Bsq Ssq BdotS tol : R) (mx : Z).
Notation residual := (residual P E D tau Bsq Ssq BdotS).
Notation pass := (pass P E D tau Bsq Ssq BdotS tol).
Notation loop := (loop P E D tau Bsq Ssq BdotS tol mx).
Notation jacobian := (jacobian P E D tau Bsq Ssq BdotS tol).
Notation line_search := (line_search P E D tau Bsq Ssq BdotS).

Definition tied (s : It) : Prop := it_res s = residual (it_rho s) (it_T s).

(** the line search *)
Lemma line_spec n rho Te dr dT r0 al res :
  0 < al <= 1 -> res = residual (rho + al * dr) (Te + al * dT) ->
  let '(a, rf) := line_search n rho Te dr dT r0 al res in
  0 < a <= al /\ rf = residual (rho + a * dr) (Te + a * dT) /\
  (norm_res rf < r0 \/ a = al / 2 ^ n) /\ (a = al \/ r0 <= norm_res res).
Proof.
  revert al res. induction n as [|n IH]; intros al res Ha Hr.
  - cbn [Con2PrimClassic.line_search pow]. split; [lra|]. split; [exact Hr|]. split; [right; field|left; reflexivity].
  - cbn [Con2PrimClassic.line_search]. destruct (nle r0 (norm_res res)) eqn:En.
    + match goal with |- context [line_search n rho Te dr dT r0 ?a ?r] => specialize (IH a r) end.
      assert (K : 0 < nmul al (nlit 1 2) <= 1) by (num_R; lra).
      specialize (IH K eq_refl). destruct (line_search _ _ _ _ _ _ _ _) as [a rf]. destruct IH as (I1 & I2 & I3 & _).
      split; [num_R; lra|]. split; [exact I2|]. split.
      * destruct I3 as [I3|I3]; [left; exact I3|right]. rewrite I3. num_R. cbn [pow]. field. apply pow_nonzero. lra.
      * right. change (Rle_bool r0 (norm_res res) = true) in En. destruct (Rle_bool_spec r0 (norm_res res)); [assumption|discriminate].
    + split; [lra|]. split; [exact Hr|]. split; [|left; reflexivity]. left. change (Rle_bool r0 (norm_res res) = false) in En. destruct (Rle_bool_spec r0 (norm_res res)); [discriminate|assumption].
Qed.

Definition newton (s : It) : R * R :=
  let '((j00, j01), (j10, j11)) := jacobian (it_fact s) (it_rho s) (it_T s) (it_res s) in
  let det := jdet (jacobian (it_fact s) (it_rho s) (it_T s) (it_res s)) in
  (- (fst (it_res s) * j11 - j01 * snd (it_res s)) * (1 / det),
   - (j00 * snd (it_res s) - j10 * fst (it_res s)) * (1 / det)).
Definition det_of (s : It) : R := jdet (jacobian (it_fact s) (it_rho s) (it_T s) (it_res s)).

Lemma pass_singular s : Rabs (det_of s) < / 10000000000000000 ->
  pass s = mkIt (it_rho s) (it_T s) (it_res s) (it_fact s * (12 / 10)) (it_n s + 1) (it_conv s).
Proof.
  intros Hd. unfold Con2PrimClassic.pass. cbn [nabs Num_R nlt].
  rewrite Rlt_bool_true; [reflexivity|]. unfold det_of in Hd. cbn [nlit Num_R]. unfold Rdiv. rewrite Rmult_1_l. exact Hd.
Qed.
Lemma pass_newton s : / 10000000000000000 <= Rabs (det_of s) ->
  let d := newton s in
  let dr := limit_rho D (it_rho s) (fst d) in let dT := limit_T (it_T s) (snd d) in
  exists a, 0 < a <= 1 /\
  (norm_res (residual (it_rho s + a * dr) (it_T s + a * dT)) < norm_res (it_res s) \/ a = / 32) /\
  (a = 1 \/ norm_res (it_res s) <= norm_res (residual (it_rho s + dr) (it_T s + dT))) /\
  it_rho (pass s) = it_rho s + a * dr /\ it_T (pass s) = it_T s + a * dT /\ tied (pass s) /\
  it_conv (pass s) = (if Rlt_bool (Rabs (fst d) / it_rho s) tol && Rlt_bool (Rabs (snd d) / it_T s) tol then true else it_conv s).
Proof.
  intros Hd d dr dT.
  assert (Hl : nlt (nabs (det_of s)) (nlit 1 10000000000000000) = false).
  { cbn. apply Rlt_bool_false. unfold Rdiv. rewrite Rmult_1_l. exact Hd. }
  unfold dr, dT, d, newton, tied, Con2PrimClassic.pass. fold (det_of s). rewrite Hl.
  destruct (jacobian (it_fact s) (it_rho s) (it_T s) (it_res s)) as [[j00 j01] [j10 j11]] eqn:EJ.
  replace (nlit 1 1 : R) with 1 by (cbn; field). cbn [fst snd nopp nmul nsub nadd ndiv Num_R].
  set (d0 := - (fst (it_res s) * j11 - j01 * snd (it_res s)) * (1 / det_of s)).
  set (d1 := - (j00 * snd (it_res s) - j10 * fst (it_res s)) * (1 / det_of s)).
  pose proof (line_spec 5 (it_rho s) (it_T s) (limit_rho D (it_rho s) d0) (limit_T (it_T s) d1) (norm_res (it_res s)) 1
    (residual (it_rho s + limit_rho D (it_rho s) d0) (it_T s + limit_T (it_T s) d1)) ltac:(lra) ltac:(f_equal; ring)) as K.
  destruct (line_search 5 _ _ _ _ _ _ _) as [a rf]. destruct K as (K1 & K2 & K3 & K4).
  exists a. split; [exact K1|]. split; [rewrite <- K2; destruct K3 as [K3|K3]; [left; exact K3|right; rewrite K3; field]|].
  split; [exact K4|].
  cbn [it_rho it_T it_conv it_res]. repeat split; auto.
Qed.

Lemma tied_pass s : tied s -> tied (pass s).
Proof.
  intros Hs. destruct (Rlt_or_le (Rabs (det_of s)) (/ 10000000000000000)) as [Q|Q].
  - rewrite (pass_singular s Q). exact Hs.
  - destruct (pass_newton s Q) as (a & _ & _ & _ & _ & _ & K & _). exact K.
Qed.

(** the limiters *)
Lemma limit_rho_range rho dr a : 0 <= rho <= D -> 0 < a <= 1 ->
  0 <= rho + a * limit_rho D rho dr <= D /\ (0 <= rho + dr <= D -> limit_rho D rho dr = dr) /\ Rabs (limit_rho D rho dr) <= Rabs dr.
Proof.
  intros Hr Ha. unfold limit_rho. cbn [nlt nadd ndiv nmul nsub nopp Num_R]. replace (nzero : R) with 0 by (unfold nzero; cbn; field).
  replace (nlit 1 10 : R) with (/ 10) by (cbn; field). replace (nlit 1 1 : R) with 1 by (cbn; field).
  destruct (Rlt_bool_spec (rho + dr) 0) as [Q|Q].
  - replace (- / 10 * rho / dr * dr) with (- / 10 * rho) by (field; lra). split; [nra|]. split; [lra|].
    rewrite (Rabs_left dr) by lra. rewrite Rabs_left1 by lra. lra.
  - destruct (Rlt_bool_spec D (rho + dr)) as [Q2|Q2].
    + replace ((D - rho) / dr * dr) with (D - rho) by (field; lra). split; [nra|]. split; [lra|].
      rewrite (Rabs_pos_eq dr) by lra. rewrite Rabs_pos_eq by lra. lra.
    + rewrite Rmult_1_l. split; [|split; [auto|lra]]. nra.
Qed.
Lemma limit_T_range Te dT a : 0 <= Te -> 0 < a <= 1 ->
  0 <= Te + a * limit_T Te dT /\ (0 <= Te + dT -> limit_T Te dT = dT) /\ Rabs (limit_T Te dT) <= Rabs dT.
Proof.
  intros Hr Ha. unfold limit_T. cbn [nlt nadd ndiv nmul nsub nopp Num_R]. replace (nzero : R) with 0 by (unfold nzero; cbn; field).
  replace (nlit 1 10 : R) with (/ 10) by (cbn; field).
  destruct (Rlt_bool_spec (Te + dT) 0) as [Q|Q].
  - split; [nra|]. split; [lra|]. rewrite (Rabs_left dT) by lra. rewrite Rabs_left1 by lra. lra.
  - split; [|split; [auto|lra]]. nra.
Qed.
Definition in_range (s : It) : Prop := 0 <= it_rho s <= D /\ 0 <= it_T s.
Lemma range_pass s : in_range s -> in_range (pass s).
Proof.
  intros [H1 H2]. destruct (Rlt_or_le (Rabs (det_of s)) (/ 10000000000000000)) as [Q|Q].
  - rewrite (pass_singular s Q). split; assumption.
  - destruct (pass_newton s Q) as (a & Ha & _ & _ & E1 & E2 & _). unfold in_range. rewrite E1, E2. split.
    + apply limit_rho_range; assumption.
    + apply limit_T_range; assumption.
Qed.

(** Cramer's rule *)
Lemma newton_solves s j00 j01 j10 j11 : jacobian (it_fact s) (it_rho s) (it_T s) (it_res s) = ((j00, j01), (j10, j11)) -> det_of s <> 0 ->
  j00 * fst (newton s) + j01 * snd (newton s) = - fst (it_res s) /\
  j10 * fst (newton s) + j11 * snd (newton s) = - snd (it_res s).
Proof.
  intros EJ Hd. unfold newton. unfold det_of, jdet in *. rewrite EJ in *. cbn [fst snd nmul nsub Num_R] in *. split; field; exact Hd.
Qed.

(** forward differences *)
Lemma EPS_R_pos : 0 < (EPS : R).
Proof. exact (proj1 EPS_pos). Qed.
Lemma dmin_pos : 0 < delta_min tol.
Proof.
  unfold delta_min, make_positive, std_max. pose proof EPS_R_pos as K. cbn [nlt Num_R].
  destruct (Rlt_bool_spec (nmul tol delta_fact_min) EPS); lra.
Qed.
Lemma fd_nonzero f x : fd_delta tol f x <> 0.
Proof.
  unfold fd_delta. pose proof dmin_pos as K. cbn [nlt nmul nabs Num_R].
  destruct (Rlt_bool_spec (Rabs (f * x)) (delta_min tol)) as [Q|Q].
  - unfold sgn. cbn [nle nlt Num_R]. replace (nzero : R) with 0 by (unfold nzero; cbn; field).
    destruct (Rle_bool_spec 0 (f * x)); destruct (Rlt_bool_spec (f * x) 0); cbn [nlit Num_R]; try lra;
      cbn [Z.sub Z.add Z.opp Z.pos_sub]; lra.
  - intros Z. rewrite Z, Rabs_R0 in Q. lra.
Qed.
End Real.
