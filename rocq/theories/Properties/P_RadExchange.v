(** C30: matter and radiation exchange energy and momentum without creating any. *)
From Coq Require Import Reals Lra Lia Arith ZArith Bool List Psatz FunctionalExtensionality.
From Flocq Require Import Core.
From Verif.Spec Require Import Tensor GeomSpec RootSpec Relativity RadSpec RadSource RadExchange.
From Verif.Model Require Import Num RootFind Geometry LinearAlgebra Relativity Prim2Con Con2PrimRobust RadClosure Tetrads RadSource.
From Verif.Proofs Require Import NumR TensorTac LinearAlgebraProofs GeomBase AdmProofs RelProofs RelativityProofs P2CSimple RadProofs FlatWitness RootFindProofs TetradProofs Con2PrimProofs C2PSolve.
From Verif.Properties Require Import P_Con2Prim P_RadTransform P_RadImplicit P_Tetrads.
Import ListNotations.
Local Open Scope R_scope.

(** *** the inversion leaves the conserved variables alone unless a bound was used *)
Lemma source_invert_cons mhdB hasye eos fl gmax emax fac cell maxi tol guess c o :
  source_invert mhdB hasye eos (source_limits fl gmax emax fac) cell maxi tol guess c = Some o ->
  o_status o = c2p_success -> o_e_maxed o = false ->
  cD (o_cons o) = cD c /\ cS (o_cons o) = cS c /\ cB (o_cons o) = cB c /\ ctau (o_cons o) = ctau c /\ cye (o_cons o) = cye c.
Proof.
  unfold source_invert, solve. destruct (regula_falsi _ _ _ _ _ _ _) as [mu a b d| |]; [|discriminate|discriminate].
  intros K. injection K as <-. unfold solve_at.
  destruct (vhatsq_mu _ _ _) as [vsq ug]. destruct (rhohat_mu _ _ (iWhat_mu _)) as [pr ur0].
  destruct (ehat_mu _ _ _ _ _ _ _ _) as [[sie uf] ue]. cbn [o_status o_e_maxed o_cons source_limits l_fail_floors l_fail_ceilings].
  set (ur := snd _). intros S ->. destruct ur, uf, ug; cbn in *; try discriminate; auto.
Qed.

Lemma species_sum_upd n f s x : species_sum n (upd f s x) = species_sum n f + if (s <? n)%nat then x - f s else 0.
Proof.
  induction n as [|n IH]; [cbn; ring|]. cbn [species_sum]. rewrite IH. unfold upd.
  destruct (Nat.ltb_spec s n), (Nat.ltb_spec s (S n)), (Nat.eqb_spec n s); subst; try lia; lra.
Qed.
Lemma species_sum_ext n f g : (forall s, (s < n)%nat -> f s = g s) -> species_sum n f = species_sum n g.
Proof. induction n as [|n IH]; intros H; [reflexivity|]. cbn. rewrite IH by (intros; apply H; lia). rewrite H by lia. reflexivity. Qed.

Definition clean (l : StepLog) : Prop := l_recovered l = true /\ exists o, l_inv l = Some o /\ o_e_maxed o = false.

Section Exchange.
Variables (mhdB hasye : bool) (eos : EOS) (bulk : R -> R -> R -> R) (kind : ClosureKind) (gamma : mat) (cell : CellGeom).
Variables (fl : R -> R * R) (gmax emax fac : R) (maxi : Z) (tol guess : R).
Let invert := source_invert mhdB hasye eos (source_limits fl gmax emax fac) cell maxi tol guess.
Variables (vp0 junkB : vec) (dE : nat -> R) (dF : nat -> vec).
Let sdet := c_gdet cell.

Lemma step_clean ok s z z' l : species_step true mhdB hasye eos bulk kind gamma cell invert ok vp0 junkB dE dF s z = Some (z', l) -> clean l ->
  ctau (z_cons z') = ctau (z_cons z) - sdet * dE s /\ (forall i, cS (z_cons z') i = cS (z_cons z) i - sdet * dF s i) /\
  cD (z_cons z') = cD (z_cons z) /\ cye (z_cons z') = cye (z_cons z) /\ cB (z_cons z') = cB (z_cons z) /\
  z_E z' = (if ok then upd (z_E z) s (z_E z s + sdet * dE s) else z_E z) /\
  z_F z' = (if ok then upd (z_F z) s (fun i => z_F z s i + sdet * dF s i) else z_F z).
Proof.
  unfold species_step. set (z1 := if ok then add_radiation cell z s (dE s) (dF s) else z).
  assert (C1 : z_cons z1 = z_cons z) by (unfold z1; destruct ok; reflexivity).
  assert (E1 : z_E z1 = if ok then upd (z_E z) s (z_E z s + sdet * dE s) else z_E z) by (unfold z1; destruct ok; reflexivity).
  assert (F1 : z_F z1 = if ok then upd (z_F z) s (fun i => z_F z s i + sdet * dF s i) else z_F z) by (unfold z1; destruct ok; reflexivity).
  clearbody z1. set (z2 := set_cons z1 _).
  destruct (invert (z_cons z2)) as [o|] eqn:I; [|discriminate].
  destruct (o_status o) eqn:St; [|intros K; injection K as <- <-; intros [X _]; discriminate X].
  destruct (recover _ _ _ _ _ _ _) as [[J H]|]; [|intros K; injection K as <- <-; intros [X _]; discriminate X].
  intros K. injection K as <- <-. intros [_ (o' & X & Em)]. cbn [l_inv] in X. injection X as <-.
  destruct (source_invert_cons _ _ _ _ _ _ _ _ _ _ _ _ _ I St Em) as (A1 & A2 & A3 & A4 & A5).
  cbn [set_radprim after_inversion z_cons z_E z_F]. unfold z2 in A1, A2, A3, A4, A5. cbn [set_cons z_cons take_from_fluid cD cS cB ctau cye] in A1, A2, A3, A4, A5.
  rewrite C1 in *. rewrite A1, A2, A3, A4, A5. unfold z2. cbn [set_cons z_E z_F]. rewrite E1, F1.
  unfold sdet. split; [reflexivity|]. split; [reflexivity|]. split; [reflexivity|]. split; [ring|]. split; [reflexivity|]. split; reflexivity.
Qed.

Lemma apply_clean n z z' ls : apply_source true mhdB hasye eos bulk kind gamma cell invert n true vp0 junkB dE dF z = Some (z', ls) -> Forall clean ls ->
  ctau (z_cons z') = ctau (z_cons z) - species_sum n (fun s => sdet * dE s) /\
  (forall i, cS (z_cons z') i = cS (z_cons z) i - species_sum n (fun s => sdet * dF s i)) /\
  cD (z_cons z') = cD (z_cons z) /\ cye (z_cons z') = cye (z_cons z) /\ cB (z_cons z') = cB (z_cons z) /\
  (forall s, z_E z' s = z_E z s + if (s <? n)%nat then sdet * dE s else 0) /\
  (forall s i, z_F z' s i = z_F z s i + if (s <? n)%nat then sdet * dF s i else 0).
Proof.
  revert z' ls. induction n as [|n IH]; intros z' ls.
  - cbn. intros K; injection K as <- <-. intros _. repeat split; intros; lra.
  - cbn [apply_source]. destruct (apply_source _ _ _ _ _ _ _ _ _ n _ _ _ _ _ z) as [[z1 l1]|] eqn:A; [|discriminate].
    destruct (species_step _ _ _ _ _ _ _ _ _ _ _ _ _ _ n z1) as [[z2 x]|] eqn:St; [|discriminate].
    intros K. injection K as <- <-. intros Fc. apply Forall_app in Fc. destruct Fc as [Fl Fx]. inversion Fx as [|? ? cx _]; subst.
    destruct (IH z1 l1 eq_refl Fl) as (B1 & B2 & B3 & B4 & B5 & B6 & B7). destruct (step_clean _ _ _ _ _ St cx) as (C1 & C2 & C3 & C4 & C5 & C6 & C7).
    cbn [species_sum]. repeat split.
    + rewrite C1, B1. ring.
    + intros i. rewrite C2, B2. ring.
    + congruence.
    + congruence.
    + congruence.
    + intros s. rewrite C6. unfold upd. destruct (Nat.eqb_spec s n) as [->|N].
      * rewrite B6. rewrite (proj2 (Nat.ltb_ge n n)) by lia. rewrite (proj2 (Nat.ltb_lt n (S n))) by lia. ring.
      * rewrite B6. destruct (Nat.ltb_spec s n), (Nat.ltb_spec s (S n)); try lia; reflexivity.
    + intros s i. rewrite C7. unfold upd. destruct (Nat.eqb_spec s n) as [->|N].
      * rewrite B7. rewrite (proj2 (Nat.ltb_ge n n)) by lia. rewrite (proj2 (Nat.ltb_lt n (S n))) by lia. ring.
      * rewrite B7. destruct (Nat.ltb_spec s n), (Nat.ltb_spec s (S n)); try lia; reflexivity.
Qed.
End Exchange.

(** Any equation of state, closure, zone geometry, number of species and increments: when
    the source solve succeeded, every inversion succeeded without meeting the energy ceiling
    and every species was recovered, the total energy and momentum of matter and radiation are
    exactly what they were, each species received its increment, and the rest mass, lepton
    number and magnetic field are untouched. *)
Theorem C30_exchange : forall mhdB hasye eos bulk kind gamma cell fl gmax emax fac maxi tol guess vp0 junkB dE dF n z z' ls,
  let invert := source_invert mhdB hasye eos (source_limits fl gmax emax fac) cell maxi tol guess in
  apply_source true mhdB hasye eos bulk kind gamma cell invert n true vp0 junkB dE dF z = Some (z', ls) ->
  Forall (fun l => l_recovered l = true /\ exists o, l_inv l = Some o /\ o_e_maxed o = false) ls ->
  total n (ctau (z_cons z')) (z_E z') = total n (ctau (z_cons z)) (z_E z) /\
  (forall i, total n (cS (z_cons z') i) (fun s => z_F z' s i) = total n (cS (z_cons z) i) (fun s => z_F z s i)) /\
  (forall s, (s < n)%nat -> z_E z' s = z_E z s + c_gdet cell * dE s /\ forall i, z_F z' s i = z_F z s i + c_gdet cell * dF s i) /\
  cD (z_cons z') = cD (z_cons z) /\ cye (z_cons z') = cye (z_cons z) /\ cB (z_cons z') = cB (z_cons z).
Proof.
  intros mhdB hasye eos bulk kind gamma cell fl gmax emax fac maxi tol guess vp0 junkB dE dF n z z' ls invert A Fc.
  destruct (apply_clean _ _ _ _ _ _ _ _ _ _ _ _ _ _ _ _ _ _ _ _ _ _ A Fc) as (B1 & B2 & B3 & B4 & B5 & B6 & B7).
  assert (Sp : forall m f x, (m <= n)%nat -> species_sum m (fun s => f s + if (s <? n)%nat then x s else 0) = species_sum m f + species_sum m x).
  { intros m f x. induction m as [|m IH]; intros Hm; cbn [species_sum]; [ring|]. rewrite IH by lia. rewrite (proj2 (Nat.ltb_lt m n)) by lia. ring. }
  split; [|split; [|split; [|auto]]].
  - unfold total. rewrite B1. rewrite (species_sum_ext n (z_E z') (fun s => z_E z s + if (s <? n)%nat then c_gdet cell * dE s else 0)) by (intros; apply B6).
    rewrite (Sp n (z_E z) (fun s => c_gdet cell * dE s)) by lia. ring.
  - intros i. unfold total. rewrite B2. rewrite (species_sum_ext n (fun s => z_F z' s i) (fun s => z_F z s i + if (s <? n)%nat then c_gdet cell * dF s i else 0)) by (intros; apply B7).
    rewrite (Sp n (fun s => z_F z s i) (fun s => c_gdet cell * dF s i)) by lia. ring.
  - intros s Hs. rewrite B6. rewrite (proj2 (Nat.ltb_lt s n)) by lia. split; [reflexivity|]. intros i. rewrite B7. rewrite (proj2 (Nat.ltb_lt s n)) by lia. reflexivity.
Qed.
Print Assumptions C30_exchange.

(** Radiation only (update_fluid false): the fluid's conserved variables are never touched,
    whatever succeeds or fails. *)
Theorem C30_one_way : forall mhdB hasye eos bulk kind gamma cell invert vp0 junkB dE dF n ok z z' ls,
  apply_source false mhdB hasye eos bulk kind gamma cell invert n ok vp0 junkB dE dF z = Some (z', ls) -> z_cons z' = z_cons z.
Proof.
  intros mhdB hasye eos bulk kind gamma cell invert vp0 junkB dE dF n ok z. induction n as [|n IH]; intros z' ls; cbn [apply_source].
  - intros K; injection K as <- <-; reflexivity.
  - destruct (apply_source _ _ _ _ _ _ _ _ _ n _ _ _ _ _ z) as [[z1 l1]|] eqn:A; [|discriminate].
    unfold species_step. set (y := if ok then add_radiation cell z1 n (dE n) (dF n) else z1).
    assert (C1 : z_cons y = z_cons z) by (rewrite <- (IH z1 l1 eq_refl); unfold y; destruct ok; reflexivity). clearbody y.
    destruct (recover _ _ _ _ _ _ _) as [[J H]|]; intros K; injection K as <- <-; [exact C1|].
    unfold reset. destruct (Prim2Con _ _ _ _ _). exact C1.
Qed.
Print Assumptions C30_one_way.

(** *** what happens when something fails *)
Lemma lorentz_zero gamma : GetLorentzFactor (fun _ => 0) gamma = 1.
Proof. unfold GetLorentzFactor. transitivity (sqrt 1); [f_equal; unfold sum3; ring|apply sqrt_1]. Qed.
Lemma lorentz4_zero g : GetLorentzFactor4 (fun _ => 0) g = 1.
Proof. unfold GetLorentzFactor4. transitivity (sqrt 1); [f_equal; unfold sum3; ring|apply sqrt_1]. Qed.
Lemma rest_closure gamma cell : let c := closure_at gamma cell (fun _ => 0) in
  cW c = 1 /\ cW2 c = 1 /\ (forall i, con_v c i = 0) /\ forall i, cov_v c i = 0.
Proof.
  intros c. assert (V : forall i, cov_v c i = 0) by (intros i; unfold c, closure_at, mkClosure; cbn [cov_v]; unfold lower3Vector, sum3, Rdiv; ring).
  assert (Wc : cW c = 1).
  { unfold c, closure_at, mkClosure. cbn [cW]. rewrite Rmin_left by (unfold lower3Vector, sum3, Rdiv; lra).
    replace (1 - _) with 1 by (unfold lower3Vector, sum3, Rdiv; ring). rewrite sqrt_1. field. }
  split; [exact Wc|]. split; [change (cW2 c) with (cW c * cW c); rewrite Wc; ring|]. split; [|exact V].
  intros i. unfold c, closure_at, mkClosure. cbn [con_v]. unfold Rdiv. ring.
Qed.
Lemma rest_p2c gamma cell J Pi : let c := closure_at gamma cell (fun _ => 0) in
  fst (Prim2Con c energy_conserve J (fun _ => 0) Pi) = J /\ forall i, snd (Prim2Con c energy_conserve J (fun _ => 0) Pi) i = 0.
Proof.
  intros c. destruct (rest_closure gamma cell) as (A & B & C & D). fold c in A, B, C, D. unfold Prim2Con. cbn [fst snd].
  assert (P : vvTilPi c Pi = 0) by (unfold vvTilPi, sum3; rewrite !D; ring).
  assert (Q : forall i, cov_vTilPi c Pi i = 0) by (intros i; unfold cov_vTilPi, lower3Vector, con_vTilPi, sum3; rewrite !D; ring).
  rewrite A, B, P. split; [unfold sum3; rewrite !C; field|]. intros i. rewrite D, Q. ring.
Qed.

(** A species that cannot be recovered after the update has its radiation replaced by the
    floor energy and zero flux, and the fluid by the floor density at rest, whatever they
    held: rest mass, energy and momentum are not conserved. *)
Theorem C30_floor_refuted : forall mhdB hasye eos bulk kind gamma cell invert vp0 junkB dE dF ok s z z' l,
  species_step true mhdB hasye eos bulk kind gamma cell invert ok vp0 junkB dE dF s z = Some (z', l) -> l_recovered l = false ->
  cD (z_cons z') = c_gdet cell * SMALL10 /\ z_rho z' = SMALL10 /\ z_eng z' = SMALL10 /\ (forall i, z_vel z' i = 0) /\
  z_E z' s = c_gdet cell * SMALL1 /\ forall i, z_F z' s i = 0.
Proof.
  intros mhdB hasye eos bulk kind gamma cell invert vp0 junkB dE dF ok s z z' l.
  assert (Rs : forall y Pi, let z' := reset true mhdB hasye eos bulk gamma cell y s Pi junkB in
    cD (z_cons z') = c_gdet cell * SMALL10 /\ z_rho z' = SMALL10 /\ z_eng z' = SMALL10 /\ (forall i, z_vel z' i = 0) /\ z_E z' s = c_gdet cell * SMALL1 /\ forall i, z_F z' s i = 0).
  { intros y Pi. unfold reset. cbn [z_vel reset_fluid]. destruct (rest_p2c gamma cell SMALL1 Pi) as [A B].
    destruct (Prim2Con _ _ _ _ _) as [E F]. cbn [fst snd] in A, B. unfold reset_fluid. cbn [z_cons z_rho z_eng z_vel z_E z_F cD p2c].
    unfold upd. rewrite Nat.eqb_refl. rewrite lorentz4_zero. subst E.
    split; [ring|]. split; [reflexivity|]. split; [reflexivity|]. split; [reflexivity|]. split; [ring|]. intros i. rewrite B. ring. }
  unfold species_step. set (y := set_cons _ _). destruct (invert _) as [o|]; [|discriminate].
  destruct (o_status o).
  - destruct (recover _ _ _ _ _ _ _) as [[J H]|]; intros K; injection K as <- <-; [discriminate|]. intros _. apply Rs.
  - intros K; injection K as <- <-. intros _. apply Rs.
Qed.
Print Assumptions C30_floor_refuted.

(** *** concrete zones: flat space, gas at rest with density 1 and energy t *)
Definition slim : Limits := source_limits (fun _ => (1/100, 1/100)) 10 10 1.
Definition still (t : R) (S : vec) : Cons := {| cD := 1; cS := S; cB := fun _ => 0; ctau := t; cye := 0; csig := fun _ => 0 |}.
Definition sinv : Cons -> option C2POut := source_invert false false gas2 slim flat 0 (1/1000) 2.

Lemma still_rcon t S i : (forall j, S j = 0) -> s_rcon flat (still t S) i = 0.
Proof. intros Z. unfold s_rcon, s_rcov, sum3. cbn [cS cD still]. rewrite !gratio_nz by lra. rewrite !Z. field. Qed.
Lemma still_solve t S : (forall j, S j = 0) -> sinv (still t S) = Some (solve_at true false false gas2 slim flat (still t S) (1/2)).
Proof.
  intros Z. unfold sinv, source_invert, solve. set (c := still t S).
  assert (Us : usable_limits gas2 slim) by (destruct (gas2_usable (1/100) (1/100) 10 10) as [u1 u2 u3 u4 u5 u6]; try lra; constructor; assumption).
  destruct Us as [u1 u2 u3 u4 u5 u6].
  assert (F0 : s_residual true false false gas2 slim flat c 0 < 0) by exact (res0 _ _ _ _ _ _ _ _ eta4_consistent true false false gas2 slim c u1 u2 (fun r h => proj1 (u3 r h)) u5).
  assert (F1 : 0 < s_residual true false false gas2 slim flat c 1) by exact (res1 _ _ _ _ _ _ _ _ eta4_consistent true false false gas2 slim c u1 u2 (fun r h => proj1 (u3 r h)) u5).
  unfold regula_falsi, refine_bracket, check_bracket. num_R.
  assert (Q : s_residual true false false gas2 slim flat c 0 * s_residual true false false gas2 slim flat c 1 < 0) by nra.
  rewrite (Rle_bool_false 2 1) by lra. rewrite andb_false_r. rewrite (Rlt_bool_false 0) by lra. cbn. num_R.
  match goal with |- Some (solve_at _ _ _ _ _ _ _ ?m) = _ => replace m with (1/2) by (field; lra) end. reflexivity.
Qed.
Lemma still_state t S : (forall j, S j = 0) -> 1/100 < t -> exists o, sinv (still t S) = Some o /\ o_status o = c2p_success /\ o_vel o = (fun _ => 0) /\
  o_e_maxed o = Rlt_bool 10 t.
Proof.
  intros Z Ht. eexists. split; [exact (still_solve t S Z)|]. set (c := still t S). set (o := solve_at _ _ _ _ _ _ _ _).
  assert (g1 : 1 <= l_gam_max slim) by (cbn; lra).
  pose proof (hydro_state _ _ _ _ _ _ _ _ eta4_consistent true false false gas2 slim c (1/2) ltac:(lra) g1 eq_refl) as K. cbv zeta in K. fold flat in K. fold o in K.
  assert (R2 : dot3 delta (s_rcon flat c) (s_rcon flat c) = 0) by (unfold dot3, sum3; unfold c; rewrite !still_rcon by exact Z; ring).
  assert (V0 : s_v0sq slim flat c = 0).
  { pose proof (v0_eq _ _ _ _ _ _ _ _ eta4_consistent slim c) as Kv. fold flat in Kv. rewrite Kv, R2. cbn. rewrite Rmin_left; lra. }
  assert (D1 : s_D flat c = 1) by (unfold s_D, c; cbn; field).
  assert (Q1 : s_q true flat c = t) by (unfold s_q, s_tau; rewrite D1, gratio_nz by lra; unfold c; cbn; field).
  rewrite R2, V0, D1, Q1 in K. replace (1 / 2 * (1 / 2) * 0) with 0 in K by ring. rewrite Rmin_left in K by lra.
  replace (1 - 0) with 1 in K by ring. rewrite sqrt_1 in K. destruct K as (K1 & K2 & K3 & K4 & K5 & K6 & K7 & K8 & _).
  assert (et : 1 / 1 * (t - 1 / 2 * 0) + 0 * (1 / 1) * (1 / 1 / (1 + 1 / 1)) = t) by field. rewrite et in K7, K8.
  assert (fl : s_rhoflr slim = 1/100) by (unfold s_rhoflr, slim; cbn; lra).
  assert (ef : forall r, s_efl slim r = 1/100) by (intros r; unfold s_efl, slim; cbn; lra).
  rewrite fl in K6. rewrite ef in K7, K8. rewrite (Rle_bool_false t) in K7, K8 by lra. rewrite (Rle_bool_false (1 * 1)) in K6 by lra. rewrite (Rlt_bool_false 0 0) in K5 by lra.
  split; [|split; [|exact K8]].
  - assert (St : o_status o = if o_rho_floored o || o_e_floored o then c2p_failure else if o_gamma_maxed o then c2p_failure else c2p_success).
    { unfold o, solve_at. destruct (vhatsq_mu _ _ _), (rhohat_mu _ _ (iWhat_mu _)), (ehat_mu _ _ _ _ _ _ _ _) as [[? ?] ?]. reflexivity. }
    rewrite St, K5, K6, K7. reflexivity.
  - apply FunctionalExtensionality.functional_extensionality. intros i. rewrite K3. unfold c. rewrite still_rcon by exact Z. ring.
Qed.

(** radiation in fluid at rest, flat space, Eddington closure: recovered iff |F| < E *)
Lemma rest_raw E (F : vec) : let c := closure_at delta flat (fun _ => 0) in
  fst (c2p_raw c energy_conserve E F (fun _ _ => 0)) = E /\ forall i, snd (c2p_raw c energy_conserve E F (fun _ _ => 0)) i = F i.
Proof.
  intros c. destruct (rest_closure delta flat) as (A & B & C & D). fold c in A, B, C, D.
  assert (P : vvTilPi c (fun _ _ => 0) = 0) by (unfold vvTilPi, sum3; rewrite !D; ring).
  assert (Q : forall i, cov_vTilPi c (fun _ _ => 0) i = 0) by (intros i; unfold cov_vTilPi, lower3Vector, con_vTilPi, sum3; ring).
  assert (V : sum3 (fun i => con_v c i * F i) = 0) by (unfold sum3; rewrite !C; ring).
  unfold c2p_raw, c2p_lam, c2p_energy. rewrite A, B, P, V, !gratio_nz by lra. cbn [fst snd]. split; [field|]. intros i. rewrite D, Q. field.
Qed.
Lemma rest_flux (H : vec) : let c := closure_at delta flat (fun _ => 0) in flux_sq c H = H 0%nat * H 0%nat + H 1%nat * H 1%nat + H 2%nat * H 2%nat.
Proof.
  intros c. destruct (rest_closure delta flat) as (A & B & C & D). fold c in A, B, C, D.
  unfold flux_sq, contractConCov3Vectors, contractCov3Vectors, sum3. rewrite !C.
  assert (G : forall i j, (i < 3)%nat -> (j < 3)%nat -> con_gamma c i j = delta i j) by (intros i j Hi Hj; exact (con_gamma_gi _ _ _ _ _ _ _ _ eta4_consistent i j Hi Hj)).
  rewrite !G by lia. unfold delta. cbn [Nat.eqb]. ring.
Qed.
Lemma rest_recover s E (F : vec) : 0 < E -> let q := F 0%nat * F 0%nat + F 1%nat * F 1%nat + F 2%nat * F 2%nat in
  (q < E * E -> exists J H, recover kind_eddington delta flat (fun _ => 0) s E F = Some (J, H)) /\
  (E * E <= q -> recover kind_eddington delta flat (fun _ => 0) s E F = None).
Proof.
  intros Ep q. unfold recover. cbn [recovery_Pi]. set (c := closure_at delta flat (fun _ => 0)).
  destruct (rest_raw E F) as [J0 H0]. fold c in J0, H0. unfold Con2Prim.
  destruct (c2p_raw c energy_conserve E F (fun _ _ => 0)) as [J H]. cbn [fst snd] in J0, H0. subst J.
  assert (FX : flux_sq c H = q) by (pose proof (rest_flux H) as K; cbv zeta in K; fold c in K; rewrite K; unfold q; rewrite !H0; reflexivity).
  assert (q0 : 0 <= q) by (unfold q; nra).
  assert (XD : xi_defined c E H = true) by (unfold xi_defined; rewrite FX, Rle_bool_true by exact q0; rewrite Req_bool_false by lra; reflexivity).
  rewrite XD. cbn [negb]. unfold flux_xi. rewrite FX. rewrite (Rlt_bool_false E 0) by lra. cbn [orb].
  pose proof (sqrt_pos q) as sp. pose proof (sqrt_sqrt q q0) as ss. split; intros Hq.
  - rewrite Rle_bool_false. 2:{ apply (Rmult_lt_reg_r E); [lra|]. unfold Rdiv. rewrite Rmult_assoc, Rinv_l by lra. nra. }
    eexists; eexists; reflexivity.
  - rewrite Rle_bool_true. 2:{ apply (Rmult_le_reg_r E); [lra|]. unfold Rdiv. rewrite Rmult_assoc, Rinv_l by lra. nra. }
    change (robust_c2p c) with false. reflexivity.
Qed.

Definition zone0 (t E : R) (F : vec) : Zone := mkZone (still t (fun _ => 0)) 1 t (fun _ => 0) (1/2) (fun _ => 0) (fun _ => E) (fun _ => F) (fun _ => E) (fun _ => F).
Lemma zone_step (ok : bool) (t E : R) (F : vec) (e : R) : let z := zone0 t E F in let dE := fun _ : nat => e in let dF : nat -> vec := fun _ _ => 0 in
  1/100 < t - e -> 0 < (if ok then E + e else E) ->
  (F 0%nat * F 0%nat + F 1%nat * F 1%nat + F 2%nat * F 2%nat < (if ok then E + e else E) * (if ok then E + e else E) ->
   exists z' o, species_step true false false gas2 (fun _ _ _ => 1) kind_eddington delta flat sinv ok (fun _ => 0) (fun _ => 0) dE dF 0 z = Some (z', {| l_inv := Some o; l_recovered := true |}) /\
     o_e_maxed o = Rlt_bool 10 (t - e) /\ z_cons z' = o_cons o /\ z_E z' 0%nat = if ok then E + e else E) /\
  ((if ok then E + e else E) * (if ok then E + e else E) <= F 0%nat * F 0%nat + F 1%nat * F 1%nat + F 2%nat * F 2%nat ->
   exists z' o, species_step true false false gas2 (fun _ _ _ => 1) kind_eddington delta flat sinv ok (fun _ => 0) (fun _ => 0) dE dF 0 z = Some (z', {| l_inv := Some o; l_recovered := false |})).
Proof.
  intros z dE dF Ht HE. set (e1 := if ok then E + e else E) in *.
  unfold species_step. set (z1 := if ok then add_radiation flat z 0 (dE 0%nat) (dF 0%nat) else z).
  assert (C1 : z_cons z1 = still t (fun _ => 0)) by (unfold z1; destruct ok; reflexivity).
  assert (E1 : z_E z1 0%nat = e1) by (unfold z1, e1; destruct ok; cbn [add_radiation z zone0 z_E flat c_gdet]; unfold upd, dE; cbn [Nat.eqb]; [ring|reflexivity]).
  assert (F1 : forall i, z_F z1 0%nat i = F i) by (intros i; unfold z1; destruct ok; cbn [add_radiation z zone0 z_F flat c_gdet]; unfold upd, dF; cbn [Nat.eqb]; [ring|reflexivity]).
  clearbody z1. set (z2 := set_cons z1 _).
  assert (C2 : z_cons z2 = still (t - e) (fun i => 0 - 1 * 0)).
  { unfold z2. cbn [z_cons set_cons]. rewrite C1. unfold take_from_fluid, still, dE, dF. cbn [cD cS cB ctau cye csig flat c_gdet]. f_equal; try reflexivity; ring. }
  destruct (still_state (t - e) (fun i => 0 - 1 * 0) ltac:(intros; cbv beta; ring) Ht) as (o & I & St & Vo & Em). rewrite C2, I, St.
  cbn [after_inversion z_vel z_E z_F]. rewrite Vo.
  assert (Eq : z_E z1 0%nat / c_gdet flat = e1) by (rewrite E1; cbn; field). rewrite Eq.
  destruct (rest_recover 0 e1 (fun i => z_F z1 0%nat i / c_gdet flat) HE) as [R1 R2]. cbv zeta in R1, R2.
  assert (Fq : forall i, z_F z1 0%nat i / c_gdet flat = F i) by (intros i; rewrite F1; cbn; field). rewrite !Fq in R1, R2.
  split; intros Hq.
  - destruct (R1 Hq) as (J & H & RR). rewrite RR. eexists; exists o. split; [reflexivity|]. split; [exact Em|]. split; [reflexivity|]. exact E1.
  - rewrite (R2 Hq). eexists; exists o. reflexivity.
Qed.

(** The hypotheses of C30_exchange are met: gas at rest gives 1/10 of energy to radiation. *)
Example C30_exchange_nonvacuous : exists z' ls,
  apply_source true false false gas2 (fun _ _ _ => 1) kind_eddington delta flat
    (source_invert false false gas2 (source_limits (fun _ => (1/100, 1/100)) 10 10 1) flat 0 (1/1000) 2) 1 true (fun _ => 0) (fun _ => 0)
    (fun _ => 1/10) (fun _ _ => 0) (zone0 1 1 (fun _ => 0)) = Some (z', ls) /\
  Forall (fun l => l_recovered l = true /\ exists o, l_inv l = Some o /\ o_e_maxed o = false) ls /\
  ctau (z_cons z') = 9/10 /\ z_E z' 0%nat = 11/10.
Proof.
  destruct (proj1 (zone_step true 1 1 (fun _ => 0) (1/10) ltac:(lra) ltac:(lra)) ltac:(lra)) as (z' & o & St & Em & Co & Ez).
  exists z', [{| l_inv := Some o; l_recovered := true |}].
  assert (Ap : apply_source true false false gas2 (fun _ _ _ => 1) kind_eddington delta flat sinv 1 true (fun _ => 0) (fun _ => 0) (fun _ => 1/10) (fun _ _ => 0) (zone0 1 1 (fun _ => 0)) = Some (z', [{| l_inv := Some o; l_recovered := true |}])).
  { cbn [apply_source]. rewrite St. reflexivity. }
  assert (Fc : Forall clean [{| l_inv := Some o; l_recovered := true |}]).
  { constructor; [|constructor]. split; [reflexivity|]. exists o. split; [reflexivity|]. rewrite Em. apply Rlt_bool_false. lra. }
  split; [exact Ap|]. split; [exact Fc|].
  destruct (apply_clean _ _ _ _ _ _ _ _ _ _ _ _ _ _ _ _ _ _ _ _ _ _ Ap Fc) as (B1 & _). rewrite B1, Ez. cbn [species_sum flat c_gdet z_cons zone0 still ctau]. split; lra.
Qed.

(** An unsuccessful solve: the increments are still taken from the fluid, but not given to
    the radiation.  When the temperature equation has no solution in the brackets and no
    repair strategy is chosen, these increments are whatever the uninitialised local
    variables dE, cov_dF held. *)
Theorem C30_unsuccessful_refuted :
  (forall c sp f maxi T0 tol dt amax Es Fs Pi jE jF, snd (interaction_T f maxi T0 tol) = failure ->
     let r := oned c sp f maxi T0 tol dt amax fix_none Es Fs Pi jE jF in od_ok r = false /\ od_dE r = jE /\ od_dF r = jF) /\
  (forall mhdB hasye eos bulk kind gamma cell fl gmax emax fac maxi tol guess vp0 junkB dE dF z z' l,
     species_step true mhdB hasye eos bulk kind gamma cell (source_invert mhdB hasye eos (source_limits fl gmax emax fac) cell maxi tol guess) false vp0 junkB dE dF 0 z = Some (z', l) ->
     l_recovered l = true -> (exists o, l_inv l = Some o /\ o_e_maxed o = false) ->
     total 1 (ctau (z_cons z')) (z_E z') = total 1 (ctau (z_cons z)) (z_E z) - c_gdet cell * dE 0%nat) /\
  exists z z' l, species_step true false false gas2 (fun _ _ _ => 1) kind_eddington delta flat sinv false (fun _ => 0) (fun _ => 0) (fun _ => 1/2) (fun _ _ => 0) 0 z = Some (z', l) /\
     l_recovered l = true /\ total 1 (ctau (z_cons z)) (z_E z) = 2 /\ total 1 (ctau (z_cons z')) (z_E z') = 3/2.
Proof.
  split; [|split].
  - intros c sp f maxi T0 tol dt amax Es Fs Pi jE jF Hf. unfold oned. destruct (interaction_T f maxi T0 tol) as [T1 st]. cbn [snd] in Hf. subst st. cbn. auto.
  - intros mhdB hasye eos bulk kind gamma cell fl gmax emax fac maxi tol guess vp0 junkB dE dF z z' l St Rc Em.
    destruct (step_clean _ _ _ _ _ _ _ _ _ _ _ _ _ _ _ _ _ _ _ _ _ _ _ St (conj Rc Em)) as (C1 & _ & _ & _ & _ & C6 & _).
    unfold total. rewrite C1, C6. cbn [species_sum]. ring.
  - destruct (proj1 (zone_step false 1 1 (fun _ => 0) (1/2) ltac:(lra) ltac:(lra)) ltac:(lra)) as (z' & o & St & Em & Co & Ez).
    exists (zone0 1 1 (fun _ => 0)), z', {| l_inv := Some o; l_recovered := true |}. split; [exact St|]. split; [reflexivity|]. split; [unfold total; cbn [species_sum z_cons zone0 still ctau z_E]; lra|].
    assert (Cl : clean {| l_inv := Some o; l_recovered := true |}) by (split; [reflexivity|]; exists o; split; [reflexivity|]; rewrite Em; apply Rlt_bool_false; lra).
    destruct (step_clean _ _ _ _ _ _ _ _ _ _ _ _ _ _ _ _ _ _ _ _ _ _ _ St Cl) as (C1 & _). unfold total. rewrite C1. cbn [species_sum flat c_gdet z_cons zone0 still ctau]. rewrite Ez. lra.
Qed.
Print Assumptions C30_unsuccessful_refuted.

(** The hypothesis of C30_floor_refuted is met: a flux larger than the energy density. *)
Example C30_floor_nonvacuous : exists z z' l, species_step true false false gas2 (fun _ _ _ => 1) kind_eddington delta flat sinv true (fun _ => 0) (fun _ => 0) (fun _ => 0) (fun _ _ => 0) 0 z = Some (z', l) /\
  l_recovered l = false /\ cD (z_cons z) = 1 /\ cD (z_cons z') < 1.
Proof.
  destruct (proj2 (zone_step true 1 1 (v3 1 0 0) 0 ltac:(lra) ltac:(lra)) ltac:(cbn; lra)) as (z' & o & St).
  exists (zone0 1 1 (v3 1 0 0)), z', {| l_inv := Some o; l_recovered := false |}. split; [exact St|]. split; [reflexivity|]. split; [reflexivity|].
  destruct (C30_floor_refuted _ _ _ _ _ _ _ _ _ _ _ _ _ _ _ _ _ St eq_refl) as [K _]. rewrite K. cbn [flat c_gdet]. unfold SMALL10.
  apply (Rmult_lt_reg_r (IZR (2 ^ 1022))); [apply IZR_lt; reflexivity|]. unfold Rdiv. rewrite Rmult_1_l, Rmult_assoc, Rinv_l by (apply not_0_IZR; discriminate).
  rewrite Rmult_1_r, Rmult_1_l. apply IZR_lt. reflexivity.
Qed.

(** The energy ceiling of the fluid inversion is not reported as a failure: the fluid energy
    is cut down to the ceiling, nobody receives the difference, and everything succeeds. *)
Theorem C30_energy_ceiling_refuted : exists z z' l o,
  species_step true false false gas2 (fun _ _ _ => 1) kind_eddington delta flat sinv true (fun _ => 0) (fun _ => 0) (fun _ => 0) (fun _ _ => 0) 0 z = Some (z', l) /\
  l_recovered l = true /\ l_inv l = Some o /\ o_status o = c2p_success /\
  total 1 (ctau (z_cons z)) (z_E z) = 21 /\ total 1 (ctau (z_cons z')) (z_E z') = 11.
Proof.
  destruct (proj1 (zone_step true 20 1 (fun _ => 0) 0 ltac:(lra) ltac:(lra)) ltac:(lra)) as (z' & o & St & Em & Co & Ez).
  exists (zone0 20 1 (fun _ => 0)), z', {| l_inv := Some o; l_recovered := true |}, o. split; [exact St|]. split; [reflexivity|]. split; [reflexivity|].
  assert (I : sinv (still (20 - 0) (fun _ => 0 - 1 * 0)) = Some o).
  { revert St. unfold species_step. cbn [add_radiation z_cons zone0 set_cons].
    replace (take_from_fluid flat (still 20 (fun _ => 0)) 0 (fun _ => 0)) with (still (20 - 0) (fun _ : nat => 0 - 1 * 0)).
    2:{ unfold take_from_fluid, still. cbn [cD cS cB ctau cye csig flat c_gdet]. f_equal; try reflexivity; ring. }
    destruct (sinv _) as [o'|]; [|discriminate]. destruct (o_status o'); [|discriminate].
    destruct (recover _ _ _ _ _ _ _) as [[J H]|]; [|discriminate]. intros K. injection K as _ <-. reflexivity. }
  assert (Zs : forall j : nat, (fun _ : nat => 0 - 1 * 0) j = 0) by (intros; cbv beta; ring).
  rewrite (still_solve _ _ Zs) in I. injection I as I.
  set (c := still (20 - 0) (fun _ => 0 - 1 * 0)) in *.
  destruct (still_state (20 - 0) (fun _ => 0 - 1 * 0) ltac:(intros; cbv beta; ring) ltac:(lra)) as (o2 & I2 & So & Vo & _).
  rewrite (still_solve _ _ Zs) in I2. injection I2 as I2. fold c in I2. rewrite I in I2. rewrite <- I2 in So, Vo. clear o2 I2.
  split; [exact So|]. split; [unfold total; cbn [species_sum z_cons zone0 still ctau z_E]; lra|].
  assert (g1 : 1 <= l_gam_max slim) by (cbn; lra).
  pose proof (hydro_state _ _ _ _ _ _ _ _ eta4_consistent true false false gas2 slim c (1/2) ltac:(lra) g1 eq_refl) as K. cbv zeta in K. fold flat in K. rewrite I in K.
  assert (R2 : dot3 delta (s_rcon flat c) (s_rcon flat c) = 0) by (unfold dot3, sum3; unfold c; rewrite !still_rcon by (intros; cbv beta; ring); ring).
  assert (V0 : s_v0sq slim flat c = 0).
  { pose proof (v0_eq _ _ _ _ _ _ _ _ eta4_consistent slim c) as Kv. fold flat in Kv. rewrite Kv, R2. cbn. rewrite Rmin_left; lra. }
  assert (D1 : s_D flat c = 1) by (unfold s_D, c; cbn; field).
  assert (Q1 : s_q true flat c = 20) by (unfold s_q, s_tau; rewrite D1, gratio_nz by lra; unfold c; cbn; field).
  rewrite R2, V0, D1, Q1 in K. replace (1 / 2 * (1 / 2) * 0) with 0 in K by ring. rewrite Rmin_left in K by lra.
  replace (1 - 0) with 1 in K by ring. rewrite sqrt_1 in K. destruct K as (K1 & K2 & _).
  assert (et : 1 / 1 * (20 - 1 / 2 * 0) + 0 * (1 / 1) * (1 / 1 / (1 + 1 / 1)) = 20) by field. rewrite et in K2.
  assert (fl : s_rhoflr slim = 1/100) by (unfold s_rhoflr, slim; cbn; lra).
  assert (ef : forall r, s_efl slim r = 1/100) by (intros r; unfold s_efl, slim; cbn; lra).
  rewrite fl in K1, K2. rewrite Rmax_left in K1, K2 by lra. rewrite ef in K2. rewrite (Rle_bool_false 20) in K2 by lra.
  assert (lm : l_e_max slim = 10) by reflexivity. rewrite lm in K2. rewrite (Rlt_bool_true 10 20) in K2 by lra.
  assert (Cq : ctau (o_cons o) = o_eng o).
  { assert (Cn : o_e_maxed o = true -> exists ye p gm, ctau (o_cons o) = ctau (p2c true (o_rho o) (o_vel o) (fun _ => 0) (o_eng o) ye p gm eta4 delta zero3 1 1)).
    { rewrite <- I. unfold solve_at. destruct (vhatsq_mu _ _ _) as [? ug]. destruct (rhohat_mu _ _ (iWhat_mu _)) as [? ur].
      destruct (ehat_mu _ _ _ _ _ _ _ _) as [[? uf] ue]. cbn [o_e_maxed o_cons o_rho o_vel o_eng]. intros ->. rewrite orb_true_r. cbn [orb ctau]. eexists; eexists; eexists. reflexivity. }
    destruct (Cn ltac:(rewrite Em; apply Rlt_bool_true; lra)) as (ye & p & gm & ->). rewrite Vo.
    cbn [p2c ctau]. rewrite lorentz4_zero. unfold sum3. field. }
  unfold total. cbn [species_sum]. rewrite Co, Cq, K2, Ez. lra.
Qed.
Print Assumptions C30_energy_ceiling_refuted.

(** *** the equilibrium temperature of the oned solver *)
(** the matter energy and the comoving radiation energies after the step, at matter
    temperature T, add up to what was there before *)
Definition balanced (eu : R -> R) (ug0 dtau amax : R) (l : list (Species * R)) (T : R) : Prop :=
  exists Js, Forall2 (fun p J => relaxed dtau (Rmin (op_abs (fst p) T) amax) (op_JBB (fst p) T) (snd p) J) l Js /\
    eu T + list_sum Js = ug0 + list_sum (map snd l).
Lemma cont_ext (f g : R -> R) x : (forall y, f y = g y) -> continuity_pt f x -> continuity_pt g x.
Proof. intros E C. rewrite <- (FunctionalExtensionality.functional_extensionality f g E). exact C. Qed.
Lemma fold_left_sum {A} (h : A -> R) l : forall a, fold_left (fun acc p => acc + h p) l a = a + list_sum (map h l).
Proof. induction l as [|p l IH]; intros a; cbn; [ring|]. rewrite IH. unfold list_sum. ring. Qed.
Lemma list_sum_minus {A} (h k : A -> R) l : list_sum (map (fun p => h p - k p) l) = list_sum (map h l) - list_sum (map k l).
Proof. unfold list_sum. induction l as [|p l IH]; cbn [map fold_right]; [ring|]. rewrite IH. ring. Qed.
Section Temp.
Variables (eu : R -> R) (ug0 dtau amax : R) (l : list (Species * R)).
Hypothesis Hd : 0 <= dtau.
Hypothesis Ha : 0 <= amax.
Hypothesis Hk : forall p T, In p l -> 0 < T -> 0 <= op_abs (fst p) T.
Hypothesis Hn : ug0 + list_sum (map snd l) <> 0.
Hypothesis Ce : forall T, 0 < T -> continuity_pt eu T.
Hypothesis Ck : forall p T, In p l -> 0 < T -> continuity_pt (op_abs (fst p)) T.
Hypothesis CB : forall p T, In p l -> 0 < T -> continuity_pt (op_JBB (fst p)) T.
Lemma den_pos p T : In p l -> 0 < T -> 0 < 1 + dtau * Rmin (op_abs (fst p) T) amax.
Proof. intros Hp Ht. assert (0 <= Rmin (op_abs (fst p) T) amax) by (apply Rmin_glb; [apply Hk; assumption|exact Ha]). nra. Qed.
Lemma residual_val T : InteractionTResidual eu ug0 dtau amax l T =
  ((eu T - ug0) + (list_sum (map (fun p => comoving_J1 (fst p) dtau amax (snd p) T) l) - list_sum (map snd l))) / (ug0 + list_sum (map snd l)).
Proof. unfold InteractionTResidual. rewrite !(fold_left_sum (fun p : Species * R => _)). rewrite list_sum_minus. rewrite !Rplus_0_l. reflexivity. Qed.
Lemma residual_balanced T : 0 < T -> InteractionTResidual eu ug0 dtau amax l T = 0 <-> balanced eu ug0 dtau amax l T.
Proof.
  intros Ht. rewrite residual_val.
  assert (Fj : forall Js, Forall2 (fun p J => relaxed dtau (Rmin (op_abs (fst p) T) amax) (op_JBB (fst p) T) (snd p) J) l Js <-> Js = map (fun p => comoving_J1 (fst p) dtau amax (snd p) T) l).
  { pose proof (fun p H => den_pos p T H Ht) as Dp. clear Hk Hn Ck CB. induction l as [|p l' IH]; intros Js.
    - split; intros K; [inversion K; reflexivity|subst; constructor].
    - assert (E : forall J, relaxed dtau (Rmin (op_abs (fst p) T) amax) (op_JBB (fst p) T) (snd p) J <-> J = comoving_J1 (fst p) dtau amax (snd p) T).
      { pose proof (Dp p (or_introl eq_refl)) as D. intros J. unfold relaxed, comoving_J1. split.
        - intros K. apply (Rmult_eq_reg_r (1 + dtau * Rmin (op_abs (fst p) T) amax)); [|lra]. unfold Rdiv. rewrite Rmult_assoc, Rinv_l by lra. lra.
        - intros ->. field. lra. }
      split.
      + intros K. inversion K; subst. cbn [map]. f_equal; [apply E; assumption|]. apply IH; [|assumption]. intros q Hq. apply Dp. right. exact Hq.
      + intros ->. cbn [map]. constructor; [apply E; reflexivity|]. apply IH; [|reflexivity]. intros q Hq. apply Dp. right. exact Hq. }
  split.
  - intros K. exists (map (fun p => comoving_J1 (fst p) dtau amax (snd p) T) l). split; [apply Fj; reflexivity|].
    apply (f_equal (fun r => r * (ug0 + list_sum (map snd l)))) in K. unfold Rdiv in K. rewrite Rmult_assoc, Rinv_l in K by exact Hn. lra.
  - intros (Js & F2 & Bal). apply Fj in F2. subst Js.
    replace (eu T - ug0 + _) with 0 by lra. unfold Rdiv. ring.
Qed.
Lemma Rmin_cont f a T : continuity_pt f T -> continuity_pt (fun x => Rmin (f x) a) T.
Proof.
  intros C. apply (cont_ext (fun x => (f x + a - Rabs (f x - a)) / 2)).
  { intros x. unfold Rmin, Rabs. destruct (Rle_dec (f x) a), (Rcase_abs (f x - a)); try lra. }
  assert (C2 : continuity_pt (fun x => f x - a) T) by (apply continuity_pt_minus; [exact C|apply continuity_pt_const; intros ? ?; reflexivity]).
  apply continuity_pt_mult; [|apply continuity_pt_const; intros ? ?; reflexivity].
  apply continuity_pt_minus; [apply continuity_pt_plus; [exact C|apply continuity_pt_const; intros ? ?; reflexivity]|].
  apply (continuity_pt_comp (fun x => f x - a) Rabs); [exact C2|apply Rcontinuity_abs].
Qed.
Lemma residual_cont T : 0 < T -> continuity_pt (InteractionTResidual eu ug0 dtau amax l) T.
Proof.
  intros Ht. assert (Cc : forall a : R, continuity_pt (fun _ => a) T) by (intros a; apply continuity_pt_const; intros ? ?; reflexivity).
  apply (cont_ext (fun T => ((eu T - ug0) + (list_sum (map (fun p => comoving_J1 (fst p) dtau amax (snd p) T) l) - list_sum (map snd l))) * / (ug0 + list_sum (map snd l)))).
  { intros x. rewrite residual_val. reflexivity. }
  apply continuity_pt_mult; [|apply Cc]. apply continuity_pt_plus; [apply continuity_pt_minus; [apply Ce, Ht|apply Cc]|].
  apply continuity_pt_minus; [|apply Cc].
  assert (Cj : forall p, In p l -> continuity_pt (fun T => comoving_J1 (fst p) dtau amax (snd p) T) T).
  { intros p Hp. unfold comoving_J1. pose proof (den_pos p T Hp Ht) as Dp. assert (Cm : continuity_pt (fun T => Rmin (op_abs (fst p) T) amax) T) by (apply Rmin_cont, Ck; assumption).
    apply continuity_pt_div; [| |lra].
    - apply continuity_pt_plus; [apply Cc|]. apply continuity_pt_mult; [apply continuity_pt_mult; [apply Cc|exact Cm]|apply CB; assumption].
    - apply continuity_pt_plus; [apply Cc|]. apply continuity_pt_mult; [apply Cc|exact Cm]. }
  clear Hk Hn Ck CB. induction l as [|p l' IH]; [exact (Cc 0)|].
  unfold list_sum. cbn [map fold_right]. apply continuity_pt_plus; [apply Cj; left; reflexivity|].
  apply IH. intros q Hq. apply Cj. right. exact Hq.
Qed.
End Temp.

Lemma regula_count f rf a b tol guess x st rf' tr : (iteration_count rf <= max_iter rf)%Z ->
  regula_falsi (T := R) f rf a b tol guess true = Returned x st rf' tr -> (iteration_count rf' <= max_iter rf')%Z.
Proof.
  intros Hc. unfold regula_falsi. destruct (refine_bracket f guess a b) as [[[[a1 b1] ya] yb] tr1]. destruct (negb _).
  - intros K. injection K as _ _ <- _. exact Hc.
  - destruct (regula_loop _ _ _ _ _ _ _ _ _ _ _ _) as [[[a2 b2] cnt] tr2] eqn:L. intros K. injection K as _ _ <- _. cbn [iteration_count max_iter].
    apply regula_loop_count in L. unfold budget in L. lia.
Qed.

(** Any equation of state, opacities, thermal spectra (continuous in the temperature), any
    number of species: if there is at most one balanced temperature, a successful temperature
    solve -- first bracket or any retry -- is within tol * T0 of it, so that matter and
    radiation together neither gain nor lose energy in the rest frame of the matter. *)
Theorem C30_temperature : forall eu ug0 dtau amax l maxi T0 tol T1,
  0 <= dtau -> 0 <= amax -> 0 < T0 -> 0 <= tol -> (0 <= maxi)%Z ->
  ug0 + list_sum (map snd l) <> 0 ->
  (forall p T, In p l -> 0 < T -> 0 <= op_abs (fst p) T) ->
  (forall T, 0 < T -> continuity_pt eu T) ->
  (forall p T, In p l -> 0 < T -> continuity_pt (op_abs (fst p)) T) ->
  (forall p T, In p l -> 0 < T -> continuity_pt (op_JBB (fst p)) T) ->
  (forall T T', 0 < T -> 0 < T' -> balanced eu ug0 dtau amax l T -> balanced eu ug0 dtau amax l T' -> T = T') ->
  interaction_T (InteractionTResidual eu ug0 dtau amax l) maxi T0 tol = (T1, success) ->
  exists T, 0 < T /\ balanced eu ug0 dtau amax l T /\ Rabs (T1 - T) <= tol * T0.
Proof.
  intros eu ug0 dtau amax l maxi T0 tol T1 Hd Ha Ht Htol Hm Hn Hk Ce Ck CB Un.
  set (f := InteractionTResidual eu ug0 dtau amax l).
  assert (Snd : forall rf a b x rf' tr, 0 < a -> a < b -> T0 < b -> (iteration_count rf <= max_iter rf)%Z ->
    regula_falsi f rf a b (tol * T0) T0 true = Returned x (Some success) rf' tr -> exists T, 0 < T /\ balanced eu ug0 dtau amax l T /\ Rabs (x - T) <= tol * T0).
  { intros rf a b x rf' tr Pa Pab Pb Hc K.
    assert (Zu : forall x y, 0 < x -> 0 < y -> f x = 0 -> f y = 0 -> x = y).
    { intros p q Hp Hq F1 F2. apply Un; [exact Hp|exact Hq| |]; apply (residual_balanced eu ug0 dtau amax l Hd Ha Hk Hn); assumption. }
    assert (N1 : ~ (f a = 0 /\ f b = 0)) by (intros [F1 F2]; pose proof (Zu a b Pa ltac:(lra) F1 F2); lra).
    assert (N2 : ~ (f T0 = 0 /\ f b = 0)) by (intros [F1 F2]; pose proof (Zu T0 b Ht ltac:(lra) F1 F2); lra).
    assert (Ct : continuous_on f a b) by (intros y [Hy _]; apply (residual_cont eu ug0 dtau amax l Hd Ha Hk Ce Ck CB); lra).
    destruct (regula_falsi_sound f rf a b (tol * T0) T0 x rf' tr ltac:(nra) ltac:(lra) Hc Ct N1 N2 K) as (_ & (r & [Hr _] & Fr & Dr) & _).
    exists r. split; [lra|]. split; [|exact Dr]. apply (residual_balanced eu ug0 dtau amax l Hd Ha Hk Hn); [lra|exact Fr]. }
  assert (Rb : forall k fac rf T', 1 <= fac -> (iteration_count rf <= max_iter rf)%Z -> rebracket f T0 tol k fac rf T' = (T1, success) ->
    exists T, 0 < T /\ balanced eu ug0 dtau amax l T /\ Rabs (T1 - T) <= tol * T0).
  { induction k as [|k IH]; intros fac rf T' Hf Hc; cbn [rebracket]; [discriminate|].
    assert (Pa : 0 < 1 / 10 / fac * T0) by (apply Rmult_lt_0_compat; [apply Rdiv_lt_0_compat; lra|exact Ht]).
    assert (La : 1 / 10 / fac * T0 <= 1 / 10 * T0).
    { apply Rmult_le_compat_r; [lra|]. unfold Rdiv. rewrite <- (Rmult_1_r (1 * / 10)) at 2. apply Rmult_le_compat_l; [lra|]. rewrite <- Rinv_1. apply Rinv_le_contravar; lra. }
    destruct (regula_falsi _ _ _ _ _ _ _) as [x [[|]|] rf' tr| |] eqn:K; try discriminate.
    - intros E. injection E as ->. apply (Snd rf (1 / 10 / fac * T0) (10 * fac * T0) _ rf' tr Pa ltac:(nra) ltac:(nra) Hc K).
    - apply IH; [lra|]. exact (regula_count _ _ _ _ _ _ _ _ _ _ Hc K).
    - apply IH; [lra|]. exact (regula_count _ _ _ _ _ _ _ _ _ _ Hc K). }
  unfold interaction_T. destruct (regula_falsi _ _ _ _ _ _ _) as [x [[|]|] rf' tr| |] eqn:K; try discriminate.
  - intros E. injection E as ->. apply (Snd (new_RootFind maxi) (1 / 100 * T0) (100 * T0) _ rf' tr ltac:(lra) ltac:(lra) ltac:(lra) Hm K).
  - apply Rb; [lra|]. exact (regula_count _ (new_RootFind maxi) _ _ _ _ _ _ _ _ Hm K).
  - apply Rb; [lra|]. exact (regula_count _ (new_RootFind maxi) _ _ _ _ _ _ _ _ Hm K).
Qed.
Print Assumptions C30_temperature.

Lemma hit_root f k tol sign a b ya yb c b1 b2 cnt tr : 0 <= tol -> 2 * tol < b - a -> (a * yb - b * ya) / (yb - ya) = c -> c <> a -> c <> b -> f c = 0 ->
  regula_loop (T := R) f (S (S k)) tol sign a b ya yb b1 b2 cnt tr = (c, c, (cnt + 1)%Z, tr ++ [c]).
Proof.
  intros Ht L C Na Nb Fc. cbn [regula_loop]. num_R. rewrite C, Fc. rewrite (Rlt_bool_true (2 * tol) (b - a)) by exact L.
  rewrite !(Req_bool_false c) by assumption. rewrite !(Rlt_bool_false 0 (sign * 0)) by lra. rewrite !(Rlt_bool_false (sign * 0) 0) by lra.
  rewrite (Rlt_bool_false (2 * tol) (c - c)) by lra. reflexivity.
Qed.
(** the hypotheses are met with a successful solve: one species, unit opacity, thermal energy
    T, matter energy T, matter energy 1 and radiation energy 1: equilibrium at T = 1, found
    from T0 = 2 *)
Example C30_temperature_nonvacuous : let sp := {| op_abs := fun _ => 1; op_sc := fun _ => 0; op_JBB := fun T => T |} in
  interaction_T (InteractionTResidual (fun T => T) 1 1 10 [(sp, 1)]) 20 2 (1/10) = (1, success) /\
  (forall T, balanced (fun T => T) 1 1 10 [(sp, 1)] T <-> T = 1).
Proof.
  intros sp. assert (Fv : forall T, InteractionTResidual (fun T => T) 1 1 10 [(sp, 1)] T = 3/4 * (T - 1)).
  { intros T. unfold InteractionTResidual, comoving_J1. cbn [fold_left fst snd op_abs op_JBB sp]. rewrite Rmin_left by lra. field. }
  split.
  - unfold interaction_T, regula_falsi, refine_bracket, check_bracket. num_R. rewrite !Fv.
    rewrite (Rle_bool_true (1 / 100 * 2) 2) by lra. rewrite (Rle_bool_true 2 (100 * 2)) by lra. cbn [andb].
    rewrite (Rlt_bool_true 0 (3 / 4 * (2 - 1) * (3 / 4 * (100 * 2 - 1)))) by lra. rewrite (Rlt_bool_false 0 (3 / 4 * (1 / 100 * 2 - 1) * (3 / 4 * (2 - 1)))) by lra. cbn [negb].
    rewrite (Rlt_bool_true (3 / 4 * (1 / 100 * 2 - 1)) 0) by lra. unfold budget. cbn [new_RootFind max_iter iteration_count].
    rewrite (hit_root _ 18 (1 / 10 * 2) 1 (1 / 100 * 2) 2 _ _ 1); [|lra|lra|field|lra|lra|rewrite Fv; ring].
    cbn. num_R. f_equal. field.
  - intros T. split.
    + intros (Js & F2 & B). inversion F2 as [|p J ? ? R F3]; subst. inversion F3; subst. unfold relaxed in R. cbn [fst snd op_abs op_JBB sp] in R. rewrite Rmin_left in R by lra.
      unfold list_sum in B. cbn [map fold_right snd] in B. lra.
    + intros ->. exists [1]. split; [constructor; [|constructor]; unfold relaxed; cbn [fst snd op_abs op_JBB sp]; rewrite Rmin_left by lra; lra|]. unfold list_sum. cbn [map fold_right snd]. lra.
Qed.

(** The retries with wider brackets cannot help once the first attempt has used up its
    iterations: the solver object keeps its iteration count, so every retry fails too,
    whatever the bracket. *)
Theorem C30_retry_refuted : forall f maxi T0 tol x rf tr, (0 <= maxi)%Z ->
  regula_falsi f (new_RootFind maxi) (1 / 100 * T0) (100 * T0) (tol * T0) T0 true = Returned x (Some failure) rf tr -> iteration_count rf = maxi ->
  snd (interaction_T f maxi T0 tol) = failure.
Proof.
  intros f maxi T0 tol x rf tr Hm K Hc. unfold interaction_T. rewrite K.
  assert (Mx : max_iter rf = maxi).
  { revert K. unfold regula_falsi. destruct (refine_bracket f T0 _ _) as [[[[a1 b1] ya] yb] tr1]. destruct (negb _).
    - intros K. injection K as _ <- _. reflexivity.
    - destruct (regula_loop _ _ _ _ _ _ _ _ _ _ _ _) as [[[a2 b2] cnt] tr2]. intros K. injection K as _ _ <- _. reflexivity. }
  assert (G : forall k fac rf T', iteration_count rf = maxi -> max_iter rf = maxi -> snd (rebracket f T0 tol k fac rf T') = failure).
  { induction k as [|k IH]; intros fac rf1 T' C M; cbn [rebracket]; [reflexivity|].
    unfold regula_falsi. destruct (refine_bracket f T0 _ _) as [[[[a1 b1] ya] yb] tr1]. destruct (negb _).
    - apply IH; assumption.
    - unfold budget. rewrite C, M, Z.sub_diag. cbn [Z.to_nat regula_loop]. unfold report, final_status. rewrite Z.eqb_refl. apply IH; reflexivity. }
  apply G; assumption.
Qed.
Print Assumptions C30_retry_refuted.
Example C30_retry_nonvacuous : exists x rf tr,
  regula_falsi (fun T : R => T - 1) (new_RootFind 0) (1 / 100 * 2) (100 * 2) (1/10 * 2) 2 true = Returned x (Some failure) rf tr /\ iteration_count rf = 0%Z.
Proof.
  unfold regula_falsi, refine_bracket, check_bracket. num_R.
  rewrite (Rle_bool_true (1 / 100 * 2) 2) by lra. rewrite (Rle_bool_true 2 (100 * 2)) by lra. cbn [andb].
  rewrite (Rlt_bool_true 0 ((2 - 1) * (100 * 2 - 1))) by lra. rewrite (Rlt_bool_false 0 ((1 / 100 * 2 - 1) * (2 - 1))) by lra. cbn.
  do 3 eexists. split; reflexivity.
Qed.

(** *** the fourd solver *)
Section F4.
Variables (mhd : vec -> vec) (radprim : vec -> vec -> vec * ClosureStatus) (src : vec -> vec -> vec) (fr : vec -> vec -> R) (U0 R0 : vec) (dt eps tol xi_max : R).
Definition is_eval (e : Eval) : Prop := exists P, e = evaluate mhd radprim src U0 R0 P.
Lemma newton_eval e J e' : newton mhd radprim src fr U0 R0 dt xi_max e J = Some e' -> is_eval e'.
Proof.
  unfold newton. destruct (negb _); [intros K; injection K as <-; eexists; reflexivity|].
  destruct (negb _); [discriminate|]. set (e2 := evaluate _ _ _ _ _ _). destruct (e_st e2); try discriminate. intros K; injection K as <-. eexists; reflexivity.
Qed.
Lemma fourd_eval k : forall e e', fourd_loop mhd radprim src fr U0 R0 dt eps tol xi_max k e = Some e' -> is_eval e' /\ error U0 dt e' <= tol.
Proof.
  induction k as [|k IH]; intros e e'; cbn [fourd_loop]; destruct (jacobian _ _ _ _ _ _ _ e); try discriminate; destruct (newton _ _ _ _ _ _ _ _ _ _) as [e1|] eqn:N; try discriminate.
  destruct k as [|k]; [discriminate|]. destruct (Rlt_bool_spec tol (error U0 dt e1)) as [L|L]; [apply IH|].
  intros K; injection K as <-. split; [exact (newton_eval _ _ _ N)|exact L].
Qed.
End F4.
Lemma eval_fields mhd radprim src U0 R0 P : let e := evaluate mhd radprim src U0 R0 P in
  e_P e = P /\ e_U e = mhd P /\ e_R e = (fun n => R0 n - (mhd P n - U0 n)) /\ e_Pr e = fst (radprim P (e_R e)) /\ e_S e = src P (e_Pr e).
Proof. unfold evaluate. destruct (radprim P _) eqn:E. cbn. rewrite E. auto. Qed.

(** Any fluid and radiation primitive maps, any source: a successful fourd solve has found a
    fluid state P such that (i) radiation gains exactly what the fluid loses in going to P,
    in energy and in each momentum component, and (ii) the change of the fluid is the source
    over the step to the requested relative tolerance. *)
Theorem C30_fourd : forall mhd radprim src fr U0 R0 dt eps tol xi_max maxi sdet P0 dE dF,
  sdet <> 0 -> 0 <= tol -> fourd mhd radprim src fr U0 R0 dt eps tol xi_max maxi sdet P0 = Some (dE, dF) ->
  exists P Rr Pr, fst (radprim P Rr) = Pr /\
    Rr 0%nat = R0 0%nat + sdet * dE /\ (forall i, (i < 3)%nat -> Rr (S i) = R0 (S i) + sdet * dF i) /\
    (forall n, (n < 4)%nat -> mhd P n + Rr n = U0 n + R0 n) /\
    forall scale, 10 / IZR (2 ^ 1022) <= scale -> (forall m, (m < 4)%nat -> Rabs (mhd P m) + Rabs (U0 m) + Rabs (dt * src P Pr m) <= scale) ->
    forall n, (n < 4)%nat -> Rabs (mhd P n - U0 n + dt * src P Pr n) <= tol * scale.
Proof.
  intros mhd radprim src fr U0 R0 dt eps tol xi_max maxi sdet P0 dE dF Hs Ht. unfold fourd.
  destruct (fourd_loop _ _ _ _ _ _ _ _ _ _ _ _) as [e|] eqn:L; [|discriminate]. intros K. injection K as <- <-.
  destruct (fourd_eval _ _ _ _ _ _ _ _ _ _ _ _ _ L) as [(P & ->) Er].
  destruct (eval_fields mhd radprim src U0 R0 P) as (F1 & F2 & F3 & F4 & F5). set (e := evaluate mhd radprim src U0 R0 P) in *.
  exists P, (e_R e), (e_Pr e). split; [symmetry; exact F4|]. split; [field; exact Hs|]. split; [intros i _; field; exact Hs|].
  split; [intros n _; rewrite F3; cbv beta; ring|].
  intros scale S0 Sm n Hn.
  assert (Bd : max_divisor U0 dt e <= scale).
  { unfold max_divisor. cbn [fold_left]. rewrite F2, F5. repeat apply Rmax_lub; first [exact S0|apply Sm; lia]. }
  assert (Bp : 0 < max_divisor U0 dt e).
  { apply Rlt_le_trans with (10 / IZR (2 ^ 1022)); [apply Rdiv_lt_0_compat; [lra|apply IZR_lt; reflexivity]|]. unfold max_divisor. cbn [fold_left].
    do 4 (eapply Rle_trans; [|apply Rmax_l]). lra. }
  assert (Er4 : Rabs (resid U0 dt e n) / max_divisor U0 dt e <= tol).
  { revert Er. unfold error. cbn [fold_left]. set (q := fun n => Rabs (resid U0 dt e n) / max_divisor U0 dt e).
    assert (M : forall acc m, acc <= (if Rlt_bool acc (q m) then q m else acc) /\ q m <= (if Rlt_bool acc (q m) then q m else acc)) by (intros acc m; destruct (Rlt_bool_spec acc (q m)); lra).
    set (a0 := 10 / IZR (2 ^ 1022)). change (Rabs (resid U0 dt e 0%nat) / max_divisor U0 dt e) with (q 0%nat). change (Rabs (resid U0 dt e 1%nat) / max_divisor U0 dt e) with (q 1%nat).
    change (Rabs (resid U0 dt e 2%nat) / max_divisor U0 dt e) with (q 2%nat). change (Rabs (resid U0 dt e 3%nat) / max_divisor U0 dt e) with (q 3%nat).
    set (a1 := if Rlt_bool a0 (q 0%nat) then q 0%nat else a0). set (a2 := if Rlt_bool a1 (q 1%nat) then q 1%nat else a1). set (a3 := if Rlt_bool a2 (q 2%nat) then q 2%nat else a2). set (a4 := if Rlt_bool a3 (q 3%nat) then q 3%nat else a3).
    intros Er. pose proof (M a0 0%nat) as M1. fold a1 in M1. pose proof (M a1 1%nat) as M2. fold a2 in M2. pose proof (M a2 2%nat) as M3. fold a3 in M3. pose proof (M a3 3%nat) as M4. fold a4 in M4.
    change (q n <= tol). assert (n = 0 \/ n = 1 \/ n = 2 \/ n = 3)%nat as [->|[->|[->| ->]]] by lia; lra. }
  unfold resid in Er4. rewrite F2, F5 in Er4.
  apply (Rmult_le_compat_r (max_divisor U0 dt e)) in Er4; [|lra]. unfold Rdiv in Er4. rewrite Rmult_assoc, Rinv_l, Rmult_1_r in Er4 by lra. nra.
Qed.
Print Assumptions C30_fourd.

Lemma delta_inv A : (forall i j, (i < 4)%nat -> (j < 4)%nat -> A i j = delta i j) -> forall i j, (i < 4)%nat -> (j < 4)%nat -> matrixInverse4x4 A i j = delta i j.
Proof.
  intros E i j Hi Hj. assert (Dn : det4 A <> 0) by (rewrite (det4_ext A delta E), det4_delta; lra).
  rewrite <- (inverse4_r _ _ (inv4_inverse A Dn) i j Hi Hj). unfold mul4, sum4. rewrite !E by lia.
  assert (j = 0 \/ j = 1 \/ j = 2 \/ j = 3)%nat as [->|[->|[->| ->]]] by lia; unfold delta; cbn [Nat.eqb]; ring.
Qed.
(** a successful fourd solve: fluid energy 5 and momenta 1, a source that takes one unit of
    energy from the fluid *)
Example C30_fourd_nonvacuous : let q : vec := fun n => match n with O => 5 | _ => 1 end in
  exists dE dF, fourd (fun P => P) (fun _ r => (r, Csuccess)) (fun _ _ n => match n with O => 1 | _ => 0 end) (fun _ _ => 0) q q 1 (1/10) (1/10) 1 2 1 q = Some (dE, dF) /\ dE = 1.
Proof.
  intros q. set (mhd := fun P : vec => P). set (rp := fun (_ r : vec) => (r, Csuccess)). set (src := fun (_ _ : vec) (n : nat) => match n with O => 1 | _ => 0 end).
  unfold fourd. cbn [fourd_loop]. set (e0 := evaluate mhd rp src q q q).
  assert (Rs : forall P n, resid q 1 (evaluate mhd rp src q q P) n = P n - q n + src P P n) by (intros P n; unfold resid; cbn; unfold mhd, src; ring).
  set (h := fd_step (1/10) q). assert (hp : forall m, (m < 4)%nat -> 0 < h m).
  { intros m Hm. unfold h, fd_step. eapply Rlt_le_trans; [|apply Rmax_r]. apply Rmult_lt_0_compat; [lra|]. apply Rabs_pos_lt. unfold q. destruct m; lra. }
  assert (Jc : jacobian mhd rp src q q 1 (1/10) e0 = Some (fun n m => (resid q 1 (evaluate mhd rp src q q (bump q m (h m))) n - resid q 1 (evaluate mhd rp src q q (bump q m (- h m))) n) / (bump q m (h m) m - bump q m (- h m) m))) by reflexivity.
  rewrite Jc. set (J := fun n m : nat => _ / _).
  assert (Jd : forall i j, (i < 4)%nat -> (j < 4)%nat -> J i j = delta i j).
  { intros i j Hi Hj. unfold J. rewrite !Rs. unfold bump, delta. rewrite Nat.eqb_refl. pose proof (hp j Hj). unfold src. destruct (Nat.eqb_spec i j) as [->|N]; field; lra. }
  unfold newton. change (e_P e0) with q. set (P1 := fun m : nat => q m - _). change (negb (failed (e_st (evaluate mhd rp src q q P1)))) with true. cbv iota.
  assert (P1v : forall m, (m < 4)%nat -> P1 m = q m - src q q m).
  { intros m Hm. unfold P1. f_equal. unfold e0, sum4. rewrite !Rs. rewrite !(delta_inv J Jd) by lia. unfold delta, src.
    assert (m = 0 \/ m = 1 \/ m = 2 \/ m = 3)%nat as [->|[->|[->| ->]]] by lia; cbn [Nat.eqb]; ring. }
  set (e1 := evaluate mhd rp src q q P1).
  assert (Rz : forall n, (n < 4)%nat -> resid q 1 e1 n = 0) by (intros n Hn; unfold e1; rewrite Rs, P1v by exact Hn; unfold src; ring).
  assert (Er : error q 1 e1 = 10 / IZR (2 ^ 1022)).
  { assert (Zq : forall n, (n < 4)%nat -> Rabs (resid q 1 e1 n) / max_divisor q 1 e1 = 0) by (intros n Hn; rewrite (Rz n Hn), Rabs_R0; unfold Rdiv; ring).
    assert (Sp : 0 < 10 / IZR (2 ^ 1022)) by (apply Rdiv_lt_0_compat; [lra|apply IZR_lt; reflexivity]).
    unfold error. cbn [fold_left]. rewrite !Zq by lia. rewrite !(Rlt_bool_false (10 / IZR (2 ^ 1022)) 0) by lra. reflexivity. }
  rewrite Er. rewrite Rlt_bool_false.
  2:{ apply (Rmult_le_reg_r (IZR (2 ^ 1022))); [apply IZR_lt; reflexivity|]. unfold Rdiv. rewrite Rmult_assoc, Rinv_l by (apply not_0_IZR; discriminate).
      apply Rle_trans with (1 * / 10 * 1000); [lra|]. apply Rmult_le_compat_l; [lra|]. apply IZR_le. discriminate. }
  do 2 eexists. split; [reflexivity|]. change (e_R e1 0%nat) with (q 0%nat - (P1 0%nat - q 0%nat)). rewrite P1v by lia. unfold src, q. field.
Qed.

(** "Try reducing the step size so xi < ximax, ug > 0, J > 0" never happens: from any iterate with
    energies above the built-in minimum, a Newton guess the closure rejects ends the solve - the scaling
    factor is then below one, and factors below one are taken for an error. *)
Theorem C30_rescue_refuted : forall mhd radprim src fr U0 R0 dt xi_max e J, 0 <= xi_max ->
  1000 / IZR (2 ^ 1022) <= e_P e 0%nat -> 1000 / IZR (2 ^ 1022) <= e_Pr e 0%nat ->
  e_st (evaluate mhd radprim src U0 R0 (fun m => e_P e m - sum4 (fun n => matrixInverse4x4 J m n * resid U0 dt e n))) = Cfailure ->
  newton mhd radprim src fr U0 R0 dt xi_max e J = None.
Proof.
  intros mhd radprim src fr U0 R0 dt xi_max e J Hx HP HJ Hf. unfold newton. rewrite Hf. cbn [failed negb].
  set (e1 := evaluate mhd radprim src U0 R0 _). set (xi := fr (e_P e1) (e_Pr e1)). unfold SMALL100. set (m := 1000 / IZR (2 ^ 1022)) in *. clearbody m.
  assert (Fr : forall a b : R, m <= a -> b < m -> (a - m) / (a - b) < 1).
  { intros a b Ha Hb. apply (Rmult_lt_reg_r (a - b)); [lra|]. unfold Rdiv. rewrite Rmult_assoc, Rinv_l by lra. lra. }
  set (s1 := if Rlt_bool xi_max xi then _ else _).
  assert (S1 : s1 < 1).
  { unfold s1. destruct (Rlt_bool_spec xi_max xi) as [L|L]; [|lra]. apply Rmax_lub_lt; [lra|].
    apply (Rmult_lt_reg_r xi); [lra|]. unfold Rdiv. rewrite Rmult_assoc, Rinv_l by lra. lra. }
  set (s2 := if Rlt_bool (e_P e1 0%nat) m then _ else s1).
  assert (S2 : s2 < 1). { unfold s2. destruct (Rlt_bool_spec (e_P e1 0%nat) m) as [L|L]; [|exact S1]. apply Rmax_lub_lt; [exact S1|]. apply Fr; assumption. }
  set (s3 := if Rlt_bool (e_Pr e1 0%nat) m then _ else s2).
  assert (S3 : s3 < 1). { unfold s3. destruct (Rlt_bool_spec (e_Pr e1 0%nat) m) as [L|L]; [|exact S2]. apply Rmax_lub_lt; [exact S2|]. apply Fr; assumption. }
  rewrite (Rle_bool_false 1 s3) by exact S3. reflexivity.
Qed.
Print Assumptions C30_rescue_refuted.
Example C30_rescue_nonvacuous : let q : vec := fun _ => 5 in
  newton (fun P => P) (fun _ r => (r, Cfailure)) (fun _ _ _ => 0) (fun _ _ => 2) q q 1 1
    {| e_P := q; e_U := q; e_R := q; e_Pr := q; e_S := q; e_st := Csuccess |} delta = None.
Proof.
  intros q. apply C30_rescue_refuted; [lra | | | reflexivity]; cbn [e_P e_Pr]; unfold q;
    (apply (Rmult_le_reg_r (IZR (2 ^ 1022))); [apply IZR_lt; reflexivity|]; unfold Rdiv; rewrite Rmult_assoc, Rinv_l by (apply not_0_IZR; discriminate);
     rewrite Rmult_1_r; rewrite <- mult_IZR; apply IZR_le; discriminate).
Qed.


Definition skew : mat := rows3 (row3 1 1 0) (row3 1 2 0) (row3 0 0 1).
Definition skewi : mat := rows3 (row3 2 (-1) 0) (row3 (-1) 1 0) (row3 0 0 1).
Definition skew4 (m : mat) : mat := fun i j => match i, j with O, O => -1 | S i, S j => m i j | _, _ => 0 end.
Lemma skew_consistent : adm_consistent 1 zero3 (skew4 skew) (skew4 skewi) skew skewi 1 1.
Proof.
  unfold zero3. split; try lra.
  - intros i j Hi Hj. idx; reflexivity.
  - intros x (k & Hk & Hx). unfold dot3, sum3, skew, rows3, row3.
    assert (Q : 0 <= (x 0%nat + x 1%nat) * (x 0%nat + x 1%nat)) by apply Rle_0_sqr.
    assert (Q1 : 0 <= x 1%nat * x 1%nat) by apply Rle_0_sqr. assert (Q2 : 0 <= x 2%nat * x 2%nat) by apply Rle_0_sqr.
    destruct k as [|[|[|]]]; try lia.
    + destruct (Req_dec (x 1%nat) 0) as [E|N].
      * assert (0 < x 0%nat * x 0%nat) by (apply Rsqr_pos_lt in Hx; exact Hx). rewrite E in *. nra.
      * assert (0 < x 1%nat * x 1%nat) by (apply Rsqr_pos_lt in N; exact N). nra.
    + assert (0 < x 1%nat * x 1%nat) by (apply Rsqr_pos_lt in Hx; exact Hx). nra.
    + assert (0 < x 2%nat * x 2%nat) by (apply Rsqr_pos_lt in Hx; exact Hx). nra.
  - intros i j Hi Hj. idx; reflexivity.
  - unfold skew4, dot3, sum3. ring.
  - intros i Hi. unfold skew4, lower3, sum3. ring.
  - intros i j _ _. reflexivity.
  - intros i j Hi Hj. idx; unfold skew4, skew, skewi, rows3, row3, delta, mul4, sum4; cbn; lra.
  - intros i j Hi Hj. idx; unfold skew, skewi, rows3, row3, delta, mul3, sum3; cbn; lra.
  - split; [lra|]. tensor. unfold skew, rows3, row3. lra.
  - split; [lra|]. tensor. unfold skew4, skew, rows3, row3. lra.
Qed.
(** It is not the four-force in general.  (1) Matter that absorbs but does not scatter: twice
    the drag, because the absorption opacity is used for the scattering opacity.  (2) A
    spatial metric with off-diagonal components: the momentum is wrong, because the velocity
    is lowered with the wrong component. *)
Theorem C30_fourd_force_refuted :
  (exists H : vec, transverse eta4 (moving 1 zero3 1 zero3) H /\
     let Sc := CalculateSource (fun _ => 1) (fun _ => 1) (fun _ => 1) eta4 1 1 (fun n => match n with O => 1 | S i => 0 end) (fun n => match n with O => 1 | S i => low eta4 H (S i) end) in
     let Q := four_force 1 (1 + 0) 1 1 (moving 1 zero3 1 zero3) H in
     Sc 1%nat = -2 /\ 1 * momentum_rate 1 eta4 Q 0 = -1) /\
  (exists v W, lorentz_of skew v W /\
     let Sc := CalculateSource (fun _ => 1) (fun _ => 1) (fun _ => 1) (skew4 skew) 1 1 (fun n => match n with O => 1 | S i => W * v i end) (fun _ => 0) in
     let Q := four_force 1 (1 + 1) 1 0 (moving 1 zero3 W v) (fun _ => 0) in
     Sc 1%nat = 0 /\ 1 * momentum_rate 1 (skew4 skew) Q 0 = 2).
Proof.
  split.
  - exists (fun n => match n with 1%nat => 1 | _ => 0 end). split; [unfold transverse, dot4, sum4, moving, eta4, zero3; cbn; field|].
    intros Sc Q. split.
    + unfold Sc, CalculateSource. rewrite (Rmin_left (1 + 1)), (Rmin_left 1) by lra. unfold sum3. cbn [Nat.add].
      assert (Ws : forall x, x = 1 -> sqrt x = 1) by (intros x ->; apply sqrt_1). rewrite Ws by ring. unfold low, lower4, sum4, eta4; cbn [Nat.eqb]. field.
    + unfold momentum_rate, Q, four_force, low, lower4, sum4, moving, eta4, zero3; cbn [Nat.eqb]. field.
  - exists (v3 0 (2/3) 0), 3. split; [split; [lra|]; unfold dot3, sum3, skew, rows3, row3, v3; field|].
    intros Sc Q. split.
    + unfold Sc, CalculateSource. rewrite (Rmin_left (1 + 1)), (Rmin_left 1) by lra. unfold sum3. cbn [Nat.add].
      set (w := sqrt _). assert (w = 3) by (unfold w; apply sqrt_lem_1; unfold skew4, skew, rows3, row3, v3; lra). clearbody w. subst w.
      unfold skew4, skew, rows3, row3, v3. field.
    + unfold momentum_rate, Q, four_force, low, lower4, sum4, moving, skew4, skew, rows3, row3, zero3, v3. field.
Qed.
Print Assumptions C30_fourd_force_refuted.

(** *** cooling by neutrino emission *)
(** emitted power J, lepton-number emission Jye and lepton sign of each species *)
Notation Emission := (R * R * R)%type.
Definition em_J (x : Emission) : R := fst (fst x).
Definition em_lepton (x : Emission) : R := snd x * snd (fst x).
Definition cooling (u : vec) (g : mat) (detG : R) (l : list Emission) : vec * R :=
  fold_left (fun acc x => add_cooling u g detG (fst (fst x)) (snd (fst x)) (snd x) acc) l (fun _ => 0, 0).
Lemma moving_unit alpha beta g ginv gamma gi sg sgg v W : adm_consistent alpha beta g ginv gamma gi sg sgg -> lorentz_of gamma v W ->
  dot4 g (moving alpha beta W v) (moving alpha beta W v) = -1.
Proof.
  intros A [Wp L]. rewrite (trans_split _ _ _ _ _ _ _ _ A v W _). rewrite (u0 _ _ _ _ _ _ _ _ A v W).
  replace (dot3 gamma v (hat beta (moving alpha beta W v))) with (W * dot3 gamma v v); [lra|].
  unfold dot3, sum3. rewrite !(hat_u _ _ _ _ _ _ _ _ A v W). ring.
Qed.
Lemma frame_time (g : mat) (u : vec) x m : dot4 g u u = -1 ->
  TetradToCoordCov u default_trial g (fun n => match n with O => x | _ => 0 end) m = - x * low g u m.
Proof.
  intros E. unfold TetradToCoordCov, sum4, Ecov, Ecov_of. cbn [Nat.eqb].
  assert (E0 : Econ u default_trial g 0%nat = u).
  { unfold Econ, gram_schmidt. cbn [rows4].
    assert (C0 : candidates u default_trial g 0%nat = u) by (unfold candidates; repeat match goal with |- context [if ?b then _ else _] => destruct b end; reflexivity).
    rewrite C0. unfold Normalize_. rewrite contract_dot4, E, (Rabs_left (-1)) by lra. replace (- -1) with 1 by ring. rewrite sqrt_1. extensionality k. field. }
  rewrite E0. unfold Lower, low, lower4, sum4. ring.
Qed.
Lemma cooling_vals g u detG l : dot4 g u u = -1 -> forall acc m,
  let r := fold_left (fun acc x => add_cooling u g detG (fst (fst x)) (snd (fst x)) (snd x) acc) l acc in
  fst r m = fst acc m - detG * list_sum (map em_J l) * low g u m /\ snd r = snd acc - detG * list_sum (map em_lepton l).
Proof.
  intros E. induction l as [|x l IH]; intros acc m; cbn [fold_left map list_sum fold_right].
  - split; ring.
  - destruct (IH (add_cooling u g detG (fst (fst x)) (snd (fst x)) (snd x) acc) m) as [I1 I2]. split.
    + cbv zeta in I1. rewrite I1. unfold add_cooling at 1. cbn [fst]. rewrite frame_time by exact E. unfold list_sum, em_J. ring.
    + cbv zeta in I2. rewrite I2. unfold add_cooling. cbn [snd]. unfold list_sum, em_lepton. ring.
Qed.
(** Every metric, fluid velocity, list of emitting species and step: the fluid loses exactly
    the momentum of the emitted radiation, which is isotropic in its rest frame, and the
    emitted lepton number; density and magnetic field stay. *)
Theorem C30_cooling : forall alpha beta g ginv gamma gi sg sgg v W (l : list Emission) dt c,
  adm_consistent alpha beta g ginv gamma gi sg sgg -> lorentz_of gamma v W ->
  let u := moving alpha beta W v in
  let G := cooling u g sgg l in
  let c' := ApplyRadiationFourForce true dt (fst G) (snd G) c in
  let Q : vec := fun m => - list_sum (map em_J l) * u m in
  (forall i, (i < 3)%nat -> cS c' i = cS c i + dt * (sg * momentum_rate alpha g Q i)) /\
  cye c' = cye c - dt * (sgg * list_sum (map em_lepton l)) /\ cD c' = cD c /\ cB c' = cB c.
Proof.
  intros alpha beta g ginv gamma gi sg sgg v W l dt c A L u G c' Q.
  assert (U : dot4 g u u = -1) by exact (moving_unit _ _ _ _ _ _ _ _ _ _ A L).
  assert (Sg : sgg = alpha * sg) by exact (adm_dets _ _ _ _ _ _ _ _ A).
  pose proof (cooling_vals g u sgg l U (fun _ => 0, 0)) as CV. cbv zeta in CV. fold (cooling u g sgg l) in CV. fold G in CV. cbn [fst snd] in CV.
  unfold c', ApplyRadiationFourForce. cbn [cS cye cD cB]. split; [|split; [|split; reflexivity]].
  - intros i Hi. rewrite (proj1 (CV (S i))). rewrite Sg. unfold momentum_rate, Q, low, lower4, sum4. ring.
  - rewrite (proj2 (CV 0%nat)). ring.
Qed.
Print Assumptions C30_cooling.

(** static flat space seen with lapse 2 *)
Definition slow4 : mat := fun i j => match i, j with O, O => -4 | S i, S j => delta i j | _, _ => 0 end.
Definition slow4i : mat := fun i j => match i, j with O, O => - (1/4) | S i, S j => delta i j | _, _ => 0 end.
Lemma slow_consistent : adm_consistent 2 zero3 slow4 slow4i delta delta 1 2.
Proof.
  unfold zero3. split; try lra.
  - intros i j Hi Hj. idx; reflexivity.
  - intros x (k & Hk & Hx). unfold dot3, sum3, delta. cbn [Nat.eqb].
    assert (0 < x k * x k) by (apply Rsqr_pos_lt in Hx; exact Hx).
    assert (Q0 : 0 <= x 0%nat * x 0%nat) by apply Rle_0_sqr. assert (Q1 : 0 <= x 1%nat * x 1%nat) by apply Rle_0_sqr. assert (Q2 : 0 <= x 2%nat * x 2%nat) by apply Rle_0_sqr.
    destruct k as [|[|[|]]]; try lia; lra.
  - intros i j Hi Hj. idx; reflexivity.
  - unfold slow4, dot3, sum3. ring.
  - intros i Hi. unfold slow4, lower3, sum3. ring.
  - intros i j _ _. reflexivity.
  - intros i j Hi Hj; idx; unfold slow4, slow4i, delta, mul4, sum4; cbn [Nat.eqb]; lra.
  - intros i j Hi Hj; idx; unfold delta, mul3, sum3; cbn [Nat.eqb]; lra.
  - split; [lra|]. tensor. unfold delta; cbn [Nat.eqb]. lra.
  - split; [lra|]. tensor. unfold slow4, delta; cbn [Nat.eqb]. lra.
Qed.
(** Lapse 2, matter at rest emitting unit power for unit time: the conserved energy drops by
    4 where 2 is emitted (the covariant time component of the force is used for the energy
    seen by the Eulerian observer). *)
Theorem C30_cooling_energy_refuted : exists alpha beta g ginv gamma gi sg sgg v W (l : list Emission) dt,
  adm_consistent alpha beta g ginv gamma gi sg sgg /\ lorentz_of gamma v W /\ 0 < dt /\
  let u := moving alpha beta W v in
  let G := cooling u g sgg l in forall c,
  dt * (sg * energy_rate alpha (fun m => - list_sum (map em_J l) * u m)) = -2 /\
  ctau (ApplyRadiationFourForce true dt (fst G) (snd G) c) = ctau c - 4.
Proof.
  exists 2, zero3, slow4, slow4i, delta, delta, 1, 2, zero3, 1, [(1, 0, 0)], 1.
  assert (L : lorentz_of delta zero3 1) by (split; [lra|]; unfold dot3, sum3, zero3; ring).
  split; [exact slow_consistent|]. split; [exact L|]. split; [lra|]. intros u G c.
  assert (U : dot4 slow4 u u = -1) by exact (moving_unit _ _ _ _ _ _ _ _ _ _ slow_consistent L).
  pose proof (cooling_vals slow4 u 2 [(1, 0, 0)] U (fun _ => 0, 0) 0%nat) as CV. cbv zeta in CV. fold (cooling u slow4 2 [(1, 0, 0)]) in CV. fold G in CV. cbn [fst snd] in CV.
  split; [unfold energy_rate, normal_cov, sum4, list_sum, em_J, u, moving; cbn [map fold_right fst snd]; field|].
  unfold ApplyRadiationFourForce. cbn [ctau]. rewrite (proj1 CV). unfold list_sum, em_J, low, lower4, sum4, u, moving, slow4, zero3. cbn [map fold_right fst snd]. field.
Qed.
Print Assumptions C30_cooling_energy_refuted.

(** *** the light bulb: heating rate H and cooling rate C per rest mass *)
Lemma lightbulb_vals g u cd H C Jye : dot4 g u u = -1 -> forall m,
  fst (add_lightbulb u g cd H C Jye (fun _ => 0, 0)) m = cd * (H - C) * low g u m.
Proof. intros E m. unfold add_lightbulb. cbn [fst]. rewrite frame_time by exact E. ring. Qed.
(** Flat space, matter moving at 4/5 of the speed of light: the energy and the momentum
    deposited are W = 5/3 times what they should be (the conserved density already has a
    Lorentz factor, and it is used for the rest density). *)
Theorem C30_lightbulb_refuted : exists v W, lorentz_of (fun i j => eta4 (S i) (S j)) v W /\
  let u := moving 1 zero3 W v in let Q : vec := u in
  forall c, cD c = 1 * 1 * W ->
  let G := add_lightbulb u eta4 (cD c) 1 0 0 (fun _ => 0, 0) in
  let c' := ApplyRadiationFourForce true 1 (fst G) (snd G) c in
  (1 * energy_rate 1 Q = 5 / 3 /\ ctau c' = ctau c + 25 / 9) /\ (1 * momentum_rate 1 eta4 Q 0 = 4 / 3 /\ cS c' 0%nat = cS c 0%nat + 20 / 9).
Proof.
  exists (v3 (4/5) 0 0), (5/3). split; [split; [lra|]; unfold dot3, sum3, eta4, v3; cbn [Nat.eqb]; field|].
  intros u Q c D G c'.
  assert (U : dot4 eta4 u u = -1) by (unfold dot4, sum4, u, moving, eta4, zero3, v3; cbn [Nat.eqb]; field).
  pose proof (lightbulb_vals eta4 u (cD c) 1 0 0 U) as LV. fold G in LV.
  unfold c', ApplyRadiationFourForce. cbn [ctau cS]. rewrite !LV, D.
  unfold energy_rate, momentum_rate, normal_cov, low, lower4, sum4, Q, u, moving, eta4, zero3, v3; cbn [Nat.eqb]. repeat split; field.
Qed.
Print Assumptions C30_lightbulb_refuted.
Example C30_cooling_nonvacuous : adm_consistent 2 zero3 slow4 slow4i delta delta 1 2 /\ lorentz_of delta (v3 (4/5) 0 0) (5/3).
Proof. split; [exact slow_consistent|]. split; [lra|]. unfold dot3, sum3, delta, v3; cbn [Nat.eqb]. field. Qed.
