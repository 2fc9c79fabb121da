(** C66: matter and radiation in thermal equilibrium stay there. *)
From Coq Require Import FunctionalExtensionality Reals Lra Lia ZArith Arith List Bool Psatz.
From Flocq Require Import Core.
From Verif.Spec Require Import Tensor GeomSpec Relativity RadSpec RadSource RadExchange EquilibriumSpec.
From Verif.Model Require Import Num RootFind Geometry LinearAlgebra Relativity RadClosure RadSource RadTransport Equilibration.
From Verif.Proofs Require Import NumR LinearAlgebraProofs RootFindProofs GeomBase AdmProofs RelProofs RadProofs FlatWitness.
From Verif.Properties Require Import P_RadClosure P_RadTransform P_RadImplicit P_RadExchange P_Equilibration.
Import ListNotations.
Local Open Scope R_scope.

(** a residual that vanishes at the guess, and not at the upper end of the bracket *)
Lemma guess_is_root f maxi a b tol g : (2 <= maxi)%Z -> 0 <= tol -> a <= g -> 2 * tol < b - g -> f g = 0 -> f b <> 0 ->
  exists tr, regula_falsi (T := R) f (new_RootFind maxi) a b tol g true = Returned g (Some success) (mkRootFind 1 maxi) tr.
Proof.
  intros M T L Gb F0 Fb. unfold regula_falsi, refine_bracket, check_bracket. num_R.
  rewrite !Rle_bool_true by lra. cbn [andb]. rewrite F0. rewrite !(Rlt_bool_false 0 (0 * f b)) by lra. cbn [negb]. rewrite !(Rlt_bool_false 0 0) by lra.
  unfold budget. cbn [max_iter iteration_count new_RootFind]. replace (Z.to_nat (maxi - 0)) with (S (S (Z.to_nat (maxi - 2)))) by lia.
  set (k := Z.to_nat (maxi - 2)). cbn [regula_loop]. num_R.
  rewrite (Rlt_bool_true (2 * tol) (b - g)) by exact Gb.
  replace ((g * (f b * -1) - b * (0 * -1)) / (f b * -1 - 0 * -1)) with g by (field; lra).
  rewrite (Req_bool_true g g) by reflexivity. rewrite (Rlt_bool_false (2 * tol) (g - g)) by lra.
  cbn. unfold final_status. destruct (Z.eqb_spec 1 maxi); [lia|]. eexists. replace (1 / 2 * (g + g)) with g by field. reflexivity.
Qed.

Lemma residual_equilibrium eu ug dtau amax l T0 : 0 <= dtau -> 0 <= amax -> (forall p, In p l -> 0 <= op_abs (fst p) T0 /\ snd p = op_JBB (fst p) T0) -> ug = eu T0 ->
  InteractionTResidual eu ug dtau amax l T0 = 0.
Proof.
  intros Hd Ha Hl ->. unfold InteractionTResidual. rewrite (fold_left_sum (fun p => comoving_J1 (fst p) dtau amax (snd p) T0 - snd p)).
  assert (Z : list_sum (map (fun p => comoving_J1 (fst p) dtau amax (snd p) T0 - snd p) l) = 0).
  { induction l as [|p l IH]; [reflexivity|]. unfold list_sum in *. cbn [map fold_right]. rewrite IH by (intros q Hq; apply Hl; right; exact Hq).
    destruct (Hl p (or_introl eq_refl)) as [Pa Eq]. unfold comoving_J1. rewrite <- Eq.
    assert (0 <= Rmin (op_abs (fst p) T0) amax) by (apply Rmin_glb; assumption). field. nra. }
  rewrite Z. unfold Rdiv. ring.
Qed.
Lemma residual_hot eu ug dtau amax l T0 T1 : 0 <= dtau -> 0 <= amax -> ug = eu T0 -> eu T0 < eu T1 -> 0 < ug + list_sum (map snd l) ->
  (forall p, In p l -> 0 <= op_abs (fst p) T1 /\ snd p = op_JBB (fst p) T0 /\ op_JBB (fst p) T0 <= op_JBB (fst p) T1) ->
  0 < InteractionTResidual eu ug dtau amax l T1.
Proof.
  intros Hd Ha -> Hot Pt Hl. unfold InteractionTResidual. rewrite (fold_left_sum (fun p => comoving_J1 (fst p) dtau amax (snd p) T1 - snd p)), (fold_left_sum snd).
  assert (Z : 0 <= list_sum (map (fun p => comoving_J1 (fst p) dtau amax (snd p) T1 - snd p) l)).
  { clear Pt. induction l as [|p l IH]; [cbn; lra|]. unfold list_sum in *. cbn [map fold_right]. specialize (IH (fun q Hq => Hl q (or_intror Hq))).
    destruct (Hl p (or_introl eq_refl)) as (Pa & Eq & Le). set (tl := fold_right _ _ _) in *. unfold comoving_J1.
    assert (K : 0 <= Rmin (op_abs (fst p) T1) amax) by (apply Rmin_glb; assumption). cbv beta. set (k := Rmin (op_abs (fst p) T1) amax) in *.
    assert (0 <= dtau * k) by (apply Rmult_le_pos; assumption). assert (0 <= (snd p + dtau * k * op_JBB (fst p) T1) / (1 + dtau * k) - snd p); [|lra].
    replace (_ / _ - _) with (dtau * k * (op_JBB (fst p) T1 - snd p) / (1 + dtau * k)) by (field; lra).
    apply Rmult_le_pos; [apply Rmult_le_pos; lra|left; apply Rinv_0_lt_compat; lra]. }
  apply Rdiv_lt_0_compat; lra.
Qed.

(** Any number of species, any opacities: if every species has the thermal energy of the
    matter temperature, and hotter means more energy, the temperature solve returns exactly
    the temperature it started from. *)
Theorem C66_stationary_temperature : forall eu dtau amax l maxi T0 tol,
  0 <= dtau -> 0 <= amax -> 0 < T0 -> 0 <= tol < 49 -> (2 <= maxi)%Z -> 0 < eu T0 + list_sum (map snd l) -> eu T0 < eu (100 * T0) ->
  (forall p, In p l -> (forall T, 0 < T -> 0 <= op_abs (fst p) T) /\ snd p = op_JBB (fst p) T0 /\ op_JBB (fst p) T0 <= op_JBB (fst p) (100 * T0)) ->
  interaction_T (InteractionTResidual eu (eu T0) dtau amax l) maxi T0 tol = (T0, success).
Proof.
  intros eu dtau amax l maxi T0 tol Hd Ha Pt Ht Hm Pe Hot Hl. unfold interaction_T.
  destruct (guess_is_root (InteractionTResidual eu (eu T0) dtau amax l) maxi (1 / 100 * T0) (100 * T0) (tol * T0) T0) as [tr ->]; [exact Hm|nra|nra|nra| | |reflexivity].
  - apply residual_equilibrium; [exact Hd|exact Ha| |reflexivity]. intros p Hp. destruct (Hl p Hp) as (A & B & _). split; [apply A; exact Pt|exact B].
  - apply Rgt_not_eq. apply (residual_hot eu _ dtau amax l T0 (100 * T0)); [exact Hd|exact Ha|reflexivity|exact Hot|exact Pe|].
    intros p Hp. destruct (Hl p Hp) as (A & B & C). split; [apply A; lra|]. split; [exact B|exact C].
Qed.
Print Assumptions C66_stationary_temperature.

(** Matter moving with any velocity through any metric: radiation with the thermal energy of
    the matter temperature and no flux in the rest frame of the matter is left alone: the
    implicit step succeeds and exchanges no energy and no momentum, whatever the opacities
    (absorption and scattering), the step, and the repair strategy. *)
Theorem C66_stationary : forall alpha beta g ginv gamma gi sg sgg v W rs sp eu Pi maxi T0 tol dt dtau amax strat jE jF,
  adm_consistent alpha beta g ginv gamma gi sg sgg -> lorentz_of gamma v W -> dot3 gamma v v <= 9999 / 10000 ->
  let c := mkClosure v gamma alpha rs in
  (forall i j, (i < 3)%nat -> (j < 3)%nat -> Pi i j = 0) ->
  0 <= dt -> 0 <= dtau -> 0 <= amax -> 0 < T0 -> 0 <= tol < 49 -> (2 <= maxi)%Z ->
  (forall T, 0 < T -> 0 <= op_abs sp T /\ 0 <= op_sc sp T) -> 0 < op_JBB sp T0 <= op_JBB sp (100 * T0) -> 0 < eu T0 < eu (100 * T0) ->
  let J := op_JBB sp T0 in let '(E, F) := Prim2Con c energy_conserve J (fun _ => 0) Pi in
  let r := oned c sp (InteractionTResidual eu (eu T0) dtau amax [(sp, J)]) maxi T0 tol dt amax strat E F Pi jE jF in
  od_ok r = true /\ od_dE r = 0 /\ (forall i, (i < 3)%nat -> od_dF r i = 0) /\ od_T r = T0.
Proof.
  intros alpha beta g ginv gamma gi sg sgg v W rs sp eu Pi maxi T0 tol dt dtau amax strat jE jF A HW Hv c P0 Hd Hdt Ha Pt Ht Hm Ko PJ Pe J.
  destruct (Prim2Con c energy_conserve J (fun _ => 0) Pi) as [E F] eqn:PC. intros r.
  pose proof (adm_lapse_pos _ _ _ _ _ _ _ _ A) as ap. assert (Wp : 0 < W) by (destruct HW; assumption).
  assert (cw : cW c = W) by exact (W_val alpha gamma v W HW Hv rs). assert (cw2 : cW2 c = W * W) by exact (W2_val alpha gamma v W HW Hv rs).
  assert (vt : forall i, (i < 3)%nat -> con_vTilPi c Pi i = 0) by (intros i Hi; unfold con_vTilPi, sum3; rewrite !P0 by lia; ring).
  assert (p0 : vvTilPi c Pi = 0) by (unfold vvTilPi, sum3; rewrite !vt by lia; ring).
  assert (q0 : forall i, cov_vTilPi c Pi i = 0) by (intros i; unfold cov_vTilPi, lower3Vector, sum3; rewrite !vt by lia; ring).
  destruct (Ko T0 Pt) as [Ka Ks].
  set (kJ := Rmin (op_abs sp T0) amax). set (kH := Rmin (op_sc sp T0) amax + kJ).
  assert (kJp : 0 <= kJ) by (apply Rmin_glb; assumption). assert (kHp : 0 <= kH) by (unfold kH; assert (0 <= Rmin (op_sc sp T0) amax) by (apply Rmin_glb; assumption); lra).
  set (tJ := alpha * dt * kJ). set (tH := alpha * dt * kH).
  assert (tJp : 0 <= tJ) by (apply Rmult_le_pos; [nra|assumption]). assert (tHp : 0 <= tH) by (apply Rmult_le_pos; [nra|assumption]).
  assert (EV : E = (4 * (W * W) - 1) / 3 * J /\ forall i, F i = 4 * (W * W) / 3 * cov_v c i * J).
  { revert PC. unfold Prim2Con. rewrite cw, cw2, p0. intros K. injection K as <- <-. split; [unfold sum3; field|]. intros i. rewrite q0. change (cov_v c i) with (lower3Vector gamma v i). unfold sum3. ring. }
  destruct EV as [EV FV].
  assert (V2 : dot3 gamma v v = 1 - 1 / (W * W)) by exact (v2_W gamma v W HW).
  assert (T1 : sum3 (fun i => v i * cov_v c i) = dot3 gamma v v) by exact (v_cov_v alpha gamma v rs).
  assert (VF : sum3 (fun i => v i * F i) = (4 * (W * W) - 4) / 3 * J).
  { transitivity (4 * (W * W) / 3 * J * sum3 (fun i => v i * cov_v c i)); [unfold sum3; rewrite !FV; ring|]. rewrite T1, V2. field. lra. }
  assert (LS : LinearSolution c energy_conserve E F Pi J tJ tH = (J, 0)).
  { assert (dp : 0 < step_det alpha gamma v W rs Pi tJ tH).
    { unfold step_det. fold c. rewrite p0. assert (0 < (2 * (W * W) + 1) / (3 * W)) by (apply Rdiv_lt_0_compat; nra).
      assert (0 <= tH * tJ / W) by (apply Rmult_le_pos; [nra|left; apply Rinv_0_lt_compat; lra]). lra. }
    apply (lin_uniq alpha gamma v W HW Hv rs Pi E F J tJ tH J 0 ltac:(lra)); fold c; rewrite p0.
    - rewrite EV. ring.
    - rewrite VF. field. lra. }
  assert (LU : let '(dE, dF) := LinearSourceUpdate c energy_conserve E F Pi J tJ tH in dE = 0 /\ forall i, dF i = 0).
  { unfold LinearSourceUpdate. rewrite LS, cw, cw2, p0. split; [rewrite EV; field|]. intros i. rewrite q0, FV. field. lra. }
  destruct (LinearSourceUpdate c energy_conserve E F Pi J tJ tH) as [dE dF] eqn:L. destruct LU as [DE DF].
  assert (C2P : snd (Con2Prim c energy_conserve (E + dE) (fun i => F i + dF i) Pi) = Csuccess).
  { assert (Ln : c2p_lam c Pi <> 0) by (pose proof (C29_eddington_regular alpha gamma v rs Pi P0); unfold c; lra).
    pose proof (C29_success alpha beta g ginv gamma gi sg sgg v W rs Pi J (fun _ => 0) (fun _ => 0) A HW Hv Ln) as K. cbv zeta in K. fold c in K. rewrite PC in K.
    specialize (K ltac:(intros i Hi; unfold lower3, sum3; ring) ltac:(unfold J; lra) ltac:(unfold dot3, sum3; unfold J; nra)).
    assert (X : Con2Prim c energy_conserve (E + dE) (fun i => F i + dF i) Pi = Con2Prim c energy_conserve E F Pi).
    { f_equal; [rewrite DE; ring|]. apply functional_extensionality. intros i. rewrite DF. ring. }
    rewrite X. destruct (Con2Prim c energy_conserve E F Pi) as [[J' H'] st]. apply K. }
  destruct (Con2Prim c energy_conserve (E + dE) (fun i => F i + dF i) Pi) as [[J' H'] st] eqn:CP. cbn [snd] in C2P. subst st.
  assert (Rv : r = {| od_ok := true; od_dE := dE; od_dF := dF; od_T := T0 |}).
  { unfold r, oned. rewrite (C66_stationary_temperature eu dtau amax [(sp, J)] maxi T0 tol Hdt Ha Pt Ht Hm).
    - change (c_alpha c) with alpha. fold kJ. fold kH. fold tJ. fold tH. fold J. rewrite L, CP. reflexivity.
    - unfold list_sum. cbn. unfold J. lra.
    - lra.
    - intros p [<-|[]]. cbn [fst snd]. split; [intros T HT; apply Ko; exact HT|]. split; [reflexivity|lra]. }
  rewrite Rv. cbn. auto.
Qed.
Print Assumptions C66_stationary.

(** Both closures have no anisotropic pressure without a flux. *)
Theorem C66_stationary_closures : forall v gamma alpha rs J i j,
  recovery_Pi kind_eddington (mkClosure v gamma alpha rs) 0 J (fun _ => 0) i j = 0 /\
  GetConTilPiFromPrim (mkClosure v gamma alpha rs) J (fun _ => 0) i j = 0.
Proof.
  intros v gamma alpha rs J i j. split; [reflexivity|]. set (c := mkClosure v gamma alpha rs).
  assert (F0 : m1_flux c (fun _ => 0) = 0).
  { unfold m1_flux. cbv zeta. etransitivity; [|exact sqrt_0]. f_equal. unfold sum3. ring. }
  assert (X0 : m1_xi c J (fun _ => 0) = 0).
  { unfold m1_xi. rewrite F0. assert (G : gratio 0 J = 0) by (unfold gratio; destruct (Req_bool J 0); unfold Rdiv; rewrite ?Rmult_0_l; reflexivity).
    rewrite G. rewrite Rmin_right by lra. apply Rmax_left. lra. }
  unfold GetConTilPiFromPrim, M1Pi. rewrite X0. unfold athin_of, closure. field.
Qed.
Print Assumptions C66_stationary_closures.

(** matter at 3/5 of the speed of light, opacity 1 for absorption and 2 for scattering,
    thermal energy and matter energy T, at T = 1 *)
Example C66_stationary_nonvacuous : let sp := {| op_abs := fun _ => 1; op_sc := fun _ => 2; op_JBB := fun T => T |} in
  let c := mkClosure vx delta 1 true in let '(E, F) := Prim2Con c energy_conserve 1 (fun _ => 0) (fun _ _ => 0) in
  let r := oned c sp (InteractionTResidual (fun T => T) 1 1 10 [(sp, 1)]) 20 1 (1 / 10) 1 10 fix_none E F (fun _ _ => 0) 7 (fun _ => 7) in
  od_ok r = true /\ od_dE r = 0 /\ (forall i, (i < 3)%nat -> od_dF r i = 0) /\ od_T r = 1.
Proof.
  intros sp c. refine (C66_stationary 1 zero3 eta4 eta4 delta delta 1 1 vx (5 / 4) true sp (fun T => T) (fun _ _ => 0) 20 1 (1 / 10) 1 1 10 fix_none 7 (fun _ => 7) eta4_consistent vx_lorentz _ _ _ _ _ _ _ _ _ _ _); try (cbn; lra); try lia.
  - rewrite vx_norm. lra.
  - reflexivity.
  - intros T _. cbn. lra.
Qed.
