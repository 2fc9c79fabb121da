(** C57: opacities and mean opacities in code units. *)
From Coq Require Import Reals ZArith List Lra Psatz Lia Bool.
From Verif.Model Require Import Num Units Opacity.
From Verif.Spec Require Import UnitsSpec OpacitySpec.
From Verif.Proofs Require Import NumR.
From Verif.Properties Require Import P_Units.
Import ListNotations.
Local Open Scope R_scope.

Section C57.
(** a constructed system of units and the flag the opacity package reads from the same parameter *)
Context (pc : Constants R) (junk : R) (pin : UnitsInput R) (u : Units R).
Hypothesis Hpc : physical pc.
Hypothesis Hin : positive_input pin.
Hypothesis Hu : UnitConversions pc junk pin = Some u.
Let b := base_of u.
Let sf := scale_free_ u.

Lemma units_pos : 0 < mass_ u /\ 0 < length_ u /\ 0 < time_ u /\ 0 < temperature_ u.
Proof.
  destruct (constructed pc junk pin u Hpc Hin Hu) as (A1 & A2 & A3 & _ & _ & [(_ & _ & _ & A4 & _)|(_ & A4 & _)]); rewrite A4.
  - lra.
  - destruct Hpc as (_ & Pc & _). repeat split; auto. apply Rdiv_lt_0_compat; auto.
Qed.
Lemma units_sf : sf = true -> mass_ u = 1 /\ length_ u = 1 /\ time_ u = 1 /\ temperature_ u = 1.
Proof.
  intros E. destruct (constructed pc junk pin u Hpc Hin Hu) as (_ & _ & _ & _ & _ & [(_ & A1 & A2 & A3 & _ & A4)|(A & _)]); [auto|].
  unfold sf in E. congruence.
Qed.
Lemma b_rho : one_code_unit b d_mass_density = mass_ u / length_ u ^ 3.
Proof.
  destruct units_pos as (P1 & P2 & _). unfold one_code_unit, b, base_of. cbn [unit_M unit_L unit_T unit_K dM dL dT dK d_mass_density dim].
  rewrite pz1, pzm3, !pz0. unfold GetMassCodeToCGS, GetLengthCodeToCGS. field. lra.
Qed.
Lemma b_temp : one_code_unit b d_temperature = temperature_ u.
Proof. unfold one_code_unit, b, base_of. cbn [unit_M unit_L unit_T unit_K dM dL dT dK d_temperature dim]. rewrite pz1, !pz0. unfold GetTemperatureCodeToCGS. ring. Qed.
Lemma b_freq : one_code_unit b d_frequency = / time_ u.
Proof. unfold one_code_unit, b, base_of. cbn [unit_M unit_L unit_T unit_K dM dL dT dK d_frequency dim]. rewrite pzm1, !pz0. unfold GetTimeCodeToCGS. ring. Qed.
Lemma b_inv x : in_code b d_inverse_length x = x * length_ u.
Proof.
  destruct units_pos as (P1 & P2 & _). unfold in_code, one_code_unit, b, base_of. cbn [unit_M unit_L unit_T unit_K dM dL dT dK d_inverse_length dim].
  rewrite pzm1, !pz0. unfold GetLengthCodeToCGS. field. lra.
Qed.
Lemma units_same o : same_coefficient b o (NonCGSUnits o (GetTimeCodeToCGS u) (GetMassCodeToCGS u) (GetLengthCodeToCGS u) (GetTemperatureCodeToCGS u)).
Proof. intros rho T Ye nu. rewrite b_inv, b_rho, b_temp, b_freq. reflexivity. Qed.
Lemma units_same_mean m : same_mean b m (MeanNonCGSUnits m (GetTimeCodeToCGS u) (GetMassCodeToCGS u) (GetLengthCodeToCGS u) (GetTemperatureCodeToCGS u)).
Proof. intros rho T Ye. rewrite b_inv, b_rho, b_temp. reflexivity. Qed.
Lemma sf_same o : sf = true -> same_coefficient b o o.
Proof.
  intros E rho T Ye nu. destruct (units_sf E) as (A1 & A2 & A3 & A4). rewrite b_inv, b_rho, b_temp, b_freq, A1, A2, A3, A4.
  rewrite !Rmult_1_r. f_equal; [f_equal|]; field.
Qed.
Lemma sf_same_mean m : sf = true -> same_mean b m m.
Proof.
  intros E rho T Ye. destruct (units_sf E) as (A1 & A2 & A3 & A4). rewrite b_inv, b_rho, b_temp, A1, A2, A4.
  rewrite !Rmult_1_r. f_equal. field.
Qed.

(** the absorption and scattering coefficients seen by the code are the cgs ones: optical depths do
    not depend on the units *)
Theorem C57_coefficients (t : OpacityType) (base code : Coefficient) : absorption_opacity u sf t = Some (base, code) ->
  same_coefficient b base code /\
  (forall kappa, t = OpacGray kappa -> forall rho T Ye nu, base rho T Ye nu = kappa * rho) /\
  (t = OpacNone -> forall rho T Ye nu, code rho T Ye nu = 0).
Proof.
  intros E. unfold absorption_opacity in E. destruct sf eqn:S; destruct t; try discriminate; injection E as <- <-;
    (split; [first [exact (sf_same _ S) | exact (units_same _)]|split; [intros k Ek|intros Ek]; try discriminate]); intros rho T Ye nu; unfold NonCGSUnits, Gray; first [ring | injection Ek as ->; ring].
Qed.
Theorem C57_accepts (t : OpacityType) : absorption_opacity u sf t = None <->
  sf = true /\ match t with OpacTophat _ _ _ | OpacTabular _ => True | _ => False end.
Proof. unfold absorption_opacity. destruct sf; destruct t; split; try tauto; try discriminate; intros [? ?]; (discriminate || tauto). Qed.
Theorem C57_scattering (t : SOpacityType) (mp : R) : 0 < mp ->
  let kappa := match t with SOpacNone => 0 | SOpacGray kappa => kappa end in
  same_coefficient b (fun rho T Ye nu => kappa * rho) (snd (scattering_opacity u sf mp t)).
Proof.
  intros Hm kappa. unfold scattering_opacity. fold kappa. destruct sf eqn:S; cbn [snd].
  - assert (E := sf_same (fun rho T Ye nu => kappa * rho) S). intros rho T Ye nu. rewrite <- (E rho T Ye nu). unfold GrayS. field.
  - assert (E := units_same (fun rho T Ye nu => kappa * rho)). intros rho T Ye nu. rewrite <- (E rho T Ye nu). unfold NonCGSUnits, GrayS. field.
    destruct units_pos as (P1 & P2 & _). split; [|lra]. unfold GetLengthCodeToCGS. lra.
Qed.

(** ** means *)
Lemma sum_map nus f : sum_over nus f = fold_right Rplus 0 (map f nus).
Proof. induction nus as [|x nus IH]; [reflexivity|]. cbn [sum_over fold_right map]. fold (sum_over nus f). rewrite IH. reflexivity. Qed.
Lemma sum_ext nus f g : (forall x, In x nus -> f x = g x) -> sum_over nus f = sum_over nus g.
Proof. intros H. induction nus as [|x nus IH]; [reflexivity|]. cbn [sum_over fold_right]. fold (sum_over nus f). fold (sum_over nus g). rewrite IH, H; auto using in_eq, in_cons. Qed.
Lemma sum_pos nus f : nus <> [] -> (forall x, In x nus -> 0 < f x) -> 0 < sum_over nus f.
Proof.
  intros N H. assert (P : forall l, (forall x, In x l -> 0 < f x) -> 0 <= sum_over l f).
  { induction l as [|x l IH]; intros Hl; [cbn; lra|]. cbn [sum_over fold_right]. fold (sum_over l f).
    assert (0 < f x) by (apply Hl, in_eq). assert (0 <= sum_over l f) by (apply IH; intros; apply Hl, in_cons; auto). lra. }
  destruct nus as [|x l]; [congruence|]. cbn [sum_over fold_right]. fold (sum_over l f).
  assert (0 < f x) by (apply H, in_eq). assert (0 <= sum_over l f) by (apply P; intros; apply H, in_cons; auto). lra.
Qed.
Lemma sum_scale nus f c : sum_over nus (fun x => f x * c) = sum_over nus f * c.
Proof. induction nus as [|x nus IH]; cbn [sum_over fold_right]; [ring|]. fold (sum_over nus (fun x => f x * c)). fold (sum_over nus f). rewrite IH. ring. Qed.
(** what a mean is *)
Lemma base_mean w nus o : nus <> [] -> (forall T nu, 0 < w T nu) -> (forall rho T Ye nu, 0 < rho -> 0 < o rho T Ye nu) ->
  rosseland_mean w nus o (MeanOpacityBase w nus o).
Proof.
  intros N W P rho T Ye Hr. rewrite <- !sum_map. unfold MeanOpacityBase.
  assert (E : sum_over nus (fun nu => w T nu * (rho / o rho T Ye nu)) = sum_over nus (fun nu => w T nu * / o rho T Ye nu) * rho).
  { rewrite <- sum_scale. apply sum_ext. intros x _. unfold Rdiv. ring. }
  rewrite E. assert (P1 : 0 < sum_over nus (w T)) by (apply sum_pos; auto).
  assert (P2 : 0 < sum_over nus (fun nu => w T nu * / o rho T Ye nu)).
  { apply sum_pos; auto. intros x _. apply Rmult_lt_0_compat; [auto|]. apply Rinv_0_lt_compat; auto. }
  field. repeat split; lra.
Qed.
Lemma gray_mean w nus k rho T Ye : nus <> [] -> (forall T nu, 0 < w T nu) -> 0 < k -> 0 < rho -> forall o : Coefficient,
  (forall nu, o rho T Ye nu = k * rho) -> MeanOpacityBase w nus o rho T Ye = k * rho.
Proof.
  intros N W Hk Hr o E. unfold MeanOpacityBase.
  rewrite (sum_ext nus (fun nu => w T nu * (rho / o rho T Ye nu)) (fun nu => w T nu * / k)).
  - rewrite (sum_scale nus (w T) (/ k)). assert (PS : 0 < sum_over nus (w T)) by (apply sum_pos; auto).
    set (q := sum_over nus (w T)) in *. clearbody q. field. lra.
  - intros nu _. rewrite E. field. lra.
Qed.
(** the mean scattering coefficient is the Rosseland mean of the scattering coefficient, and for the
    gray opacity it is kappa rho *)
Theorem C57_mean_scattering (mp kappa : R) (w : R -> R -> R) (nus : list R) : 0 < mp -> 0 < kappa -> nus <> [] -> (forall T nu, 0 < w T nu) ->
  let t := SOpacGray kappa in
  exists cgs, rosseland_mean w nus (fst (scattering_opacity u sf mp t)) cgs /\
    same_mean b cgs (mean_scattering u sf mp w nus t) /\
    forall rho T Ye, 0 < rho -> cgs rho T Ye = kappa * rho.
Proof.
  intros Hm Hk N W t. exists (MeanOpacityBase w nus (fst (scattering_opacity u sf mp t))).
  assert (G : forall rho T Ye nu, fst (scattering_opacity u sf mp t) rho T Ye nu = kappa * rho).
  { intros rho T Ye nu. unfold scattering_opacity, t. destruct sf; cbn [fst]; unfold GrayS; field; lra. }
  split; [apply base_mean; auto; intros; rewrite G; apply Rmult_lt_0_compat; auto|].
  split; [|intros; apply gray_mean; auto].
  unfold mean_scattering. destruct sf eqn:S; [apply (sf_same_mean _ S)|apply units_same_mean].
Qed.
(** in a scale-free run the mean absorption coefficient is right as well *)
Theorem C57_mean_scale_free (kappa : R) (w : R -> R -> R) (nus : list R) : sf = true -> 0 < kappa -> nus <> [] -> (forall T nu, 0 < w T nu) ->
  exists m, mean_absorption u sf w nus (OpacGray kappa) = Some m /\
    forall rho T Ye, 0 < rho -> m rho T Ye = kappa * rho.
Proof.
  intros S Hk N W. unfold mean_absorption, absorption_opacity. rewrite S. eexists. split; [reflexivity|].
  intros rho T Ye Hr. apply gray_mean; auto. intros nu. unfold Gray. ring.
Qed.
(** in a run with physical units the mean absorption coefficient is converted twice: it is the mean of
    the coefficient at a density and temperature converted twice, and multiplied twice by the unit of
    length *)
Theorem C57_mean_twice (t : OpacityType) (w : R -> R -> R) (nus : list R) (m : MeanCoefficient) : sf = false ->
  mean_absorption u sf w nus t = Some m ->
  exists base code, absorption_opacity u sf t = Some (base, code) /\
    let ru := mass_ u / length_ u ^ 3 in
    forall rho T Ye, m rho T Ye = length_ u * (rho * ru) * (sum_over nus (w (T * temperature_ u)) /
      sum_over nus (fun nu => w (T * temperature_ u) nu * (rho * ru / (length_ u * base (rho * ru * ru) (T * temperature_ u * temperature_ u) Ye (nu / time_ u))))).
Proof.
  intros S E. unfold mean_absorption in E. destruct (absorption_opacity u sf t) as [[base code]|] eqn:A; [|discriminate].
  rewrite S in E. injection E as <-. exists base, code. split; [reflexivity|]. intros ru rho T Ye.
  assert (C : code = NonCGSUnits base (GetTimeCodeToCGS u) (GetMassCodeToCGS u) (GetLengthCodeToCGS u) (GetTemperatureCodeToCGS u)).
  { unfold absorption_opacity in A. rewrite S in A. destruct t; injection A as <- <-; reflexivity. }
  rewrite C. unfold MeanNonCGSUnits, MeanOpacityBase, NonCGSUnits. fold (GetTimeCodeToCGS u).
  unfold GetTimeCodeToCGS, GetMassCodeToCGS, GetLengthCodeToCGS, GetTemperatureCodeToCGS. fold ru.
  rewrite (sum_ext nus (fun nu => w (T * temperature_ u) nu * (rho * ru / (base (rho * ru * ru) (T * temperature_ u * temperature_ u) Ye (nu / time_ u) * length_ u))) (fun nu => w (T * temperature_ u) nu * (rho * ru / (length_ u * base (rho * ru * ru) (T * temperature_ u * temperature_ u) Ye (nu / time_ u))))).
  - ring.
  - intros nu _. do 2 f_equal. ring.
Qed.
(** a gray absorption opacity therefore comes out wrong by the factor mass unit / length unit^2: it is
    the coefficient of the configured opacity, the one the other transport method uses, only if that
    factor is 1 *)
Theorem C57_mean_refuted (kappa : R) (w : R -> R -> R) (nus : list R) : sf = false -> 0 < kappa -> nus <> [] -> (forall T nu, 0 < w T nu) ->
  exists base code m, absorption_opacity u sf (OpacGray kappa) = Some (base, code) /\
    mean_absorption u sf w nus (OpacGray kappa) = Some m /\
    (forall rho T Ye nu, 0 < rho -> m rho T Ye = mass_ u / length_ u ^ 2 * code rho T Ye nu) /\
    ((exists rho T Ye nu, 0 < rho /\ m rho T Ye = code rho T Ye nu) <-> mass_ u = length_ u ^ 2).
Proof.
  intros S Hk N W. destruct units_pos as (P1 & P2 & _).
  destruct (absorption_opacity u sf (OpacGray kappa)) as [[base code]|] eqn:A.
  2:{ unfold absorption_opacity in A. rewrite S in A. discriminate. }
  destruct (mean_absorption u sf w nus (OpacGray kappa)) as [m|] eqn:M.
  2:{ unfold mean_absorption in M. rewrite A in M. discriminate. }
  exists base, code, m. split; [reflexivity|]. split; [reflexivity|].
  assert (Ec : forall rho T Ye nu, code rho T Ye nu = kappa * rho * (mass_ u / length_ u ^ 3) * length_ u).
  { unfold absorption_opacity in A. rewrite S in A. injection A as <- <-. intros. unfold NonCGSUnits, Gray, GetMassCodeToCGS, GetLengthCodeToCGS. ring. }
  assert (Em : forall rho T Ye, 0 < rho -> m rho T Ye = kappa * rho * (mass_ u / length_ u ^ 3) ^ 2 * length_ u ^ 2).
  { intros rho T Ye Hr. unfold mean_absorption in M. rewrite A, S in M. injection M as <-. unfold MeanNonCGSUnits.
    unfold GetMassCodeToCGS, GetLengthCodeToCGS.
    assert (Pr : 0 < mass_ u / length_ u ^ 3) by (apply Rdiv_lt_0_compat; [|apply pow_lt]; lra).
    rewrite (gray_mean w nus (kappa * (mass_ u / length_ u ^ 3) * length_ u)); [ring|auto|auto| | |].
    - apply Rmult_lt_0_compat; [apply Rmult_lt_0_compat|]; auto.
    - apply Rmult_lt_0_compat; auto.
    - intros nu. rewrite Ec. ring. }
  assert (Q : forall rho T Ye nu, 0 < rho -> m rho T Ye = mass_ u / length_ u ^ 2 * code rho T Ye nu).
  { intros rho T Ye nu Hr. rewrite Em, Ec by auto. field. lra. }
  split; [exact Q|]. split.
  - intros (rho & T & Ye & nu & Hr & E). rewrite (Q rho T Ye nu Hr) in E.
    assert (Pc : 0 < code rho T Ye nu).
    { rewrite Ec. assert (0 < mass_ u / length_ u ^ 3) by (apply Rdiv_lt_0_compat; [|apply pow_lt]; lra).
      apply Rmult_lt_0_compat; [|exact P2]. apply Rmult_lt_0_compat; [|assumption]. apply Rmult_lt_0_compat; auto. }
    assert (E' : mass_ u / length_ u ^ 2 = 1) by (apply (Rmult_eq_reg_r (code rho T Ye nu)); lra).
    apply (Rmult_eq_reg_r (/ length_ u ^ 2)); [|apply Rinv_neq_0_compat, pow_nonzero; lra].
    fold (mass_ u / length_ u ^ 2). rewrite E'. field. lra.
  - intros E. exists 1, 0, 0, 0. split; [lra|]. rewrite (Q 1 0 0 0) by lra. rewrite E. field. lra.
Qed.
End C57.
Print Assumptions C57_coefficients.
Print Assumptions C57_accepts.
Print Assumptions C57_scattering.
Print Assumptions C57_mean_scattering.
Print Assumptions C57_mean_scale_free.
Print Assumptions C57_mean_twice.
Print Assumptions C57_mean_refuted.
(** units of one kilometre and one solar mass: the factor is about 2e23 *)
Example C57_units_ex : let pc := {| g_newt := 667 / 10 ^ 10; c_light := 3 * 10 ^ 10; k_b := / 10 ^ 16; h_planck := / 10 ^ 26; m_p := / 10 ^ 24 |} in
  let pin := {| in_scale_free := Some false; geom_mass_g := None; geom_mass_msun := None; geom_length_cm := Some (10 ^ 5); fluid_density_cgs := None; fluid_mass_g := Some (2 * 10 ^ 33) |} in
  physical pc /\ positive_input pin /\ exists u, UnitConversions pc 0 pin = Some u /\ scale_free_ u = false /\ mass_ u / length_ u ^ 2 = 2 * 10 ^ 23.
Proof.
  cbv zeta. split; [unfold physical; cbn [g_newt c_light k_b h_planck m_p]; repeat split; lra|].
  split; [unfold positive_input; cbn; repeat split; lra|].
  unfold UnitConversions. cbn [in_scale_free geom_mass_g geom_mass_msun geom_length_cm fluid_density_cgs fluid_mass_g exists_ Nat.add Nat.eqb].
  eexists. split; [reflexivity|]. split; [reflexivity|]. cbn [mass_ length_].
  apply (Rmult_eq_reg_r ((10 ^ 5) ^ 2)); [|apply pow_nonzero, pow_nonzero; lra].
  unfold Rdiv. rewrite Rmult_assoc, Rinv_l by (apply pow_nonzero, pow_nonzero; lra). ring.
Qed.
