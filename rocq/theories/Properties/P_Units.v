(** C34: unit conversions. *)
From Coq Require Import Reals ZArith Lra Lia Bool List.
From Flocq Require Import Core BinarySingleNaN Relative.
From Verif.Model Require Import Num Units.
From Verif.Spec Require Import UnitsSpec.
From Verif.Proofs Require Import NumR NumB64.
Local Open Scope R_scope.

(** the four units a constructed object uses *)
Definition base_of (u : Units R) : Base :=
  {| unit_M := GetMassCodeToCGS u; unit_L := GetLengthCodeToCGS u; unit_T := GetTimeCodeToCGS u; unit_K := GetTemperatureCodeToCGS u |}.
(** the physical constants are positive *)
Definition physical (pc : Constants R) : Prop := 0 < g_newt pc /\ 0 < c_light pc /\ 0 < k_b pc /\ 0 < h_planck pc /\ 0 < m_p pc.
(** every scale that is given is positive *)
Definition positive_input (pin : UnitsInput R) : Prop :=
  let pos o := match o with Some x => 0 < x | None => True end in
  pos (geom_mass_g pin) /\ pos (geom_mass_msun pin) /\ pos (geom_length_cm pin) /\ pos (fluid_density_cgs pin) /\ pos (fluid_mass_g pin).

Definition given {A} (o : option A) : bool := match o with Some _ => true | None => false end.
(** ** Which inputs are accepted: no scale at all, or exactly one for the geometry and one for the fluid *)
Theorem C34_accepts : forall (pc : Constants R) junk pin,
  (exists u, UnitConversions pc junk pin = Some u) <->
  in_scale_free pin <> Some false \/
  (In (given (geom_mass_g pin), given (geom_mass_msun pin), given (geom_length_cm pin)) ((true, false, false) :: (false, true, false) :: (false, false, true) :: nil) /\
   given (fluid_density_cgs pin) = negb (given (fluid_mass_g pin))).
Proof.
  intros pc junk [sf gm gs gl fd fm]. unfold UnitConversions. cbn [in_scale_free geom_mass_g geom_mass_msun geom_length_cm fluid_density_cgs fluid_mass_g].
  destruct sf as [[|]|]; cbn [exists_].
  - split; [intros _; left; discriminate|intros _; eexists; reflexivity].
  - destruct gm, gs, gl, fd, fm; cbn [exists_ Nat.add Nat.eqb given negb In]; split; intros K;
      first [ right; split; [tauto|reflexivity] | eexists; reflexivity | destruct K as [u K]; discriminate K
            | exfalso; destruct K as [K|[K1 K2]]; [apply K; reflexivity|]; intuition discriminate ].
  - split; [intros _; left; discriminate|intros _; eexists; reflexivity].
Qed.
Print Assumptions C34_accepts.

Lemma pz0 x : powerRZ x 0 = 1. Proof. reflexivity. Qed.
Lemma pz1 x : powerRZ x 1 = x. Proof. unfold powerRZ. simpl. ring. Qed.
Lemma pz2 x : powerRZ x 2 = x * x. Proof. unfold powerRZ. simpl. ring. Qed.
Lemma pz3 x : powerRZ x 3 = x * x * x. Proof. unfold powerRZ. simpl. ring. Qed.
Lemma pzm1 x : powerRZ x (-1) = / x. Proof. unfold powerRZ. simpl. f_equal. ring. Qed.
Lemma pzm2 x : powerRZ x (-2) = / (x * x). Proof. unfold powerRZ. simpl. f_equal. ring. Qed.
Lemma pzm3 x : powerRZ x (-3) = / (x * x * x). Proof. unfold powerRZ. simpl. f_equal. ring. Qed.
Lemma solar_pos : 0 < (solar_mass : R).
Proof. unfold solar_mass. num_R. apply IZR_lt. reflexivity. Qed.
(** what a successful construction says *)
Lemma constructed : forall pc junk pin u, physical pc -> positive_input pin -> UnitConversions pc junk pin = Some u ->
  0 < mass_ u /\ 0 < length_ u /\ 0 < temperature_ u /\
  number_density_ u = / (length_ u * length_ u * length_ u) /\ mass_density_ u = mass_ u * number_density_ u /\
  ((scale_free_ u = true /\ mass_ u = 1 /\ length_ u = 1 /\ time_ u = 1 /\ energy_ u = 1 /\ temperature_ u = 1) \/
   (scale_free_ u = false /\ time_ u = length_ u / c_light pc /\ energy_ u = mass_ u * (c_light pc * c_light pc) /\ temperature_ u = / k_b pc /\ in_scale_free pin = Some false)).
Proof.
  intros pc junk [sf gm gs gl fd fm] u (Pg & Pc & Pk & Ph & Pm) (Q1 & Q2 & Q3 & Q4 & Q5). pose proof solar_pos as Ps.
  unfold UnitConversions. cbn [in_scale_free geom_mass_g geom_mass_msun geom_length_cm fluid_density_cgs fluid_mass_g] in *.
  assert (SF : forall v : Units R, Some {| scale_free_ := true; mass_ := none; length_ := none; time_ := none; energy_ := none; number_density_ := none;
            mass_density_ := none; temperature_ := none |} = Some v -> 0 < mass_ v /\ 0 < length_ v /\ 0 < temperature_ v /\
  number_density_ v = / (length_ v * length_ v * length_ v) /\ mass_density_ v = mass_ v * number_density_ v /\
  (scale_free_ v = true /\ mass_ v = 1 /\ length_ v = 1 /\ time_ v = 1 /\ energy_ v = 1 /\ temperature_ v = 1)).
  { intros v K. injection K as <-. cbn [scale_free_ mass_ length_ time_ energy_ number_density_ mass_density_ temperature_]. num_R. repeat split; lra. }
  assert (L : forall m, 0 < m -> 0 < g_newt pc * m / (c_light pc * c_light pc)) by (intros m Hm; apply Rdiv_lt_0_compat; nra).
  destruct sf as [[|]|]; [intros K; destruct (SF _ K) as (?&?&?&?&?&?); tauto| |intros K; destruct (SF _ K) as (?&?&?&?&?&?); tauto]. clear SF.
  unfold pow2, powm3. num_R.
  assert (Fin : forall l m : R, 0 < l -> 0 < m -> Some {| scale_free_ := false; mass_ := m; length_ := l; time_ := l / c_light pc; energy_ := m * (c_light pc * c_light pc);
              number_density_ := 1 / (l * l * l); mass_density_ := m * (1 / (l * l * l)); temperature_ := 1 / k_b pc |} = Some u ->
    0 < mass_ u /\ 0 < length_ u /\ 0 < temperature_ u /\
    number_density_ u = / (length_ u * length_ u * length_ u) /\ mass_density_ u = mass_ u * number_density_ u /\
    (scale_free_ u = false /\ time_ u = length_ u / c_light pc /\ energy_ u = mass_ u * (c_light pc * c_light pc) /\ temperature_ u = / k_b pc /\ Some false = Some false)).
  { intros l m Hl Hm K. injection K as <-. cbn [scale_free_ mass_ length_ time_ energy_ number_density_ mass_density_ temperature_].
    assert (0 < / k_b pc) by (apply Rinv_0_lt_compat; exact Pk). unfold Rdiv. rewrite !Rmult_1_l. repeat split; assumption. }
  assert (Fin' : forall l m : R, 0 < l -> 0 < m -> Some {| scale_free_ := false; mass_ := m; length_ := l; time_ := l / c_light pc; energy_ := m * (c_light pc * c_light pc);
              number_density_ := 1 / (l * l * l); mass_density_ := m * (1 / (l * l * l)); temperature_ := 1 / k_b pc |} = Some u ->
    0 < mass_ u /\ 0 < length_ u /\ 0 < temperature_ u /\
    number_density_ u = / (length_ u * length_ u * length_ u) /\ mass_density_ u = mass_ u * number_density_ u /\
    ((scale_free_ u = true /\ mass_ u = 1 /\ length_ u = 1 /\ time_ u = 1 /\ energy_ u = 1 /\ temperature_ u = 1) \/ (scale_free_ u = false /\ time_ u = length_ u / c_light pc /\ energy_ u = mass_ u * (c_light pc * c_light pc) /\ temperature_ u = / k_b pc /\ Some false = Some false))).
  { intros l m Hl Hm K. destruct (Fin l m Hl Hm K) as (A1 & A2 & A3 & A4 & A5 & A6). tauto. }
  clear Fin. set (sm := solar_mass : R) in *. clearbody sm.
  assert (L3 : forall l d : R, 0 < l -> 0 < d -> 0 < l * l * l * d) by (intros l d Hl Hd; repeat apply Rmult_lt_0_compat; assumption).
  assert (L2 : forall m : R, 0 < m -> 0 < g_newt pc * (m * sm) / (c_light pc * c_light pc)) by (intros m Hm; apply L, Rmult_lt_0_compat; assumption).
  destruct gm as [gm|], gs as [gs|], gl as [gl|], fd as [fd|], fm as [fm|]; cbn [exists_ Nat.add Nat.eqb]; try discriminate; intros K; cbv zeta in K;
    apply Fin' in K; auto.
Qed.

(** ** Factors in the two directions are inverse, for every quantity *)
Theorem C34_inverse : forall pc junk pin u, physical pc -> positive_input pin -> UnitConversions pc junk pin = Some u ->
  GetMassCodeToCGS u * GetMassCGSToCode u = 1 /\ GetLengthCodeToCGS u * GetLengthCGSToCode u = 1 /\
  GetTimeCodeToCGS u * GetTimeCGSToCode u = 1 /\ GetEnergyCodeToCGS u * GetEnergyCGSToCode u = 1 /\
  GetNumberDensityCodeToCGS u * GetNumberDensityCGSToCode u = 1 /\ GetMassDensityCodeToCGS u * GetMassDensityCGSToCode u = 1 /\
  GetTemperatureCodeToCGS u * GetTemperatureCGSToCode u = 1 /\ GetEntropyCodeToCGS u * GetEntropyCGSToCode u = 1.
Proof.
  intros pc junk pin u P Q K. destruct (constructed _ _ _ _ P Q K) as (Hm & Hl & Ht & Hn & Hd & Hc). destruct P as (Pg & Pc & Pk & Ph & Pm).
  assert (Nn : 0 < number_density_ u) by (rewrite Hn; apply Rinv_0_lt_compat; repeat apply Rmult_lt_0_compat; assumption).
  assert (Nd : 0 < mass_density_ u) by (rewrite Hd; apply Rmult_lt_0_compat; assumption).
  assert (Ti : 0 < time_ u /\ 0 < energy_ u).
  { destruct Hc as [(_ & _ & _ & -> & -> & _)|(_ & -> & -> & _)]; [lra|]. split; [apply Rdiv_lt_0_compat; assumption|repeat apply Rmult_lt_0_compat; assumption]. }
  unfold GetMassCodeToCGS, GetMassCGSToCode, GetLengthCodeToCGS, GetLengthCGSToCode, GetTimeCodeToCGS, GetTimeCGSToCode, GetEnergyCodeToCGS, GetEnergyCGSToCode,
    GetNumberDensityCodeToCGS, GetNumberDensityCGSToCode, GetMassDensityCodeToCGS, GetMassDensityCGSToCode, GetTemperatureCodeToCGS, GetTemperatureCGSToCode, GetEntropyCodeToCGS, GetEntropyCGSToCode.
  num_R. repeat split; field; lra.
Qed.
Print Assumptions C34_inverse.

(** ** Every factor is the one its dimension prescribes, also those assembled elsewhere *)
Theorem C34_dimensions : forall pc junk pin u, physical pc -> positive_input pin -> UnitConversions pc junk pin = Some u ->
  let b := base_of u in
  GetEnergyCodeToCGS u = one_code_unit b d_energy /\
  GetNumberDensityCodeToCGS u = one_code_unit b d_number_density /\
  GetMassDensityCodeToCGS u = one_code_unit b d_mass_density /\
  GetEntropyCodeToCGS u = one_code_unit b d_specific_entropy /\
  (forall x, x * CGSToCodeFact u = in_code b d_heating_rate x) /\
  (forall x, NuInCode u x = in_code b d_frequency x) /\
  (forall x, EnergyDensityInCode u x = in_code b d_energy_density x) /\
  (forall t, let t' := EosBoundsInCode pc u t in
     T_lim t' = in_code b d_temperature (T_lim t) /\ rho_lim t' = in_code b d_mass_density (rho_lim t) /\
     (scale_free_ u = false -> sie_lim t' = in_code b d_specific_energy (sie_lim t))).
Proof.
  intros pc junk pin u P Q K b. destruct (constructed _ _ _ _ P Q K) as (Hm & Hl & Ht & Hn & Hd & Hc). destruct P as (Pg & Pc & Pk & Ph & Pm).
  assert (Ti : 0 < time_ u /\ energy_ u = mass_ u * (length_ u * length_ u) / (time_ u * time_ u)).
  { destruct Hc as [(_ & Em & El & -> & -> & _)|(_ & -> & -> & _)]; [rewrite Em, El; split; [|field]; lra|].
    split; [apply Rdiv_lt_0_compat; assumption|field; lra]. }
  destruct Ti as [Ti En].
  assert (SE : scale_free_ u = false -> c_light pc * c_light pc = length_ u * length_ u / (time_ u * time_ u)).
  { intros SF. destruct Hc as [(C & _)|(_ & -> & _)]; [congruence|field; lra]. }
  unfold in_code, one_code_unit, b, base_of, EosBoundsInCode, EnergyDensityInCode, NuInCode, CGSToCodeFact, GetMassCodeToCGS, GetMassCGSToCode, GetLengthCodeToCGS, GetTimeCodeToCGS, GetTimeCGSToCode, GetEnergyCodeToCGS, GetEnergyCGSToCode,
    GetNumberDensityCodeToCGS, GetNumberDensityCGSToCode, GetMassDensityCodeToCGS, GetTemperatureCodeToCGS, GetEntropyCodeToCGS, pow2.
  cbn [unit_M unit_L unit_T unit_K sie_lim T_lim rho_lim].
  unfold d_energy, d_number_density, d_mass_density, d_specific_entropy, d_heating_rate, d_frequency, d_energy_density, d_temperature, d_specific_energy, dim. cbn [dM dL dT dK].
  rewrite Hd, Hn, En. clear K Q Hc. num_R.
  rewrite ?pz0, ?pz1, ?pz2, ?pz3, ?pzm1, ?pzm2, ?pzm3.
  split; [|split; [|split; [|split; [|split; [|split; [|split]]]]]]; try (intros x); try (field; lra).
  split; [field; lra|]. split; [field; lra|]. intros SF. rewrite (SE SF). field; lra.
Qed.
Print Assumptions C34_dimensions.

(** ** Constants in code units *)
(** With a physical scale the speed of light is 1, a code energy is the rest energy of a code mass,
    and h, m_p, k_B are the cgs values in code units; so k_B T is the same energy in both systems. *)
Theorem C34_constants : forall pc junk pin u, physical pc -> positive_input pin -> UnitConversions pc junk pin = Some u ->
  let b := base_of u in let cc := MakeCodeConstants pc u in
  cc_h cc = in_code b d_action (h_planck pc) /\ cc_c cc = in_code b d_speed (c_light pc) /\
  cc_kb cc = in_code b d_boltzmann (k_b pc) /\ cc_mp cc = in_code b d_mass (m_p pc) /\
  (forall T_cgs, cc_kb cc * in_code b d_temperature T_cgs = in_code b d_energy (k_b pc * T_cgs)) /\
  (scale_free_ u = false -> cc_c cc = 1).
Proof.
  intros pc junk pin u P Q K b cc. destruct (constructed _ _ _ _ P Q K) as (Hm & Hl & Ht & Hn & Hd & Hc). destruct P as (Pg & Pc & Pk & Ph & Pm).
  assert (Ti : 0 < time_ u). { destruct Hc as [(_ & _ & _ & -> & _)|(_ & -> & _)]; [lra|apply Rdiv_lt_0_compat; assumption]. }
  unfold in_code, one_code_unit, b, cc, base_of, MakeCodeConstants, GetMassCodeToCGS, GetMassCGSToCode, GetLengthCodeToCGS, GetLengthCGSToCode, GetTimeCodeToCGS, GetTimeCGSToCode, GetTemperatureCodeToCGS, GetTemperatureCGSToCode.
  cbn [unit_M unit_L unit_T unit_K cc_h cc_c cc_kb cc_mp].
  unfold d_energy, d_action, d_speed, d_boltzmann, d_mass, d_temperature, dim. cbn [dM dL dT dK]. clear K Q. num_R.
  rewrite ?pz0, ?pz1, ?pz2, ?pz3, ?pzm1, ?pzm2, ?pzm3.
  split; [|split; [|split; [|split; [|split]]]]; try (intros x); try (field; lra).
  destruct Hc as [(C & _)|(_ & Et & _)]; [congruence|]. rewrite Et. field. split; lra.
Qed.
Print Assumptions C34_constants.
(** The comment at the constructor ("Assume kb = 1 in code units") does not describe the constants:
    k_B in code units is one over the unit of energy. *)
Theorem C34_boltzmann_refuted : forall pc junk pin u, physical pc -> positive_input pin -> UnitConversions pc junk pin = Some u -> scale_free_ u = false ->
  cc_kb (MakeCodeConstants pc u) = / GetEnergyCodeToCGS u /\ (cc_kb (MakeCodeConstants pc u) = 1 <-> GetMassCodeToCGS u * (c_light pc * c_light pc) = 1).
Proof.
  intros pc junk pin u P Q K SF. destruct (constructed _ _ _ _ P Q K) as (Hm & Hl & Ht & Hn & Hd & Hc). destruct P as (Pg & Pc & Pk & Ph & Pm).
  destruct Hc as [(C & _)|(_ & Et & Ee & Ek & _)]; [congruence|].
  assert (E : cc_kb (MakeCodeConstants pc u) = / GetEnergyCodeToCGS u).
  { unfold MakeCodeConstants, GetMassCGSToCode, GetLengthCGSToCode, GetTimeCGSToCode, GetTemperatureCGSToCode, GetEnergyCodeToCGS. cbn [cc_kb]. num_R. rewrite Et, Ee, Ek. field. repeat split; lra. }
  assert (Pe : 0 < energy_ u) by (rewrite Ee; repeat apply Rmult_lt_0_compat; assumption).
  split; [exact E|]. rewrite E. unfold GetEnergyCodeToCGS, GetMassCodeToCGS. rewrite <- Ee. split; intros K1.
  - rewrite <- (Rinv_inv (energy_ u)), K1. apply Rinv_1.
  - rewrite K1. apply Rinv_1.
Qed.
Print Assumptions C34_boltzmann_refuted.
(** In scale-free units the "code" constants keep their cgs values: c is not 1. *)
Theorem C34_scale_free_refuted : forall (pc : Constants R) junk pin, in_scale_free pin <> Some false ->
  exists u, UnitConversions pc junk pin = Some u /\ cc_c (MakeCodeConstants pc u) = c_light pc /\ cc_h (MakeCodeConstants pc u) = h_planck pc /\
    (forall t, sie_lim (EosBoundsInCode pc u t) = sie_lim t / (c_light pc * c_light pc)).
Proof.
  intros pc junk pin SF. unfold UnitConversions. destruct (in_scale_free pin) as [[|]|]; try (exfalso; apply SF; reflexivity);
    eexists; (split; [reflexivity|]); unfold MakeCodeConstants, GetMassCGSToCode, GetLengthCGSToCode, GetTimeCGSToCode, EosBoundsInCode, pow2; cbn [cc_c cc_h sie_lim mass_ length_ time_]; num_R; repeat split; try (intros; reflexivity); field.
Qed.
Print Assumptions C34_scale_free_refuted.
(** ** The scales asked for are the scales obtained *)
(** The geometry's mass has gravitational radius 1; a fluid density of 1 is the density asked for;
    Newton's constant is 1 in code units exactly when fluid and geometry use the same mass. *)
Theorem C34_scales : forall pc junk pin u, physical pc -> positive_input pin -> UnitConversions pc junk pin = Some u -> scale_free_ u = false ->
  let b := base_of u in
  (forall m, geom_mass_g pin = Some m \/ (exists s, geom_mass_msun pin = Some s /\ m = s * 1989e30) -> in_code b d_length (g_newt pc * m / (c_light pc)^2) = 1 /\ (in_code b d_newton (g_newt pc) = 1 <-> GetMassCodeToCGS u = m)) /\
  (forall l, geom_length_cm pin = Some l -> GetLengthCodeToCGS u = l) /\
  (forall d, fluid_density_cgs pin = Some d -> GetMassDensityCodeToCGS u = d) /\
  (forall m, fluid_mass_g pin = Some m -> GetMassCodeToCGS u = m).
Proof.
  intros pc junk pin u P Q K SF b. destruct (constructed _ _ _ _ P Q K) as (Hm & Hl & Ht & Hn & Hd & Hc). destruct P as (Pg & Pc & Pk & Ph & Pm).
  destruct Hc as [(C & _)|(_ & Et & Ee & Ek & F)]; [congruence|].
  assert (SM : (solar_mass : R) = 1989e30). { unfold solar_mass. num_R. rewrite mult_IZR. reflexivity. }
  unfold UnitConversions in K. rewrite F in K.
  assert (G : forall m, length_ u = g_newt pc * m / (c_light pc * c_light pc) -> in_code b d_length (g_newt pc * m / (c_light pc)^2) = 1 /\ (in_code b d_newton (g_newt pc) = 1 <-> GetMassCodeToCGS u = m)).
  { intros m E. assert (Pm' : 0 < m). { destruct (Rlt_le_dec 0 m) as [|N]; [assumption|exfalso]. assert (0 < length_ u * (c_light pc * c_light pc)) by (repeat apply Rmult_lt_0_compat; assumption).
      rewrite E in H. unfold Rdiv in H. rewrite Rmult_assoc, Rinv_l in H by nra. nra. }
    unfold in_code, one_code_unit, b, base_of, d_length, d_newton, dim, GetLengthCodeToCGS, GetMassCodeToCGS, GetTimeCodeToCGS, GetTemperatureCodeToCGS. cbn [unit_M unit_L unit_T unit_K dM dL dT dK].
    rewrite ?pz0, ?pz1, ?pz2, ?pz3, ?pzm1, ?pzm2, ?pzm3. rewrite Et. split; [rewrite E; field; repeat split; lra|].
    assert (Q1 : g_newt pc / (/ mass_ u * (length_ u * length_ u * length_ u) * / (length_ u / c_light pc * (length_ u / c_light pc)) * 1) = mass_ u / m).
    { rewrite E. field. repeat split; lra. }
    rewrite Q1. split; intros K1; [|rewrite K1; field; lra]. assert (K2 : mass_ u / m * m = 1 * m) by (rewrite K1; reflexivity). unfold Rdiv in K2. rewrite Rmult_assoc, Rinv_l in K2 by lra. lra. }
  unfold GetLengthCodeToCGS, GetMassDensityCodeToCGS. rewrite Hd, Hn. unfold GetMassCodeToCGS in *.
  destruct pin as [sf gm gs gl fd fm]. cbn [in_scale_free geom_mass_g geom_mass_msun geom_length_cm fluid_density_cgs fluid_mass_g] in *. clear Q F.
  set (sm := solar_mass : R) in *. clearbody sm. subst sm.
  destruct gm as [gm|], gs as [gs|], gl as [gl|], fd as [fd|], fm as [fm|]; cbn [exists_ Nat.add Nat.eqb] in K; try discriminate K;
    injection K as <-; cbn [scale_free_ mass_ length_ time_ energy_ number_density_ mass_density_ temperature_] in *; unfold pow2, powm3 in *; num_R;
    (split; [|split; [|split]]); intros x Kx; try discriminate Kx;
    try (injection Kx as <-; first [reflexivity | field; repeat split; lra]);
    try (destruct Kx as [Kx|(s & Kx & ->)]; try discriminate Kx; injection Kx as <-; apply G; rewrite ?SM; reflexivity);
    try (injection Kx as <-; match goal with H : 0 < ?l |- context [/ (?l * ?l * ?l)] => set (L := l) in *; field; lra end).
Qed.
Print Assumptions C34_scales.
(** ** Nothing checks that the scales are positive: a zero length is accepted and the factors in the
    two directions are not inverse (NaN) *)
Definition pc64 : Constants B64 := {| g_newt := nlit 66738 (10^12); c_light := nlit 29979245800 1; k_b := nlit 13806488 (10^14); h_planck := nlit 1 1; m_p := nlit 1 1 |}.
Theorem C34_zero_refuted : exists u, UnitConversions pc64 (nlit 0 1) {| in_scale_free := Some false; geom_mass_g := None; geom_mass_msun := None; geom_length_cm := Some (nlit 0 1); fluid_density_cgs := Some (nlit 1 1); fluid_mass_g := None |} = Some u /\
  is_nan (nmul (GetLengthCodeToCGS u) (GetLengthCGSToCode u)) = true /\ is_nan (GetMassDensityCodeToCGS u) = true.
Proof. eexists. split; [reflexivity|]. split; vm_compute; reflexivity. Qed.
Print Assumptions C34_zero_refuted.

(** ** In binary64 the two factors multiply to 1 or to the double below 1, never to more *)
Lemma b2r_two53 : B2R (nlit 1 9007199254740992 : B64) = / 9007199254740992 /\ is_finite (nlit 1 9007199254740992 : B64) = true.
Proof.
  split; [|vm_compute; reflexivity].
  assert (E : B2SF (nlit 1 9007199254740992 : B64) = SpecFloat.S754_finite false (2 ^ 52) (-105)) by (vm_compute; reflexivity).
  rewrite <- SF2R_B2SF, E. unfold SF2R, F2R; cbn -[Rmult Rinv]; lra.
Qed.
Lemma finite_one : is_finite (nlit 1 1 : B64) = true. Proof. vm_compute. reflexivity. Qed.
Lemma rnd_tie : rnd64 (1 + / 9007199254740992) = 1.
Proof.
  destruct b2r_two53 as [E F]. destruct (add64 (nlit 1 1) (nlit 1 9007199254740992) finite_one F) as [A _].
  - rewrite B2R_lit_one, E. rewrite Rabs_right by lra. apply (Rle_trans _ 2); [lra|]. change 2 with (bpow radix2 1). apply bpow_le. lia.
  - rewrite B2R_lit_one, E in A. rewrite <- A. rewrite <- B2R_lit_one. f_equal. apply B2SF_inj. vm_compute. reflexivity.
Qed.
Lemma rnd_below : rnd64 (1 - / 9007199254740992) = 1 - / 9007199254740992.
Proof.
  assert (E : B2R (nsub (nlit 1 1) (nlit 1 9007199254740992) : B64) = 1 - / 9007199254740992).
  { assert (E : B2SF (nsub (nlit 1 1) (nlit 1 9007199254740992) : B64) = SpecFloat.S754_finite false (2 ^ 53 - 1) (-53)) by (vm_compute; reflexivity).
    rewrite <- SF2R_B2SF, E. unfold SF2R, F2R; cbn -[Rmult Rinv]; lra. }
  rewrite <- E. apply rnd64_B2R.
Qed.
Lemma factor64 (f : B64) : is_finite f = true -> bpow radix2 (-1000) <= Rabs (B2R f) <= bpow radix2 1000 ->
  let p := nmul f (ndiv none f) in is_finite p = true /\ 1 - / 9007199254740992 <= B2R p <= 1.
Proof.
  intros Ff [Hlo Hhi] p. pose proof (bpow_gt_0 radix2 (-1000)) as P0.
  assert (Nz : B2R f <> 0) by (intros E; rewrite E, Rabs_R0 in Hlo; lra).
  assert (Pf : 0 < Rabs (B2R f)) by lra.
  assert (I1 : / Rabs (B2R f) <= bpow radix2 1000). { replace 1000%Z with (- - 1000)%Z by lia. rewrite bpow_opp. apply Rinv_le; [exact P0|exact Hlo]. }
  assert (I2 : bpow radix2 (-1000) <= / Rabs (B2R f)). { change (-1000)%Z with (- (1000))%Z. rewrite bpow_opp. apply Rinv_le; [exact Pf|exact Hhi]. }
  assert (A : Rabs (1 / B2R f) = / Rabs (B2R f)). { unfold Rdiv. rewrite Rmult_1_l. apply Rabs_inv. }
  destruct (div64 none f finite_one Nz) as [D FD].
  { unfold none. rewrite B2R_lit_one, A. apply (Rle_trans _ _ _ I1). apply bpow_le. lia. }
  unfold none in D. rewrite B2R_lit_one in D.
  assert (Re : Rabs (rnd64 (1 / B2R f) - 1 / B2R f) <= / 2 * bpow radix2 (- (53) + 1) * Rabs (1 / B2R f)).
  { unfold rnd64. assert (G : forall x, round radix2 fexp64 ZnearestE x = round radix2 (FLT_exp (-1074) 53) ZnearestE x) by reflexivity. rewrite G.
    apply relative_error_N_FLT; [reflexivity|]. rewrite A. apply (Rle_trans _ _ _ (bpow_le radix2 (-1074 + 53 - 1) (-1000) ltac:(lia))). exact I2. }
  assert (U : / 2 * bpow radix2 (- (53) + 1) = / 9007199254740992). { change (bpow radix2 (- (53) + 1)) with (/ IZR (2 ^ 52)). change (IZR (2 ^ 52)) with 4503599627370496. lra. }
  rewrite U, A in Re.
  assert (Pr : Rabs (B2R f * rnd64 (1 / B2R f) - 1) <= / 9007199254740992).
  { replace (B2R f * rnd64 (1 / B2R f) - 1) with (B2R f * (rnd64 (1 / B2R f) - 1 / B2R f)) by (field; exact Nz).
    rewrite Rabs_mult. apply (Rle_trans _ (Rabs (B2R f) * (/ 9007199254740992 * / Rabs (B2R f)))); [apply Rmult_le_compat_l; lra|]. right. field. lra. }
  assert (Bd : 1 - / 9007199254740992 <= B2R f * rnd64 (1 / B2R f) <= 1 + / 9007199254740992).
  { revert Pr. unfold Rabs. destruct (Rcase_abs _); lra. }
  destruct (mul64 f (ndiv none f) Ff FD) as [M FM].
  { unfold none. rewrite D. rewrite Rabs_right by lra. apply (Rle_trans _ 2); [lra|]. change 2 with (bpow radix2 1). apply bpow_le. lia. }
  split; [exact FM|]. unfold p. rewrite M. unfold none. rewrite D. split.
  - rewrite <- rnd_below at 1. apply rnd64_le. lra.
  - apply (Rle_trans _ (rnd64 (1 + / 9007199254740992))); [apply rnd64_le; lra|]. rewrite rnd_tie. lra.
Qed.
Theorem C34_rounding : forall u : Units B64,
  (forall f, In f (mass_ u :: length_ u :: time_ u :: energy_ u :: number_density_ u :: mass_density_ u :: temperature_ u :: nil) ->
     is_finite f = true /\ bpow radix2 (-1000) <= Rabs (B2R f) <= bpow radix2 1000) ->
  forall p, In p (nmul (GetMassCodeToCGS u) (GetMassCGSToCode u) :: nmul (GetLengthCodeToCGS u) (GetLengthCGSToCode u) ::
                  nmul (GetTimeCodeToCGS u) (GetTimeCGSToCode u) :: nmul (GetEnergyCodeToCGS u) (GetEnergyCGSToCode u) ::
                  nmul (GetNumberDensityCodeToCGS u) (GetNumberDensityCGSToCode u) :: nmul (GetMassDensityCodeToCGS u) (GetMassDensityCGSToCode u) ::
                  nmul (GetTemperatureCodeToCGS u) (GetTemperatureCGSToCode u) :: nil) ->
  is_finite p = true /\ 1 - / 2 ^ 53 <= B2R p <= 1.
Proof.
  intros u Hu p Ip. replace (2 ^ 53) with 9007199254740992 by (cbn [pow]; lra).
  assert (Q : exists f, In f (mass_ u :: length_ u :: time_ u :: energy_ u :: number_density_ u :: mass_density_ u :: temperature_ u :: nil) /\ p = nmul f (ndiv none f)).
  { destruct Ip as [<-|[<-|[<-|[<-|[<-|[<-|[<-|[]]]]]]]]; [exists (mass_ u)|exists (length_ u)|exists (time_ u)|exists (energy_ u)|exists (number_density_ u)|exists (mass_density_ u)|exists (temperature_ u)];
      (split; [cbn [In]; tauto|reflexivity]). }
  destruct Q as (f & If & ->). destruct (Hu f If) as [F Bd]. apply factor64; assumption.
Qed.
Print Assumptions C34_rounding.
(** the product really can miss 1: a length unit of 49 cm *)
Theorem C34_rounding_refuted : exists u, UnitConversions pc64 (nlit 0 1) {| in_scale_free := Some false; geom_mass_g := None; geom_mass_msun := None; geom_length_cm := Some (nlit 49 1); fluid_density_cgs := Some (nlit 1 1); fluid_mass_g := None |} = Some u /\
  neqb (nmul (GetLengthCodeToCGS u) (GetLengthCGSToCode u)) none = false /\ is_finite (nmul (GetLengthCodeToCGS u) (GetLengthCGSToCode u)) = true.
Proof. eexists. split; [reflexivity|]. split; vm_compute; reflexivity. Qed.
Print Assumptions C34_rounding_refuted.

(** hypotheses met: a black hole of ten solar masses surrounded by gas of 1e-5 g/cm^3 *)
Example C34_case : let pc := {| g_newt := 6.67384e-8; c_light := 2.99792458e10; k_b := 1.3806488e-16; h_planck := 6.62606957e-27; m_p := 1.672621777e-24 |} in
  let pin := {| in_scale_free := Some false; geom_mass_g := None; geom_mass_msun := Some 10; geom_length_cm := None; fluid_density_cgs := Some 1e-5; fluid_mass_g := None |} in
  physical pc /\ positive_input pin /\ exists u, UnitConversions pc 0 pin = Some u /\ scale_free_ u = false.
Proof.
  intros pc pin. split; [|split; [|eexists; split; reflexivity]].
  - unfold physical, pc. cbn [g_newt c_light k_b h_planck m_p]. repeat split; apply Rdiv_lt_0_compat || idtac; lra.
  - unfold positive_input, pin. cbn [geom_mass_g geom_mass_msun geom_length_cm fluid_density_cgs fluid_mass_g]. repeat split; lra.
Qed.
