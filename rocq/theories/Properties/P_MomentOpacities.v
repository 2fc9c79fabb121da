(** C71: the opacities of the moment method. *)
From Coq Require Import Reals Lra Lia ZArith Arith List Bool String Psatz.
From Verif.Spec Require Import MomentOpacitySpec UnitsSpec OpacitySpec.
From Verif.Model Require Import Num Units Opacity ParFor MomentOpacities.
From Verif.Proofs Require Import NumR ParForProofs.
From Verif.Properties Require Import P_Units P_Opacity.
Import ListNotations.
Local Open Scope R_scope.

Lemma put_same m a c x : put m a c x Loc_dec (a, c) = x.
Proof. unfold put. destruct (Loc_dec (a, c) (a, c)); congruence. Qed.
Lemma put_other m a c x l : l <> (a, c) -> put m a c x Loc_dec l = m l.
Proof. unfold put. destruct (Loc_dec l (a, c)); congruence. Qed.
(** the arrays the update owns *)
Definition owned (nspec : nat) (a : Array) : bool :=
  match a with aKappaJ s | aKappaH s | aJBB s => Nat.ltb s nspec | _ => false end.

Section Zone.
Variables (o : OpacityTable) (pYe : Z).
Definition ye_of (m : Store) (c : Cell) : R := if (0 <? pYe)%Z then m (aYe, c) else 1 / 2.
Lemma species_val c s m : let m' := one_species o pYe c s m in
  m' (aKappaJ s, c) = RosselandMeanAbsorptionCoefficient o (m (aRho, c)) (m (aTemp, c)) (ye_of m c) s /\
  m' (aKappaH s, c) = RosselandMeanAbsorptionCoefficient o (m (aRho, c)) (m (aTemp, c)) (ye_of m c) s + RosselandMeanScatteringCoefficient o (m (aRho, c)) (m (aTemp, c)) (ye_of m c) s /\
  m' (aJBB s, c) = EnergyDensityFromTemperature o (m (aTemp, c)) s /\
  forall l, l <> (aKappaJ s, c) -> l <> (aKappaH s, c) -> l <> (aJBB s, c) -> m' l = m l.
Proof.
  intros m'. unfold m', one_species. cbv zeta. fold (ye_of m c). repeat split.
  - rewrite put_other by congruence. apply put_same.
  - apply put_same.
  - rewrite !put_other by congruence. apply put_same.
  - intros l A B C. rewrite !put_other by assumption. reflexivity.
Qed.
Definition zone_val (rho T Ye : R) (a : Array) : R :=
  match a with
  | aKappaJ s => RosselandMeanAbsorptionCoefficient o rho T Ye s
  | aKappaH s => RosselandMeanAbsorptionCoefficient o rho T Ye s + RosselandMeanScatteringCoefficient o rho T Ye s
  | aJBB s => EnergyDensityFromTemperature o T s
  | _ => 0
  end.
Lemma zone_all c n m l : one_zone o pYe n c m l =
  if (owned n (fst l) && if Cell_dec (snd l) c then true else false)%bool then zone_val (m (aRho, c)) (m (aTemp, c)) (ye_of m c) (fst l) else m l.
Proof.
  revert l. induction n as [|n IH]; intros [a d]; cbn [fst snd].
  - unfold one_zone. cbn [seq fold_left]. destruct a; cbn; reflexivity.
  - unfold one_zone in *. rewrite seq_S, fold_left_app. cbn [fold_left plus]. cbn [Nat.add]. set (m1 := fold_left _ _ m) in *.
    destruct (species_val c n m1) as (VJ & VH & VB & VO).
    assert (R1 : m1 (aRho, c) = m (aRho, c)) by (rewrite IH; reflexivity).
    assert (R2 : m1 (aTemp, c) = m (aTemp, c)) by (rewrite IH; reflexivity).
    assert (R3 : ye_of m1 c = ye_of m c) by (unfold ye_of; rewrite IH; reflexivity).
    rewrite R1, R2, R3 in VJ, VH. rewrite R2 in VB.
    destruct (Loc_dec (a, d) (aKappaJ n, c)) as [E1|N1]; [injection E1 as -> ->; rewrite VJ; cbn [owned]; rewrite (proj2 (Nat.ltb_lt n (S n))) by lia; destruct (Cell_dec c c); [reflexivity|congruence]|].
    destruct (Loc_dec (a, d) (aKappaH n, c)) as [E2|N2]; [injection E2 as -> ->; rewrite VH; cbn [owned]; rewrite (proj2 (Nat.ltb_lt n (S n))) by lia; destruct (Cell_dec c c); [reflexivity|congruence]|].
    destruct (Loc_dec (a, d) (aJBB n, c)) as [E3|N3]; [injection E3 as -> ->; rewrite VB; cbn [owned]; rewrite (proj2 (Nat.ltb_lt n (S n))) by lia; destruct (Cell_dec c c); [reflexivity|congruence]|].
    rewrite VO by assumption. rewrite IH. cbn [fst snd].
    destruct (Cell_dec d c) as [->|D]; [|rewrite !andb_false_r; reflexivity]. rewrite !andb_true_r.
    assert (Ow : owned (S n) a = owned n a).
    { destruct a as [| | |s|s|s|]; cbn [owned]; try reflexivity.
      all: destruct (Nat.eq_dec s n) as [->|Ns]; [congruence|]; destruct (Nat.ltb_spec s (S n)), (Nat.ltb_spec s n); try reflexivity; lia. }
    rewrite Ow. reflexivity.
Qed.
End Zone.

Lemma ye_index registered d t : registered "p.density"%string = Some d -> registered "p.temperature"%string = Some t -> (0 < d)%Z -> (0 < t)%Z ->
  (0 <? first_index registered opacity_pack "p.ye" 0)%Z = match registered "p.ye"%string with Some _ => true | None => false end.
Proof.
  intros D T Pd Pt. unfold opacity_pack. cbn [first_index]. rewrite D, T. cbn [String.eqb Ascii.eqb Bool.eqb].
  destruct (registered "p.ye"%string).
  - apply Z.ltb_lt. lia.
  - destruct (registered "p.velocity"%string), (registered "r.i.kappaJ"%string), (registered "r.i.kappaH"%string), (registered "r.i.JBB"%string); reflexivity.
Qed.

(** Whatever the order of the loop and the number of species: with the fluid's density and
    temperature registered, every zone of the block, ghosts included, gets for every species the
    coefficients and thermal energy of its own density, temperature and electron fraction (1/2
    when the electron fraction is not evolved); nothing else changes. *)
Theorem C71_zones : forall registered d t o nspec B zones m,
  registered "p.density"%string = Some d -> registered "p.temperature"%string = Some t -> (0 < d)%Z -> (0 < t)%Z ->
  order_of B zones ->
  let m' := MomentCalculateOpacities false registered o nspec zones m in
  let Ye c := match registered "p.ye"%string with Some _ => m (aYe, c) | None => 1 / 2 end in
  (forall c s, in_box B c -> (s < nspec)%nat ->
     zone_opacities (RosselandMeanAbsorptionCoefficient o) (RosselandMeanScatteringCoefficient o) (EnergyDensityFromTemperature o)
       (m (aRho, c)) (m (aTemp, c)) (Ye c) s (m' (aKappaJ s, c)) (m' (aKappaH s, c)) (m' (aJBB s, c))) /\
  (forall a c, ~ in_box B c \/ (forall s, (s < nspec)%nat -> a <> aKappaJ s /\ a <> aKappaH s /\ a <> aJBB s) -> m' (a, c) = m (a, c)).
Proof.
  intros registered d t o nspec B zones m D T Pd Pt [ND IN] m' Ye.
  set (pYe := first_index registered opacity_pack "p.ye" 0).
  assert (YE : forall m c, ye_of pYe m c = match registered "p.ye"%string with Some _ => m (aYe, c) | None => 1 / 2 end).
  { intros m0 c. unfold ye_of, pYe. rewrite (ye_index registered d t D T Pd Pt). destruct (registered "p.ye"%string); reflexivity. }
  assert (Wr : forall c m l, In c zones -> Some (snd l) <> Some c -> one_zone o pYe nspec c m l = m l).
  { intros c m0 l _ N. rewrite zone_all. destruct (Cell_dec (snd l) c); [congruence|]. rewrite andb_false_r. reflexivity. }
  assert (Rd : forall c m m' l, In c zones -> (forall l', Some (snd l') = Some c -> m l' = m' l') -> Some (snd l) = Some c -> one_zone o pYe nspec c m l = one_zone o pYe nspec c m' l).
  { intros c m1 m2 l _ E El. injection El as El. rewrite !zone_all, !YE. rewrite !(E (_, c)) by reflexivity. rewrite (E l) by congruence. reflexivity. }
  assert (In_ : forall c l, In c zones -> snd l = c -> m' l = one_zone o pYe nspec c m l).
  { intros c l Hc El. unfold m', MomentCalculateOpacities. fold pYe. apply (par_for_own (one_zone o pYe nspec) (fun l => Some (snd l)) zones Wr Rd); [exact ND|congruence|exact Hc]. }
  assert (Out_ : forall l, ~ In (snd l) zones -> m' l = m l).
  { intros l N. unfold m', MomentCalculateOpacities. fold pYe. apply (par_for_other (one_zone o pYe nspec) (fun l => Some (snd l)) zones Wr). intros c E. injection E as <-. exact N. }
  split.
  - intros c s Hc Hs. apply IN in Hc. unfold zone_opacities. rewrite !(In_ c) by (exact Hc || reflexivity). rewrite !zone_all. cbn [fst snd owned].
    rewrite (proj2 (Nat.ltb_lt s nspec) Hs). destruct (Cell_dec c c); [|congruence]. cbn [andb zone_val]. rewrite YE. fold (Ye c). auto.
  - intros a c [N|N]; [apply Out_; cbn; rewrite IN; exact N|].
    destruct (in_dec Cell_dec c zones) as [Hc|Hc]; [|apply Out_; exact Hc]. rewrite (In_ c) by (exact Hc || reflexivity). rewrite zone_all. cbn [fst snd].
    assert (owned nspec a = false) as ->; [|reflexivity].
    destruct a as [| | |s|s|s|]; cbn [owned]; try reflexivity.
    all: destruct (Nat.ltb_spec s nspec) as [L|]; [|reflexivity]; destruct (N s L) as (? & ? & ?); congruence.
Qed.
Print Assumptions C71_zones.

(** Doing it again, in any other order, changes nothing. *)
Theorem C71_repeat : forall registered d t o nspec B zones zones' m a c,
  registered "p.density"%string = Some d -> registered "p.temperature"%string = Some t -> (0 < d)%Z -> (0 < t)%Z ->
  order_of B zones -> order_of B zones' ->
  let m' := MomentCalculateOpacities false registered o nspec zones m in
  MomentCalculateOpacities false registered o nspec zones' m' (a, c) = m' (a, c).
Proof.
  intros registered d t o nspec B zones zones' m a c D T Pd Pt O O' m'.
  destruct (C71_zones registered d t o nspec B zones m D T Pd Pt O) as [Z N]. fold m' in Z, N.
  destruct (C71_zones registered d t o nspec B zones' m' D T Pd Pt O') as [Z' N']. cbv zeta in Z, Z'.
  assert (R1 : m' (aRho, c) = m (aRho, c)) by (apply N; right; intros; repeat split; discriminate).
  assert (R2 : m' (aTemp, c) = m (aTemp, c)) by (apply N; right; intros; repeat split; discriminate).
  assert (R3 : m' (aYe, c) = m (aYe, c)) by (apply N; right; intros; repeat split; discriminate).
  destruct (in_dec Cell_dec c zones) as [I|I]; [|apply N'; left; intros K; apply I, O, K].
  apply O in I. destruct (owned nspec a) eqn:Ow.
  - destruct a as [| | |s|s|s|]; cbn [owned] in Ow; try discriminate; apply Nat.ltb_lt in Ow; destruct (Z c s I Ow) as (A1 & A2 & A3), (Z' c s I Ow) as (B1 & B2 & B3).
    + rewrite B1, A1, R1, R2, R3. reflexivity.
    + rewrite B2, A2, R1, R2, R3. reflexivity.
    + rewrite B3, A3, R2. reflexivity.
  - apply N'. right. intros s Hs. apply Nat.ltb_lt in Hs. repeat split; intros ->; cbn [owned] in Ow; congruence.
Qed.
Print Assumptions C71_repeat.

Section Gray.
Context (pc : Constants R) (junk : R) (pin : UnitsInput R) (u : Units R).
Hypothesis Hpc : physical pc.
Hypothesis Hin : positive_input pin.
Hypothesis Hu : UnitConversions pc junk pin = Some u.

Lemma gray_all : forall (ka ks mp : R) (w : R -> R -> R) (nus : list R) mabs rho T Ye,
  0 < ka -> 0 < ks -> 0 < mp -> nus <> [] -> (forall T nu, 0 < w T nu) -> 0 < rho ->
  mean_absorption u (scale_free_ u) w nus (OpacGray ka) = Some mabs ->
  let msc := mean_scattering u (scale_free_ u) mp w nus (SOpacGray ks) in
  let q := mass_ u / length_ u ^ 2 in
  let kJ := mabs rho T Ye in let kH := kJ + msc rho T Ye in
  msc rho T Ye = q * ks * rho /\
  (scale_free_ u = true -> q = 1 /\ kJ = ka * rho /\ kH = (ka + ks) * rho /\ albedo kJ kH = ks / (ka + ks)) /\
  (scale_free_ u = false -> kJ = q * (q * ka * rho) /\
     (kJ = q * ka * rho <-> q = 1) /\ (kH = q * (ka + ks) * rho <-> q = 1) /\ (albedo kJ kH = ks / (ka + ks) <-> q = 1)).
Proof.
  intros ka ks mp w nus mabs rho T Ye Ha Hs Hm N W Hr M msc q kJ kH.
  destruct (units_pos pc junk pin u Hpc Hin Hu) as (P1 & P2 & _).
  assert (Pq : 0 < q) by (apply Rdiv_lt_0_compat; [|apply pow_lt]; assumption).
  assert (Sv : msc rho T Ye = q * ks * rho).
  { destruct (C57_mean_scattering pc junk pin u Hpc Hin Hu mp ks w nus Hm Hs N W) as (cgs & _ & Sm & Cg).
    unfold msc. rewrite (Sm rho T Ye).
    rewrite (b_inv pc junk pin u Hpc Hin Hu), (b_rho pc junk pin u Hpc Hin Hu).
    rewrite Cg. - unfold q. field. lra.
    - apply Rmult_lt_0_compat; [exact Hr|]. apply Rdiv_lt_0_compat; [|apply pow_lt]; assumption. }
  split; [exact Sv|]. split.
  - intros SF. destruct (units_sf pc junk pin u Hpc Hin Hu SF) as (U1 & U2 & _).
    assert (Q1 : q = 1) by (unfold q; rewrite U1, U2; field).
    destruct (C57_mean_scale_free u ka w nus SF Ha N W) as (m & Em & Vm).
    rewrite Em in M. injection M as <-. assert (Kj : kJ = ka * rho) by (apply Vm; exact Hr).
    assert (Kh : kH = (ka + ks) * rho) by (unfold kH; rewrite Kj, Sv, Q1; ring).
    split; [exact Q1|]. split; [exact Kj|]. split; [exact Kh|]. unfold albedo. rewrite Kj, Kh. field. nra.
  - intros SF. destruct (C57_mean_refuted pc junk pin u Hpc Hin Hu ka w nus SF Ha N W) as (base & code & m & Ao & Em & Vm & _).
    rewrite Em in M. injection M as <-.
    assert (Ec : code rho T Ye 0 = q * ka * rho).
    { unfold absorption_opacity in Ao. rewrite SF in Ao. injection Ao as <- <-. unfold NonCGSUnits, Gray, GetMassCodeToCGS, GetLengthCodeToCGS, q. field. lra. }
    assert (Kj : kJ = q * (q * ka * rho)) by (unfold kJ; rewrite (Vm rho T Ye 0 Hr), Ec; reflexivity).
    assert (Kh : kH = q * rho * (q * ka + ks)) by (unfold kH; rewrite Kj, Sv; ring).
    assert (Pk : 0 < q * rho * ka) by (apply Rmult_lt_0_compat; [apply Rmult_lt_0_compat|]; assumption).
    assert (Pr : 0 < q * rho) by (apply Rmult_lt_0_compat; assumption).
    split; [exact Kj|]. split; [|split].
    + rewrite Kj. split; [intros E; apply (Rmult_eq_reg_r (q * rho * ka)); lra|intros ->; ring].
    + rewrite Kh. split; [intros E; apply (Rmult_eq_reg_r (q * rho * ka)); lra|intros ->; ring].
    + assert (Al : albedo kJ kH = ks / (q * ka + ks)).
      { unfold albedo. rewrite Kh, Kj. field. assert (0 < q * ka) by (apply Rmult_lt_0_compat; assumption). repeat split; lra. }
      rewrite Al. assert (0 < q * ka) by (apply Rmult_lt_0_compat; assumption). split.
      * intros E. assert (E2 : q * ka + ks = ka + ks).
        { apply (Rmult_eq_reg_l (ks / ((q * ka + ks) * (ka + ks)))).
          - transitivity (ks / (ka + ks)); [field; lra|]. rewrite <- E. field. lra.
          - apply Rgt_not_eq. apply Rdiv_lt_0_compat; [lra|]. apply Rmult_lt_0_compat; lra. }
        apply (Rmult_eq_reg_r ka); lra.
      * intros ->. rewrite Rmult_1_l. reflexivity.
Qed.

(** Gray absorption [ka] and scattering [ks] in cm^2/g, in a zone of positive density: the
    coefficient wanted per code length is q * kappa * rho with q = mass unit / length unit^2.
    The zone's scattering is that in every unit system; in a scale-free run its absorption, total
    and albedo are right too. *)
Theorem C71_gray : forall (ka ks mp : R) (w : R -> R -> R) (nus : list R) mabs rho T Ye,
  0 < ka -> 0 < ks -> 0 < mp -> nus <> [] -> (forall T nu, 0 < w T nu) -> 0 < rho ->
  mean_absorption u (scale_free_ u) w nus (OpacGray ka) = Some mabs ->
  let msc := mean_scattering u (scale_free_ u) mp w nus (SOpacGray ks) in
  let q := mass_ u / length_ u ^ 2 in
  let kJ := mabs rho T Ye in let kH := kJ + msc rho T Ye in
  msc rho T Ye = q * ks * rho /\
  (scale_free_ u = true -> q = 1 /\ kJ = ka * rho /\ kH = (ka + ks) * rho /\ albedo kJ kH = ks / (ka + ks)).
Proof.
  intros ka ks mp w nus mabs rho T Ye Ha Hs Hm N W Hr M. pose proof (gray_all ka ks mp w nus mabs rho T Ye Ha Hs Hm N W Hr M) as K. cbv zeta in *. tauto.
Qed.
(** In a run with physical units the absorption is q times too large: absorption, total opacity and
    albedo are right exactly when q = 1. *)
Theorem C71_units_refuted : forall (ka ks mp : R) (w : R -> R -> R) (nus : list R) mabs rho T Ye,
  0 < ka -> 0 < ks -> 0 < mp -> nus <> [] -> (forall T nu, 0 < w T nu) -> 0 < rho -> scale_free_ u = false ->
  mean_absorption u (scale_free_ u) w nus (OpacGray ka) = Some mabs ->
  let msc := mean_scattering u (scale_free_ u) mp w nus (SOpacGray ks) in
  let q := mass_ u / length_ u ^ 2 in
  let kJ := mabs rho T Ye in let kH := kJ + msc rho T Ye in
  kJ = q * (q * ka * rho) /\
  (kJ = q * ka * rho <-> q = 1) /\ (kH = q * (ka + ks) * rho <-> q = 1) /\ (albedo kJ kH = ks / (ka + ks) <-> q = 1).
Proof.
  intros ka ks mp w nus mabs rho T Ye Ha Hs Hm N W Hr SF M. pose proof (gray_all ka ks mp w nus mabs rho T Ye Ha Hs Hm N W Hr M) as K. cbv zeta in *.
  destruct K as (_ & _ & K). exact (K SF).
Qed.
End Gray.
Print Assumptions C71_gray.
Print Assumptions C71_units_refuted.

(** two zones, one of them a ghost, two species, no electron fraction: absorption rho, scattering
    2 rho Ye, thermal energy T^4 *)
Example C71_nonvacuous : let o := {| RosselandMeanAbsorptionCoefficient := fun rho T Ye s => rho * INR (S s); RosselandMeanScatteringCoefficient := fun rho T Ye s => 2 * rho * Ye; EnergyDensityFromTemperature := fun T s => T ^ 4 |} in
  let registered n := if String.eqb n "p.ye" then None else Some 1%Z in
  let B := {| ks := 0; ke := 0; js := 0; je := 0; is_ := -1; ie := 0 |} in
  let m : Store := fun l => match fst l with aRho => 3 | aTemp => 2 | _ => 0 end in
  let m' := MomentCalculateOpacities false registered o 2 (box_list B) m in
  order_of B (box_list B) /\ m' (aKappaJ 1, (0, 0, -1)%Z) = 6 /\ m' (aKappaH 1, (0, 0, -1)%Z) = 9 /\ m' (aJBB 0, (0, 0, 0)%Z) = 16 /\ m' (aKappaJ 2, (0, 0, 0)%Z) = 0.
Proof.
  intros o registered B m m'. pose proof (order_box_list B) as O. split; [exact O|].
  destruct (C71_zones registered 1 1 o 2 B (box_list B) m eq_refl eq_refl ltac:(lia) ltac:(lia) O) as [Z N]. fold m' in Z, N. cbv zeta in Z.
  destruct (Z (0, 0, -1)%Z 1%nat ltac:(cbn; lia) ltac:(lia)) as (A1 & A2 & _). destruct (Z (0, 0, 0)%Z 0%nat ltac:(cbn; lia) ltac:(lia)) as (_ & _ & A3).
  rewrite A1, A2, A3. cbn. repeat split; try lra.
Qed.

(** a kilometre and a solar mass: the zone's absorption is 2e23 times too large *)
Example C71_gray_nonvacuous : let pc := {| g_newt := 667 / 10 ^ 10; c_light := 3 * 10 ^ 10; k_b := / 10 ^ 16; h_planck := / 10 ^ 26; m_p := / 10 ^ 24 |} in
  let pin := {| in_scale_free := Some false; geom_mass_g := None; geom_mass_msun := None; geom_length_cm := Some (10 ^ 5); fluid_density_cgs := None; fluid_mass_g := Some (2 * 10 ^ 33) |} in
  exists u m, UnitConversions pc 0 pin = Some u /\ mean_absorption u (scale_free_ u) (fun _ _ => 1) [1] (OpacGray 1) = Some m /\
    m 1 1 (1 / 2) = 2 * 10 ^ 23 * (2 * 10 ^ 23) /\ mean_scattering u (scale_free_ u) 1 (fun _ _ => 1) [1] (SOpacGray 1) 1 1 (1 / 2) = 2 * 10 ^ 23.
Proof.
  intros pc pin. destruct C57_units_ex as (Hpc & Hin & u & Hu & SF & Q). fold pc pin in Hpc, Hin, Hu.
  destruct (C57_mean_refuted pc 0 pin u Hpc Hin Hu 1 (fun _ _ => 1) [1] SF ltac:(lra) ltac:(discriminate) ltac:(intros; lra)) as (_ & _ & m & _ & Em & _).
  exists u, m. split; [exact Hu|]. split; [exact Em|].
  destruct (gray_all pc 0 pin u Hpc Hin Hu 1 1 1 (fun _ _ => 1) [1] m 1 1 (1 / 2) ltac:(lra) ltac:(lra) ltac:(lra) ltac:(discriminate) ltac:(intros; lra) ltac:(lra) Em) as (Sc & _ & K).
  destruct (K SF) as (KJ & _). cbv zeta in *. rewrite Q in *. rewrite KJ, Sc. split; ring.
Qed.
