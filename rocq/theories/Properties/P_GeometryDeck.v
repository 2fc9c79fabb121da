(** C63: the geometry is the one the deck asks for, and a spacetime everywhere when the deck is
    regular -- which the start-up does not check. *)
From Coq Require Import Reals String ZArith List Bool Lra Psatz Ranalysis5.
From Flocq Require Import Core.
From Verif.Model Require Import Config Geometry GeometryDeck Robust.
From Verif.Spec Require Import Tensor GeomSpec SystemSpec ConfigSpec GeometryDeckSpec.
From Verif.Proofs Require Import NumR ConfigProofs.
From Verif.Properties Require Import P_Geometry.
Import ListNotations.
Local Open Scope string_scope.
Local Open Scope R_scope.

Definition geometry_defaults (g : geometry) : deck := assoc
  match g with
  | gMinkowski | gSphericalMinkowski => []
  | gBoostedMinkowski => [ (("coordinates", "vx"), VReal 0); (("coordinates", "vy"), VReal 0); (("coordinates", "vz"), VReal 0) ]
  | gFLRW => [ (("coordinates", "a0"), VReal 1); (("coordinates", "dadt"), VReal 1) ]
  | gSnake => [ (("geometry", "a"), VReal (3 / 10)); (("geometry", "alpha"), VReal 1); (("geometry", "vy"), VReal 0);
                (("geometry", "k"), VReal (2 * PI)); (("geometry", "kmult"), VReal 1) ]
  | gInchworm => [ (("geometry", "a"), VReal (3 / 10)); (("geometry", "k"), VReal (PI / 2)) ]
  | gSphericalKS => [ (("geometry", "a"), VReal 0) ]
  end.
Lemma wf_geometry g : wf (geometry_defaults g) (geometry_Initialize g).
Proof.
  destruct g; cbn [geometry_Initialize]; try apply wf_Ret;
    unfold boosted_Initialize, flrw_Initialize, snake_Initialize, inchworm_Initialize, sks_Initialize; wfs.
Qed.

Lemma rl a b : Rlt_bool a b = true <-> a < b.
Proof. destruct (Rlt_bool_spec a b); split; intros; try lra; try discriminate; reflexivity. Qed.

(** Every deck whose entries are numbers: it is refused exactly when a boost component is not
    below the speed of light or the initial scale factor not positive; otherwise the run uses the
    geometry with the deck's parameters, and the defaults where it gives none. *)
Theorem C63_deck : forall g d, well_typed (geometry_entries g) d ->
  match run (geometry_Initialize g) d with
  | Some (s, _) => admitted g d /\ s = asked g d
  | None => ~ admitted g d
  end.
Proof.
  intros g d W. pose proof (run_pure _ _ (wf_geometry g) d d (fun k => or_introl eq_refl)) as P.
  assert (Q : pure (geometry_Initialize g) d = Some (asked g d) /\ admitted g d \/ pure (geometry_Initialize g) d = None /\ ~ admitted g d).
  { destruct g; cbn [geometry_Initialize asked admitted] in *; try (left; split; [reflexivity|exact I]);
      unfold boosted_Initialize, flrw_Initialize, snake_Initialize, inchworm_Initialize, sks_Initialize;
      rewrite ?pure_bind;
      repeat (first [rewrite (gor' _ _ _ _ _ W) by (cbn; tauto); cbv beta; rewrite ?pure_bind]).
    - assert (B : forall x, (Rlt_bool (-1) x && Rlt_bool x 1)%bool = true <-> -1 < x < 1) by (intros x; rewrite andb_true_iff, !rl; tauto).
      fold (velocity d "vx") (velocity d "vy") (velocity d "vz").
      destruct (Rlt_bool (-1) (velocity d "vx") && Rlt_bool (velocity d "vx") 1)%bool eqn:E1.
      2:{ right; split; [reflexivity|]. intros A. assert (H := A "vx" (or_introl eq_refl)). apply B in H. congruence. }
      cbn [Require pure]. rewrite ?pure_bind.
      destruct (Rlt_bool (-1) (velocity d "vy") && Rlt_bool (velocity d "vy") 1)%bool eqn:E2.
      2:{ right; split; [reflexivity|]. intros A. assert (H := A "vy" (or_intror (or_introl eq_refl))). apply B in H. congruence. }
      cbn [Require pure]. rewrite ?pure_bind.
      destruct (Rlt_bool (-1) (velocity d "vz") && Rlt_bool (velocity d "vz") 1)%bool eqn:E3.
      2:{ right; split; [reflexivity|]. intros A. assert (H := A "vz" (or_intror (or_intror (or_introl eq_refl)))). apply B in H. congruence. }
      left; split; [reflexivity|]. apply B in E1, E2, E3. intros n [<- | [<- | [<- | []]]]; assumption.
    - destruct (Rlt_bool 0 (number d "coordinates" "a0" 1)) eqn:E.
      + apply rl in E. left; split; [reflexivity|assumption].
      + right; split; [reflexivity|]. intros A. apply rl in A. congruence.
    - left; split; [reflexivity|exact I].
    - left; split; [reflexivity|exact I].
    - left; split; [reflexivity|exact I]. }
  destruct (run (geometry_Initialize g) d) as [[s d']|].
  - destruct P as [P _]. destruct Q as [[Q A]|[Q _]]; [split; [exact A|congruence]|congruence].
  - destruct Q as [[Q A]|[Q A]]; [congruence|exact A].
Qed.
Print Assumptions C63_deck.

Definition deck_of (l : list (key * R)) : deck := assoc (map (fun e => (fst e, VReal (snd e))) l).
Lemma deck_of_typed l t : (forall k v, In (k, v) t -> v = TReal) -> well_typed t (deck_of l).
Proof.
  intros Ht k ty0 v I E. rewrite (Ht _ _ I). clear -E. unfold deck_of in E. induction l as [|[k0 x] l IH]; cbn in E; [discriminate|].
  destruct (key_eqb k k0); [injection E as <-; reflexivity|apply IH, E].
Qed.
Lemma entries_real g k v : In (k, v) (geometry_entries g) -> v = TReal.
Proof. destruct g; cbn; intuition congruence. Qed.
(** a deck of the boosted frame is accepted, one at the speed of light refused *)
Example C63_deck_nonvacuous :
  (exists d', run (geometry_Initialize gBoostedMinkowski) (deck_of [(("coordinates", "vx"), 1 / 2)]) = Some (BoostedMinkowski (1 / 2) 0 0, d')) /\
  run (geometry_Initialize gBoostedMinkowski) (deck_of [(("coordinates", "vx"), 1)]) = None /\
  (exists d', run (geometry_Initialize gSnake) (deck_of [(("geometry", "kmult"), 2)]) = Some (Snake (3 / 10) (2 * PI * 2) 1 0, d')).
Proof.
  assert (T : forall g l, well_typed (geometry_entries g) (deck_of l)) by (intros g l; apply deck_of_typed; intros k v H; exact (entries_real g k v H)).
  split; [|split].
  - pose proof (C63_deck gBoostedMinkowski _ (T _ [(("coordinates", "vx"), 1 / 2)])) as H.
    destruct (run _ _) as [[s d']|]; [destruct H as [_ ->]; exists d'; reflexivity|].
    exfalso; apply H. intros n [<- | [<- | [<- | []]]]; cbn; lra.
  - pose proof (C63_deck gBoostedMinkowski _ (T _ [(("coordinates", "vx"), 1)])) as H.
    destruct (run _ _) as [[s d']|]; [|reflexivity]. destruct H as [H _]. specialize (H "vx" (or_introl eq_refl)). cbn in H. lra.
  - pose proof (C63_deck gSnake _ (T _ [(("geometry", "kmult"), 2)])) as H.
    destruct (run _ _) as [[s d']|]; [destruct H as [_ ->]; exists d'; reflexivity|]. exfalso; apply H. exact I.
Qed.

(** Reading twice, or restarting from the stored deck, gives the same geometry. *)
Theorem C63_restart : forall g d s d', run (geometry_Initialize g) d = Some (s, d') ->
  run (geometry_Initialize g) d' = Some (s, d') /\ forall k v, d k = Some v -> d' k = Some v.
Proof. intros g d s d' H. split; [apply (run_again _ _ _ _ H)|intros k v; apply (run_keeps _ _ _ _ _ _ H)]. Qed.
Print Assumptions C63_restart.

(** the places where each family degenerates *)
Lemma flrw_ok a0 dadt : 0 < a0 -> ((forall X, 0 <= X.[0] -> consistent_at (FLRW a0 dadt) X) <-> 0 <= dadt).
Proof.
  intros Ha. split.
  - intros H. destruct (Rle_lt_dec 0 dadt) as [|Hn]; [assumption|exfalso].
    assert (T : 0 <= a0 / (- dadt)) by (apply Rmult_le_pos; [lra|apply Rlt_le, Rinv_0_lt_compat; lra]).
    specialize (H (fun _ => a0 / (- dadt)) T). pose proof (adm_det3 _ _ _ _ _ _ _ _ H) as [D0 _].
    assert (Z : flrw_a a0 dadt (a0 / - dadt) = 0) by (unfold flrw_a; field; lra).
    cbn [FLRW DetGamma] in D0. rewrite Z in D0. lra.
  - intros Hd X HX. apply C10_flrw. pose proof (Rmult_le_pos _ _ Hd HX). lra.
Qed.
Lemma snake_ok a k alpha vy : (forall X, consistent_at (Snake a k alpha vy) X) <-> 0 < alpha.
Proof.
  split; [intros H; exact (adm_lapse_pos _ _ _ _ _ _ _ _ (H (fun _ => 0)))|]. intros H X. apply C10_snake, H.
Qed.
Lemma inchworm_ok a k : (forall X, consistent_at (Inchworm a k) X) <-> Rabs (a * k) < 1.
Proof.
  split.
  - intros H. apply Rnot_le_lt. intros Hk.
    assert (Hk0 : a * k <> 0) by (intros E; rewrite E, Rabs_R0 in Hk; lra).
    assert (Ek : k <> 0) by (intros ->; apply Hk0; ring).
    assert (Hb : -1 <= / (a * k) <= 1).
    { assert (P : 0 < Rabs (a * k)) by lra. assert (Rabs (/ (a * k)) <= 1).
      { rewrite Rabs_inv. rewrite <- Rinv_1. apply Rinv_le_contravar; lra. }
      apply Rabs_le_inv in H0. lra. }
    set (X1 := acos (/ (a * k)) / k). specialize (H (fun _ => X1)).
    assert (Z : GetDelta a k X1 = 1).
    { unfold GetDelta, X1. replace (k * (acos (/ (a * k)) / k)) with (acos (/ (a * k))) by (field; assumption).
      rewrite cos_acos by lra. field. split; [assumption|]. intros ->; apply Hk0; ring. }
    destruct (adm_det3 _ _ _ _ _ _ _ _ H) as [D0 _]. cbn [Inchworm DetGamma] in D0.
    cbv beta zeta in D0. rewrite Z in D0. replace (1 ^ 2 - 2 * 1 + 1) with 0 in D0 by ring. rewrite sqrt_0 in D0. lra.
  - intros H X. apply C10_inchworm. intros E.
    assert (Rabs (a * k * cos (k * X.[1])) = 1) by (rewrite E; apply Rabs_R1).
    rewrite Rabs_mult in H0. assert (C : Rabs (cos (k * X.[1])) <= 1) by (apply Rabs_le, COS_bound).
    pose proof (Rabs_pos (a * k)). pose proof (Rabs_pos (cos (k * X.[1]))). nra.
Qed.

(** Every accepted deck: lapse, metrics, inverses and volume elements fit together (C10) at every
    point of the chart if and only if the universe does not contract, the snake's lapse is
    positive, the inchworm's amplitude times wave number is below one. *)
Theorem C63_spacetime : forall g d s d', well_typed (geometry_entries g) d -> run (geometry_Initialize g) d = Some (s, d') ->
  ((forall X, in_chart g X -> consistent_at s X) <-> regular g d).
Proof.
  intros g d s d' W H. pose proof (C63_deck g d W) as D. rewrite H in D. destruct D as [A ->].
  destruct g; cbn [asked in_chart regular admitted] in *.
  - split; [intros _; exact I|intros _ X _; apply C10_minkowski].
  - split; [intros _; exact I|intros _ X [H1 H2]; apply C10_spherical_minkowski; assumption].
  - split; [intros _; exact I|intros _ X _; apply C10_boosted_minkowski].
  - apply flrw_ok, A.
  - rewrite <- (snake_ok (number d "geometry" "a" (3 / 10)) (number d "geometry" "k" (2 * PI) * number d "geometry" "kmult" 1) _ (number d "geometry" "vy" 0)).
    split; intros Q X; [intros; apply Q; exact I|intros _; apply Q].
  - rewrite <- inchworm_ok. split; intros Q X; [intros; apply Q; exact I|intros _; apply Q].
  - split; [intros _; exact I|intros _ X [H1 H2]; apply C10_spherical_kerr_schild; assumption].
Qed.
Print Assumptions C63_spacetime.
(** the defaults are regular *)
Example C63_spacetime_nonvacuous : forall g, regular g (deck_of []) /\ exists s d', run (geometry_Initialize g) (deck_of []) = Some (s, d').
Proof.
  intros g. split.
  - destruct g; cbn; try exact I; try lra. rewrite Rabs_right; pose proof PI_4; pose proof PI_RGT_0; lra.
  - assert (T : well_typed (geometry_entries g) (deck_of [])) by (apply deck_of_typed; intros k v H; exact (entries_real g k v H)).
    pose proof (C63_deck g _ T) as H. destruct (run _ _) as [[s d']|]; [eauto|]. exfalso; apply H.
    destruct g; cbn; try exact I; try lra. intros n [<- | [<- | [<- | []]]]; cbn; lra.
Qed.

(** VIOLATION: decks that are accepted and are not regular: a collapsing universe (its volume
    element vanishes when the scale factor does), a snake with zero lapse, an inchworm whose
    coordinate folds back. *)
Theorem C63_spacetime_refuted : forall g l, In (g, l)
    [ (gFLRW, [(("coordinates", "dadt"), -1)]); (gSnake, [(("geometry", "alpha"), 0)]); (gInchworm, [(("geometry", "a"), 1)]) ] ->
  exists s d', run (geometry_Initialize g) (deck_of l) = Some (s, d') /\ exists X, in_chart g X /\ ~ consistent_at s X.
Proof.
  intros g l Hin. assert (T : well_typed (geometry_entries g) (deck_of l)) by (apply deck_of_typed; intros k v H; exact (entries_real g k v H)).
  pose proof (C63_deck g _ T) as D. destruct (run (geometry_Initialize g) (deck_of l)) as [[s d']|] eqn:E.
  2:{ exfalso; apply D. destruct Hin as [Q|[Q|[Q|[]]]]; injection Q as <- <-; cbn; try exact I; lra. }
  exists s, d'. split; [reflexivity|]. destruct D as [_ ->].
  destruct Hin as [Q|[Q|[Q|[]]]]; injection Q as <- <-; cbn [asked in_chart].
  - exists (fun _ => 1). split; [lra|]. intros C. destruct (adm_det3 _ _ _ _ _ _ _ _ C) as [D0 _].
    cbn [FLRW DetGamma] in D0. unfold flrw_a in D0. cbn in D0. lra.
  - exists (fun _ => 0). split; [exact I|]. intros C. pose proof (adm_lapse_pos _ _ _ _ _ _ _ _ C) as L. cbn in L. lra.
  - assert (N : ~ (forall X, consistent_at (Inchworm 1 (PI / 2)) X)).
    { rewrite inchworm_ok. rewrite Rabs_right; pose proof PI2_3_2; lra. }
    cbn. set (X := (fun _ => acos (/ (1 * (PI / 2))) / (PI / 2)) : point). exists X. split; [exact I|].
    intros C. apply N. exfalso.
    assert (Z : GetDelta 1 (PI / 2) (X.[1]) = 1).
    { pose proof PI2_3_2. unfold GetDelta, X. replace (PI / 2 * (acos (/ (1 * (PI / 2))) / (PI / 2))) with (acos (/ (1 * (PI / 2)))) by (field; lra).
      rewrite cos_acos; [field; lra|]. rewrite Rmult_1_l. split; [apply Rlt_le, Rlt_trans with 0; [lra|apply Rinv_0_lt_compat; lra]|].
      rewrite <- Rinv_1. apply Rinv_le_contravar; lra. }
    destruct (adm_det3 _ _ _ _ _ _ _ _ C) as [D0 _]. cbn [Inchworm DetGamma] in D0. cbv beta zeta in D0. rewrite Z in D0.
    replace (1 ^ 2 - 2 * 1 + 1) with 0 in D0 by ring. rewrite sqrt_0 in D0. lra.
Qed.
Print Assumptions C63_spacetime_refuted.

(** A collapsing universe is sound up to the time its scale factor vanishes. *)
Theorem C63_flrw_lifetime : forall d s d', well_typed (geometry_entries gFLRW) d -> run (geometry_Initialize gFLRW) d = Some (s, d') ->
  forall X, number d "coordinates" "a0" 1 + number d "coordinates" "dadt" 1 * X.[0] > 0 -> consistent_at s X.
Proof.
  intros d s d' W H X HX. pose proof (C63_deck gFLRW d W) as D. rewrite H in D. destruct D as [A ->]. cbn [asked]. apply C10_flrw. lra.
Qed.
Print Assumptions C63_flrw_lifetime.

(** Zones of the boosted frame move slower than light exactly when the total speed is below one;
    those of the snake when the drift is below the lapse. *)
Theorem C63_rest : forall d s d', well_typed (geometry_entries gBoostedMinkowski) d -> run (geometry_Initialize gBoostedMinkowski) d = Some (s, d') ->
  forall X, rest_timelike s X <-> velocity d "vx" ^ 2 + velocity d "vy" ^ 2 + velocity d "vz" ^ 2 < 1.
Proof.
  intros d s d' W H X. pose proof (C63_deck _ d W) as D. rewrite H in D. destruct D as [A ->].
  unfold rest_timelike. cbn [asked BoostedMinkowski SpacetimeMetric]. cbn -[pow]. split; intros; lra.
Qed.
Print Assumptions C63_rest.
Theorem C63_rest_snake : forall d s d', well_typed (geometry_entries gSnake) d -> run (geometry_Initialize gSnake) d = Some (s, d') ->
  forall X, 0 < number d "geometry" "alpha" 1 -> (rest_timelike s X <-> Rabs (number d "geometry" "vy" 0) < number d "geometry" "alpha" 1).
Proof.
  intros d s d' W H X Ha. pose proof (C63_deck _ d W) as D. rewrite H in D. destruct D as [A ->].
  unfold rest_timelike. cbn [asked Snake SpacetimeMetric]. cbn. set (v := number d "geometry" "vy" 0). set (al := number d "geometry" "alpha" 1) in *.
  clearbody v al. split; intros Q.
  - apply Rabs_def1; nra.
  - apply Rabs_def2 in Q. nra.
Qed.
Print Assumptions C63_rest_snake.

(** VIOLATION: the check looks at one component at a time, so it accepts frames that move faster
    than light: a zone at rest in them is spacelike. *)
Theorem C63_boost_refuted : let d := deck_of [(("coordinates", "vx"), 9 / 10); (("coordinates", "vy"), 9 / 10)] in
  exists s d', run (geometry_Initialize gBoostedMinkowski) d = Some (s, d') /\ forall X, SpacetimeMetric s X 0%nat 0%nat > 0.
Proof.
  intros d. assert (T : well_typed (geometry_entries gBoostedMinkowski) d) by (apply deck_of_typed; intros k v H; exact (entries_real _ k v H)).
  pose proof (C63_deck gBoostedMinkowski d T) as D. destruct (run (geometry_Initialize gBoostedMinkowski) d) as [[s d']|] eqn:E.
  - exists s, d'. split; [reflexivity|]. destruct D as [_ ->]. intros X. cbn. lra.
  - exfalso; apply D. intros n [<- | [<- | [<- | []]]]; cbn; lra.
Qed.
Print Assumptions C63_boost_refuted.

(** VIOLATION: a black hole spinning faster than allowed is accepted: it has no horizon. *)
Theorem C63_spin_refuted : exists s d', run (geometry_Initialize gSphericalKS) (deck_of [(("geometry", "a"), 2)]) = Some (s, d') /\
  s = SphericalKerrSchild 2 /\ forall r, r ^ 2 - 2 * r + 2 ^ 2 <> 0.
Proof.
  set (d := deck_of _). assert (T : well_typed (geometry_entries gSphericalKS) d) by (apply deck_of_typed; intros k v H; exact (entries_real _ k v H)).
  pose proof (C63_deck gSphericalKS d T) as D. destruct (run (geometry_Initialize gSphericalKS) d) as [[s d']|] eqn:E.
  - exists s, d'. split; [reflexivity|]. destruct D as [_ ->]. split; [reflexivity|]. intros r. nra.
  - exfalso; apply D. exact I.
Qed.
Print Assumptions C63_spin_refuted.
