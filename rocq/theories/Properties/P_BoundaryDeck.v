(** C67: the boundary condition named in the deck, in the ghost zones and in the fluxes. *)
From Coq Require Import Reals ZArith String List Bool Lia Lra.
From Flocq Require Import Core.
From Verif.Model Require Import Num ParFor Config FluxFix Boundary BoundaryDeck.
From Verif.Spec Require Import ConfigSpec FluxSpec BoundaryDeckSpec.
From Verif.Proofs Require Import NumR ParForProofs FluxFixProofs ConfigProofs BoundaryDeckProofs.
From Verif.Properties Require Import P_FluxFix.
Import ListNotations.
Local Open Scope string_scope.
Local Open Scope R_scope.

Lemma entry_eq dir inner : face_entry dir inner = entry dir inner.
Proof. destruct dir, inner; reflexivity. Qed.
Lemma starts_inv g d b d' : run (boundary_startup g) d = Some (b, d') ->
  (forall dir inner, wants d dir inner (mesh_name b dir inner)) /\
  (forall dir inner, flux_name b dir inner = second_name d dir inner) /\
  fst (sample_inner b) = mocmc_boundary (flux_name b D1 true) /\ fst (sample_outer b) = mocmc_boundary (flux_name b D1 false).
Proof.
  intros E. apply startup_inv in E. destruct E as (E1 & E2 & E3). split; [|split; [|exact E3]]; intros dir inner;
  [specialize (E1 dir inner); unfold asks in E1|specialize (E2 dir inner)]; rewrite entry_eq in *; assumption.
Qed.
Lemma registered_offered dir n : registered dir n = offered dir n.
Proof.
  unfold registered. destruct (String.eqb n "reflect") eqn:E1; [apply String.eqb_eq in E1; subst n; reflexivity|].
  destruct (String.eqb n "gr_outflow") eqn:E2; [apply String.eqb_eq in E2; subst n; destruct dir; reflexivity|].
  destruct (String.eqb n "polar") eqn:E3; [apply String.eqb_eq in E3; subst n; destruct dir; reflexivity|].
  rewrite andb_false_r. apply String.eqb_neq in E1, E2, E3.
  unfold offered. repeat (match goal with |- context [match ?x with EmptyString => _ | String _ _ => _ end] => destruct x end; try (exfalso; congruence); try reflexivity);
  repeat (match goal with |- context [match ?x with Ascii.Ascii _ _ _ _ _ _ _ _ => _ end] => destruct x end);
  repeat (match goal with |- context [if ?b then _ else _] => destruct b end; try reflexivity; try (exfalso; congruence)).
Qed.

(** For every deck that starts: the ghost zones of a face get the condition the deck names for
    the mesh; the fluxes of that face get the one named in the second block, or outflow if the second block
    is silent - whatever the mesh block says. *)
Theorem C67_names : forall is_fmks d b d', run (boundary_startup is_fmks) d = Some (b, d') ->
  forall dir inner, exists name, wants d dir inner name /\
  ghost_condition b dir inner = offered dir name /\
  forall edge ndim nspec hasE moments hasB, let cf := flux_conf b edge ndim nspec hasE moments hasB in
  (user cf dir inner = true <-> edge dir inner = true /\ offered dir name <> None) /\
  (second_name d dir inner = "gr_outflow" -> bc cf dir inner = GrOutflow) /\
  (second_name d dir inner = "reflect" -> bc cf dir inner = Reflect) /\
  (second_name d dir inner = "polar" -> bc cf dir inner = Polar) /\
  (~ In (second_name d dir inner) ["gr_outflow"; "reflect"; "polar"] -> bc cf dir inner = OtherBC).
Proof.
  intros is_fmks d b d' E dir inner. apply starts_inv in E. destruct E as (E1 & E2 & _).
  exists (mesh_name b dir inner). split; [apply E1|]. unfold ghost_condition. rewrite registered_offered. split; [reflexivity|].
  intros edge ndim nspec hasE moments hasB. unfold flux_conf; cbn [user bc]. unfold ghost_condition. rewrite registered_offered, E2.
  split; [|split; [|split; [|split]]].
  - rewrite andb_true_iff. destruct (offered dir (mesh_name b dir inner)); split; intros [K1 K2]; split; try assumption; try reflexivity; try discriminate. congruence.
  - intros ->. reflexivity.
  - intros ->. reflexivity.
  - intros ->. reflexivity.
  - intros K. cbn [In] in K. unfold flux_condition. rewrite !(proj2 (String.eqb_neq _ _)) by (intros Q; apply K; rewrite Q; tauto). reflexivity.
Qed.
Print Assumptions C67_names.

(** A well-typed deck starts if it names a condition for all six faces, unless the poles of an FMKS
    mesh are derefined and the SECOND block names a wall or the axis in x2. *)
Theorem C67_starts : forall is_fmks d, well_typed boundary_entries d ->
  (exists b d', run (boundary_startup is_fmks) d = Some (b, d')) <->
  ((forall dir inner, exists name, wants d dir inner name) /\
   (is_fmks = true -> flag d "coordinates" "derefine_poles" true = true ->
    forall inner, ~ In (second_name d D2 inner) ["reflect"; "polar"])).
Proof.
  intros g d W. split.
  - intros (b & d' & E). split.
    + intros dir inner. pose proof (starts_inv _ _ _ _ E) as (E1 & _). exists (mesh_name b dir inner). apply E1.
    + intros -> F inner. unfold boundary_startup in E. apply run_bind_some in E. destruct E as (u & d1 & E & _).
      apply pbc_some in E. destruct E as [E _]. unfold ProcessBoundaryConditions in E. apply bind_some in E. destruct E as (? & _ & E).
      apply bind_some in E. destruct E as (? & E & _). pose proof (guard_inv _ _ E F) as (K1 & K2 & K3 & K4).
      unfold second_name. intros [K|[K|[]]]; destruct inner; cbn [entry] in K; congruence.
  - intros [A K]. apply startup_ok; [exact W| |].
    + intros dir inner. destruct (A dir inner) as (n & N). exists n. unfold asks. rewrite entry_eq. exact N.
    + intros G F. specialize (K G F). pose proof (K true) as K1. pose proof (K false) as K2. unfold second_name in K1, K2. cbn [entry In] in K1, K2.
      cbv zeta. repeat split; intros Q; rewrite Q in *; tauto.
Qed.
Print Assumptions C67_starts.

Lemma matching_flux dir n k : offered dir n = Some k -> flux_condition n = matching k.
Proof.
  rewrite <- registered_offered. unfold registered, flux_condition. destruct (String.eqb n "reflect") eqn:E1.
  - apply String.eqb_eq in E1. subst n. intros E. injection E as <-. reflexivity.
  - destruct (String.eqb n "polar") eqn:E2.
    + apply String.eqb_eq in E2. subst n. destruct dir; cbn; intros E; try discriminate. injection E as <-. reflexivity.
    + rewrite andb_false_r. destruct (String.eqb n "gr_outflow"); [|discriminate]. intros E. injection E as <-. reflexivity.
Qed.
(** If the deck names the same condition in both blocks - or outflow in the first and nothing in the second -
    then ghost zones and fluxes agree; in particular no mass and no energy crosses a wall or the axis and no mass enters through an
    outflow face. *)
Theorem C67_consistent : forall is_fmks d b d', run (boundary_startup is_fmks) d = Some (b, d') ->
  forall dir inner name k, wants d dir inner name -> offered dir name = Some k -> second_name d dir inner = name ->
  ghost_condition b dir inner = Some k /\
  forall edge ndim nspec hasE moments hasB Bx ord (m : FluxMem R) c,
  let cf := flux_conf b edge ndim nspec hasE moments hasB in
  edge dir inner = true -> runs cf Bx ord -> live ndim dir -> on_face Bx dir inner c ->
  condition cf dir inner (matching k) /\
  match k with
  | BOutflow => if inner then FixFluxes cf ord m (dir, CD, c) <= 0 else 0 <= FixFluxes cf ord m (dir, CD, c)
  | _ => FixFluxes cf ord m (dir, CD, c) = 0 /\ FixFluxes cf ord m (dir, Ctau, c) = 0
  end.
Proof.
  intros g d b d' E dir inner name k Wn O S. pose proof (starts_inv _ _ _ _ E) as (E1 & E2 & _).
  assert (N : mesh_name b dir inner = name) by (specialize (E1 dir inner); unfold wants in *; congruence).
  assert (G : ghost_condition b dir inner = Some k) by (unfold ghost_condition; rewrite N, registered_offered; exact O).
  split; [exact G|]. intros edge ndim nspec hasE moments hasB Bx ord m c cf Ed R L F.
  assert (U : user cf dir inner = true) by (unfold cf, flux_conf; cbn [user]; rewrite Ed, G; reflexivity).
  assert (Bc : bc cf dir inner = matching k) by (unfold cf, flux_conf; cbn [bc]; rewrite E2, S; apply (matching_flux dir); exact O).
  assert (C : condition cf dir inner (matching k)) by (split; [exact L|split; assumption]).
  split; [exact C|]. destruct k; cbn [matching] in *.
  - pose proof (C24_outflow cf Bx ord m dir inner c R C F) as (_ & K & _). exact K.
  - split; apply (C24_wall_and_axis cf Bx ord m dir inner c _ R L U F); unfold stopped; rewrite Bc; tauto.
  - assert (dir = D2) as ->. { revert O. rewrite <- registered_offered. unfold registered. destruct (String.eqb name "reflect"); [discriminate|]. destruct dir; [|reflexivity|]; cbn [andb]; destruct (String.eqb name "gr_outflow"); discriminate. }
    split; apply (C24_wall_and_axis cf Bx ord m D2 inner c _ R L U F); unfold stopped; rewrite Bc; tauto.
Qed.
Print Assumptions C67_consistent.

(** A deck that names a wall or the axis for the mesh only - as all the shipped ones with walls do - gets mirrored ghost
    zones, but fluxes treated as outflow: every mass flux out of the domain and every energy flux whatever
    passes the wall unchanged. *)
Theorem C67_wall_refuted : forall is_fmks d b d', run (boundary_startup is_fmks) d = Some (b, d') ->
  forall dir inner name k, wants d dir inner name -> offered dir name = Some k -> k <> BOutflow ->
  d ("phoebus", entry dir inner) = None ->
  ghost_condition b dir inner = Some k /\
  forall edge ndim nspec hasE moments hasB Bx ord (m : FluxMem R) c,
  let cf := flux_conf b edge ndim nspec hasE moments hasB in
  edge dir inner = true -> runs cf Bx ord -> live ndim dir -> on_face Bx dir inner c ->
  ((if inner then m (dir, CD, c) <= 0 else 0 <= m (dir, CD, c)) -> FixFluxes cf ord m (dir, CD, c) = m (dir, CD, c)) /\
  FixFluxes cf ord m (dir, Ctau, c) = m (dir, Ctau, c).
Proof.
  intros g d b d' E dir inner name k Wn O Hk Ab. pose proof (starts_inv _ _ _ _ E) as (E1 & E2 & _).
  assert (N : mesh_name b dir inner = name) by (specialize (E1 dir inner); unfold wants in *; congruence).
  assert (G : ghost_condition b dir inner = Some k) by (unfold ghost_condition; rewrite N, registered_offered; exact O).
  split; [exact G|]. intros edge ndim nspec hasE moments hasB Bx ord m c cf Ed R L F.
  assert (U : user cf dir inner = true) by (unfold cf, flux_conf; cbn [user]; rewrite Ed, G; reflexivity).
  assert (Bc : bc cf dir inner = GrOutflow).
  { unfold cf, flux_conf; cbn [bc]. rewrite E2. unfold second_name, word. rewrite Ab. reflexivity. }
  split.
  - apply (C24_outflow cf Bx ord m dir inner c R (conj L (conj U Bc)) F).
  - destruct (Req_dec (FixFluxes cf ord m (dir, Ctau, c)) (m (dir, Ctau, c))) as [Q|Q]; [exact Q|exfalso].
    pose proof R as (En & Hnd & Hne & Ho).
    apply Q. rewrite (fix_val cf Bx ord Hne Ho Hnd m dir inner Ctau c En L F) by (apply axis_ghost_not; discriminate).
    apply (side_val_R cf dir inner Ctau _ U); [unfold stopped; rewrite Bc; tauto|discriminate].
Qed.
Print Assumptions C67_wall_refuted.

(** The guard on derefined poles does not see the mesh block: an axis named there, with a silent second block, is accepted. *)
Theorem C67_poles_refuted : forall d, well_typed boundary_entries d ->
  (forall dir inner, exists name, wants d dir inner name) ->
  wants d D2 true "polar" -> wants d D2 false "polar" -> (forall inner, d ("phoebus", entry D2 inner) = None) ->
  flag d "coordinates" "derefine_poles" true = true ->
  exists b d', run (boundary_startup true) d = Some (b, d') /\
  ghost_condition b D2 true = Some BPolar /\ ghost_condition b D2 false = Some BPolar.
Proof.
  intros d W A P1 P2 N F. destruct (proj2 (C67_starts true d W)) as (b & d' & E).
  { split; [exact A|]. intros _ _ inner. unfold second_name, word. rewrite N. cbn. intros [K|[K|[]]]; discriminate. }
  exists b, d'. split; [exact E|]. pose proof (starts_inv _ _ _ _ E) as (E1 & _).
  assert (N1 : mesh_name b D2 true = "polar") by (specialize (E1 D2 true); unfold wants in *; congruence).
  assert (N2 : mesh_name b D2 false = "polar") by (specialize (E1 D2 false); unfold wants in *; congruence).
  unfold ghost_condition. rewrite N1, N2. split; reflexivity.
Qed.
Print Assumptions C67_poles_refuted.

(** Samples: the boundary of the Monte Carlo samples is read from the same entry of the second block.  It is outflow exactly if that entry is
    "outflow" - a name the fluxes do not know: no deck has both, and the mass flux of such a face is not limited at all.  With a silent second block the samples
    get the boundary meant for periodic meshes (reflection at temperature 0, mocmc.cpp:299-330). *)
Theorem C67_samples_refuted : forall is_fmks d b d', run (boundary_startup is_fmks) d = Some (b, d') ->
  (fst (sample_inner b) = mo_outflow <-> second_name d D1 true = "outflow") /\
  (fst (sample_inner b) = mo_fixed_temp <-> second_name d D1 true = "fixed_temp") /\
  (d ("phoebus", "ix1_bc") = None -> fst (sample_inner b) = mo_periodic) /\
  (fst (sample_inner b) <> mo_periodic ->
   forall edge ndim nspec hasE moments hasB Bx ord (m : FluxMem R) v c,
   let cf := flux_conf b edge ndim nspec hasE moments hasB in
   runs cf Bx ord -> on_face Bx D1 true c -> v = CD \/ v = Ctau -> FixFluxes cf ord m (D1, v, c) = m (D1, v, c)).
Proof.
  intros g d b d' E. pose proof (starts_inv _ _ _ _ E) as (_ & E2 & E3 & _). rewrite E3, E2. clear E3.
  set (n := second_name d D1 true) in *. assert (Nn : n = second_name d D1 true) by reflexivity.
  assert (D : (n = "outflow" /\ mocmc_boundary n = mo_outflow) \/ (n = "fixed_temp" /\ mocmc_boundary n = mo_fixed_temp) \/
              (n <> "outflow" /\ n <> "fixed_temp" /\ mocmc_boundary n = mo_periodic)).
  { unfold mocmc_boundary. destruct (String.eqb n "outflow") eqn:X; [apply String.eqb_eq in X; tauto|].
    destruct (String.eqb n "fixed_temp") eqn:Y; [apply String.eqb_eq in Y; tauto|]. apply String.eqb_neq in X, Y. tauto. }
  split; [|split; [|split]].
  - destruct D as [[D1' D2']|[[D1' D2']|(D1' & D2' & D3')]]; split; intros K; try congruence; rewrite D1' in *; discriminate.
  - destruct D as [[D1' D2']|[[D1' D2']|(D1' & D2' & D3')]]; split; intros K; try congruence; rewrite D1' in *; discriminate.
  - intros K. assert (Q : n = "gr_outflow") by (rewrite Nn; unfold second_name, word; cbn [entry]; rewrite K; reflexivity). rewrite Q. reflexivity.
  - intros K edge ndim nspec hasE moments hasB Bx ord m v c cf R F Hv.
    assert (Bc : bc cf D1 true = OtherBC).
    { unfold cf, flux_conf; cbn [bc]. rewrite E2. fold n. destruct D as [[-> _]|[[-> _]|(_ & _ & Q)]]; [reflexivity|reflexivity|congruence]. }
    pose proof R as (En & Hnd & Hne & Ho).
    rewrite (fix_val cf Bx ord Hne Ho Hnd m D1 true v c En I F) by (apply axis_ghost_not; destruct Hv as [-> | ->]; discriminate).
    destruct (user cf D1 true) eqn:U.
    + apply (side_val_R cf D1 true v _ U); [unfold stopped; rewrite Bc; tauto|rewrite Bc; discriminate].
    + unfold side_val. rewrite U. reflexivity.
Qed.
Print Assumptions C67_samples_refuted.

(** the deck of a star in a box: walls at r = 0 (x1), periodic x2 and x3 (inputs/tov.pin) *)
Definition star_deck : deck := assoc
  [ (("parthenon/mesh", "ix1_bc"), VStr "reflect"); (("parthenon/mesh", "ox1_bc"), VStr "gr_outflow");
    (("parthenon/mesh", "ix2_bc"), VStr "periodic"); (("parthenon/mesh", "ox2_bc"), VStr "periodic");
    (("parthenon/mesh", "ix3_bc"), VStr "periodic"); (("parthenon/mesh", "ox3_bc"), VStr "periodic") ].
Lemma star_typed : well_typed boundary_entries star_deck.
Proof.
  intros k t v I E. exfalso. cbn [boundary_entries app map In] in I.
  repeat (destruct I as [I|I]; [injection I as <- <-; cbv in E; discriminate|]). exact I.
Qed.
Lemma star_named : forall dir inner, exists name, wants star_deck dir inner name.
Proof. intros [] []; eexists; reflexivity. Qed.
Example C67_wall_nonvacuous : exists b d', run (boundary_startup false) star_deck = Some (b, d') /\
  wants star_deck D1 true "reflect" /\ offered D1 "reflect" = Some BReflect /\ star_deck ("phoebus", entry D1 true) = None /\
  ghost_condition b D1 true = Some BReflect /\ ghost_condition b D2 true = None /\
  let cf := flux_conf b (fun _ _ => true) 1 0 false false false in
  runs cf box2 (fun d inner => box_list (face_box box2 d inner)) /\ on_face box2 D1 true (0, 5, 2)%Z /\ live 1 D1 /\
  FixFluxes cf (fun d inner => box_list (face_box box2 d inner)) (fun _ => -1 : R) (D1, CD, (0, 5, 2)%Z) = -1.
Proof.
  destruct (proj2 (C67_starts false star_deck star_typed)) as (b & d' & E); [split; [exact star_named|discriminate]|].
  exists b, d'. split; [exact E|]. split; [reflexivity|]. split; [reflexivity|]. split; [reflexivity|].
  pose proof (starts_inv _ _ _ _ E) as (E1 & _).
  assert (N2 : mesh_name b D2 true = "periodic") by (pose proof (E1 D2 true : Some (VStr "periodic") = Some (VStr _)) as Q; injection Q; intros Q'; symmetry; exact Q').
  destruct (C67_wall_refuted _ _ _ _ E D1 true "reflect" BReflect eq_refl eq_refl ltac:(discriminate) eq_refl) as [G X].
  split; [exact G|]. split; [unfold ghost_condition; rewrite N2; reflexivity|]. cbv zeta.
  assert (R : runs (flux_conf b (fun _ _ => true) 1 0 false false false) box2 (fun d inner => box_list (face_box box2 d inner))).
  { split; [reflexivity|]. split; [cbn; tauto|]. split; [unfold nonempty; cbn; lia|]. intros. apply order_box_list. }
  assert (F : on_face box2 D1 true (0, 5, 2)%Z) by (cbn; lia).
  split; [exact R|]. split; [exact F|]. split; [exact I|].
  apply (X _ _ _ _ _ _ _ _ (fun _ => -1) _ eq_refl R I F). lra.
Qed.
(** both blocks agree: a deck for C67_consistent, and one for the poles *)
Definition sealed_deck : deck := put star_deck ("phoebus", "ix1_bc") (VStr "reflect").
Example C67_consistent_nonvacuous : exists b d', run (boundary_startup false) sealed_deck = Some (b, d') /\
  wants sealed_deck D1 true "reflect" /\ second_name sealed_deck D1 true = "reflect" /\ wants sealed_deck D1 false "gr_outflow" /\ second_name sealed_deck D1 false = "gr_outflow".
Proof.
  assert (W : well_typed boundary_entries sealed_deck).
  { intros k t v I E. cbn [boundary_entries app map In] in I.
    repeat (destruct I as [I|I]; [injection I as <- <-; cbv in E; (discriminate || (injection E as <-; reflexivity))|]). destruct I. }
  destruct (proj2 (C67_starts false sealed_deck W)) as (b & d' & E).
  - split; [|discriminate]. intros [] []; eexists; reflexivity.
  - exists b, d'. split; [exact E|]. repeat split; reflexivity.
Qed.
Definition pole_deck : deck := put (put star_deck ("parthenon/mesh", "ix2_bc") (VStr "polar")) ("parthenon/mesh", "ox2_bc") (VStr "polar").
Example C67_poles_nonvacuous : well_typed boundary_entries pole_deck /\ (forall dir inner, exists name, wants pole_deck dir inner name) /\
  wants pole_deck D2 true "polar" /\ wants pole_deck D2 false "polar" /\ (forall inner, pole_deck ("phoebus", entry D2 inner) = None) /\
  flag pole_deck "coordinates" "derefine_poles" true = true.
Proof.
  split; [|split; [intros [] []; eexists; reflexivity|split; [reflexivity|split; [reflexivity|split; [intros []; reflexivity|reflexivity]]]]].
  intros k t v I E. exfalso. cbn [boundary_entries app map In] in I.
  repeat (destruct I as [I|I]; [injection I as <- <-; cbv in E; discriminate|]). exact I.
Qed.
