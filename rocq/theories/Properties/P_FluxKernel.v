(** C46: the finite-volume right-hand side of the fluid. *)
From Coq Require Import ZArith Reals List Bool Arith Lra Lia FunctionalExtensionality.
From Flocq Require Import Core.
From Verif.Model Require Import Num ParFor Reconstruction Relativity Riemann FluxFix FluxKernel.
From Verif.Spec Require Import Tensor GeomSpec SystemSpec FluxSpec.
From Verif.Proofs Require Import NumR RobustProofs GeomBase AdmProofs ParForProofs FluxFixProofs SumProofs FluxCTProofs RiemannProofs FaceProofs ReflectProofs FlatWitness.
From Verif.Properties Require Import P_Recon P_Riemann P_FluxCT.
Import ListNotations.
Local Open Scope R_scope.

(** *** what the kernel must compute *)
(** the vector component along a direction *)
Definition axis (d : Dir) : nat := match d with D1 => 0%nat | D2 => 1%nat | D3 => 2%nat end.
Lemma dnum_axis d : dnum d = axis d. Proof. destruct d; reflexivity. Qed.
(** left and right values of the variables at every face: the upper-face value of the zone
    below, the lower-face value of the zone above *)
Definition face_values (rt : ReconType) (v : PMem) : QMem :=
  fun l d n f => if l then fst (recon rt (v n) d (shift d (-1) f)) else snd (recon rt (v n) d f).
(** flux of one variable and signal speed of the Riemann problem at a face *)
Definition godunov_flux (cf : KConf) (v : PMem) (d : Dir) (f : Cell) (m : ConsVar) : R :=
  face_flux cf (side cf (face_values (krecon cf) v) true d f) (side cf (face_values (krecon cf) v) false d f) d f m.
Definition godunov_speed (cf : KConf) (v : PMem) (d : Dir) (f : Cell) : R :=
  face_speed cf (side cf (face_values (krecon cf) v) true d f) (side cf (face_values (krecon cf) v) false d f).
(** both zones of the face are reconstructed *)
Definition computed (ndim : nat) (B : Box) (d : Dir) (f : Cell) : Prop := in_box (flux_box ndim B) f /\ in_box (flux_box ndim B) (shift d (-1) f).

Lemma par_for_obs {M V : Type} (body : Cell -> M -> M) (obs : M -> V) (c0 : Cell) (x : V) o : (forall c m, c <> c0 -> obs (body c m) = obs m) -> (forall m, obs (body c0 m) = x) ->
  In c0 o -> forall m, obs (par_for o body m) = x.
Proof.
  intros Hn Hx Hi m. unfold par_for.
  assert (A : forall l m, obs m = x -> obs (fold_left (fun m c => body c m) l m) = x).
  { induction l as [|c l IH]; intros m' E; [exact E|]. cbn. apply IH. destruct (Cell_dec c c0) as [->|N]; [apply Hx|rewrite Hn; assumption]. }
  revert m. induction o as [|c o IH]; intros m; [destruct Hi|]. cbn. destruct (Cell_dec c c0) as [->|N]; [apply A, Hx|]. apply IH. destruct Hi; [congruence|assumption].
Qed.
Lemma par_for_keep {M V : Type} (body : Cell -> M -> M) (obs : M -> V) o : (forall c m, In c o -> obs (body c m) = obs m) -> forall m, obs (par_for o body m) = obs m.
Proof.
  unfold par_for. induction o as [|c o IH]; intros H m; [reflexivity|]. cbn. rewrite IH; [apply H; left; reflexivity|]. intros c' m' Hc. apply H. right. exact Hc.
Qed.
Lemma shift_inj d n c c' : shift d n c = shift d n c' -> c = c'.
Proof. destruct c as [[k j] i], c' as [[k' j'] i']. destruct d; cbn; intros E; inversion E; repeat f_equal; lia. Qed.
Lemma shift_back d c : shift d 1 (shift d (-1) c) = c.
Proof. destruct c as [[k j] i]. destruct d; cbn; repeat f_equal; lia. Qed.
Lemma recon_values cf B o1 (v : PMem) (q0 : QMem) (l : bool) (d : Dir) (n : PVar) (f : Cell) : order_of (flux_box (kndim cf) B) o1 -> live_dir (kndim cf) d = true -> in_box (flux_box (kndim cf) B) (if l then shift d (-1) f else f) ->
  par_for o1 (recon_body (krecon cf) (kndim cf) v) q0 l d n f = face_values (krecon cf) v l d n f.
Proof.
  intros (ND & Ho) Hl Hb. apply Ho in Hb. apply (par_for_obs (recon_body (krecon cf) (kndim cf) v) (fun q : QMem => q l d n f) (if l then shift d (-1) f else f)); [| |exact Hb].
  - intros c m Hc. unfold recon_body. rewrite Hl. destruct l.
    + destruct (Cell_dec f (shift d 1 c)) as [E|_]; [|reflexivity]. exfalso. apply Hc. apply (shift_inj d 1). rewrite shift_back. congruence.
    + destruct (Cell_dec f c) as [E|_]; [congruence|reflexivity].
  - intros m. unfold recon_body, face_values. rewrite Hl. destruct l.
    + rewrite shift_back. destruct (Cell_dec f f); [reflexivity|congruence].
    + destruct (Cell_dec f f); [reflexivity|congruence].
Qed.
Lemma side_ext cf q q' l d f : (forall n, q l d n f = q' l d n f) -> side cf q l d f = side cf q' l d f.
Proof.
  intros H. unfold side. assert (E : state_at (khas_B cf) (khas_ye cf) q l d f = state_at (khas_B cf) (khas_ye cf) q' l d f); [|rewrite E; reflexivity].
  unfold state_at. f_equal; try (apply H); try (apply functional_extensionality; intros i).
  - apply H.
  - destruct (khas_B cf); [apply H|reflexivity].
  - destruct (khas_ye cf); [apply H|reflexivity].
Qed.

(** Every order of both loops, every stale content of the arrays: the flux and the speed of a face
    both of whose zones are reconstructed are those of the Riemann problem between the upper-face
    value of the zone below and the lower-face value of the zone above; variables of other
    packages are untouched. *)
Theorem C46_face_flux : forall cf B o1 o2 v q0 m0 d f, order_of (flux_box (kndim cf) B) o1 -> order_of (flux_box (kndim cf) B) o2 -> live_dir (kndim cf) d = true -> computed (kndim cf) B d f ->
  (forall x cv, cons_of cf x = Some cv -> fst (CalculateFluxes cf o1 o2 v q0 m0) (d, x, f) = godunov_flux cf v d f cv) /\
  (forall x, cons_of cf x = None -> fst (CalculateFluxes cf o1 o2 v q0 m0) (d, x, f) = fst m0 (d, x, f)) /\
  snd (CalculateFluxes cf o1 o2 v q0 m0) d f = godunov_speed cf v d f.
Proof.
  intros cf B o1 o2 v q0 m0 d f H1 (ND2 & H2) Hl (Hf & Hp). pose proof (proj2 (H2 f) Hf) as Hi. unfold CalculateFluxes.
  assert (Q : forall l n, par_for o1 (recon_body (krecon cf) (kndim cf) v) q0 l d n f = face_values (krecon cf) v l d n f).
  { intros l n. apply (recon_values cf B); [exact H1|exact Hl|]. destruct l; assumption. }
  set (q := par_for o1 _ q0) in *. clearbody q.
  assert (SL : side cf q true d f = side cf (face_values (krecon cf) v) true d f) by (apply side_ext; apply Q).
  assert (SR : side cf q false d f = side cf (face_values (krecon cf) v) false d f) by (apply side_ext; apply Q).
  split; [|split].
  - intros x cv E. apply (par_for_obs (flux_body_k cf q) (fun m : FMem => fst m (d, x, f)) f); [| |exact Hi].
    + intros c m Hc. cbn. rewrite Hl. destruct (Cell_dec f c); [congruence|reflexivity].
    + intros m. cbn. rewrite Hl, E. destruct (Cell_dec f f); [|congruence]. rewrite SL, SR. reflexivity.
  - intros x E. apply (par_for_keep (flux_body_k cf q) (fun m : FMem => fst m (d, x, f))). intros c m _. cbn. rewrite Hl, E. destruct (Cell_dec f c); reflexivity.
  - apply (par_for_obs (flux_body_k cf q) (fun m : FMem => snd m d f) f); [| |exact Hi].
    + intros c m Hc. cbn. rewrite Hl. destruct (Cell_dec f c); [congruence|reflexivity].
    + intros m. cbn. rewrite Hl. destruct (Cell_dec f f); [|congruence]. rewrite SL, SR. reflexivity.
Qed.
Print Assumptions C46_face_flux.

(** *** nothing stale reaches the update *)
(** fluxes after the constrained-transport pass (fluid.cpp:775-835) *)
Definition fluxes_after (cf : KConf) (o1 o2 o3 o4 : list Cell) (v : PMem) (q0 : QMem) (m0 : FMem) (e0 : Emf R) : FluxMem R :=
  let f := fst (CalculateFluxes cf o1 o2 v q0 m0) in if khas_B cf then fst (FluxCT (kndim cf) o3 o4 e0 f) else f.
Lemma live_live ndim d : (ndim = 1 \/ ndim = 2 \/ ndim = 3)%nat -> live_dir ndim d = true <-> live ndim d.
Proof. intros [->|[->| ->]]; destruct d; cbn; intuition (try discriminate; try lia). Qed.
Lemma zone_computed ndim B d c : (ndim = 1 \/ ndim = 2 \/ ndim = 3)%nat -> live_dir ndim d = true -> in_box B c -> computed ndim B d c /\ computed ndim B d (next d c).
Proof.
  intros Hn Hl Hb. destruct c as [[k j] i]. unfold computed, in_box, flux_box in *. destruct Hn as [->|[->| ->]]; destruct d; try discriminate Hl; cbn in *; lia.
Qed.
Lemma gain_ext ndim dx F F' c : (forall d, live_dir ndim d = true -> F d c = F' d c /\ F d (next d c) = F' d (next d c)) -> gain ndim dx F c = gain ndim dx F' c.
Proof.
  intros H. unfold gain. destruct (H D1 eq_refl) as [-> ->].
  f_equal; [f_equal|]; [destruct (Nat.ltb 1 ndim) eqn:E; [destruct (H D2 E) as [-> ->]|]; reflexivity|destruct (Nat.ltb 2 ndim) eqn:E; [destruct (H D3 E) as [-> ->]|]; reflexivity].
Qed.
(** the electric field at an edge uses only computed fluxes *)
Lemma emf_ext ndim B (f f' : FluxMem R) c : (ndim = 2 \/ ndim = 3)%nat -> in_box (ct_box ndim B) c ->
  (forall d n x, (n < 3)%nat -> live_dir ndim d = true -> computed ndim B d x -> f (d, CB n, x) = f' (d, CB n, x)) ->
  emf_z f c = emf_z f' c /\ (ndim = 3%nat -> emf_x f c = emf_x f' c /\ emf_y f c = emf_y f' c).
Proof.
  intros Hn Hb H. destruct c as [[k j] i].
  split.
  - unfold emf_z. rewrite !(H D1), !(H D2); [reflexivity|..]; destruct Hn as [-> | ->]; try reflexivity; unfold computed, in_box, flux_box, ct_box in *; cbn in *; lia.
  - intros ->. unfold emf_x, emf_y. split; [rewrite !(H D2), !(H D3)|rewrite !(H D1), !(H D3)]; try reflexivity; unfold computed, in_box, flux_box, ct_box in *; cbn in *; lia.
Qed.
Lemma ct_flux_ext ndim B (f f' : FluxMem R) d n c : (ndim = 2 \/ ndim = 3)%nat -> live ndim d -> zone_face B d c -> (n < ndim)%nat ->
  (forall d n x, (n < 3)%nat -> live_dir ndim d = true -> computed ndim B d x -> f (d, CB n, x) = f' (d, CB n, x)) ->
  ct_flux ndim (emf_x f) (emf_y f) (emf_z f) d n c = ct_flux ndim (emf_x f') (emf_y f') (emf_z f') d n c.
Proof.
  intros Hn L (c0 & I0 & F) Hlt H.
  assert (Ic : in_box (ct_box ndim B) c).
  { destruct c0 as [[k j] i]. destruct Hn as [-> | ->]; destruct d; destruct F as [-> | ->]; cbn in *; lia. }
  assert (Nx : forall d', d' <> d -> (live ndim d') -> in_box (ct_box ndim B) (next d' c)).
  { intros d' K L'. destruct c0 as [[k j] i]. destruct Hn as [-> | ->]; destruct d, d'; try congruence; destruct F as [-> | ->]; cbn in *; lia. }
  pose proof (emf_ext ndim B f f' c Hn Ic H) as (Ez & Exy).
  assert (En : forall d', d' <> d -> live ndim d' -> emf_z f (next d' c) = emf_z f' (next d' c) /\ (ndim = 3%nat -> emf_x f (next d' c) = emf_x f' (next d' c) /\ emf_y f (next d' c) = emf_y f' (next d' c))).
  { intros d' K L'. apply (emf_ext ndim B); auto. }
  clear Nx Ic I0 F. unfold ct_flux. destruct Hn as [-> | ->]; destruct d; try (cbn in L; lia); destruct n as [|[|[|n]]]; try lia; cbn [Nat.eqb]; cbv zeta; try reflexivity.
  all: try (destruct (En D1 ltac:(discriminate) I) as (A1 & B1)); try (destruct (En D2 ltac:(discriminate) ltac:(cbn; tauto)) as (A2 & B2)); try (destruct (En D3 ltac:(discriminate) ltac:(cbn; tauto)) as (A3 & B3)).
  all: try (destruct (Exy eq_refl) as (X & Y)); try (destruct (B1 eq_refl)); try (destruct (B2 eq_refl)); try (destruct (B3 eq_refl)); congruence.
Qed.

(** variables constrained transport leaves alone: everything but the field, and the third field
    component in two dimensions *)
Lemma ct_other ndim B o1 o2 e (f : FluxMem R) d v c : (ndim = 2 \/ ndim = 3)%nat -> order_of (ct_box ndim B) o2 -> in_box (ct_box ndim B) c ->
  (forall n, v = CB n -> (ndim <= n)%nat) -> fst (FluxCT ndim o1 o2 e f) (d, v, c) = f (d, v, c).
Proof.
  intros Hn H2 Hc Hv. rewrite (ct_run ndim o1 o2 e f Hn). cbn [fst]. rewrite (flux_own ndim B o1 o2 e f H2 c d v Hc). destruct c as [[k j] i]. unfold flux_body.
  destruct Hn as [-> | ->]; cbn [Nat.eqb]; rewrite !fput_other; try reflexivity; intros E; inversion E; subst; specialize (Hv _ eq_refl); lia.
Qed.

(** Every block, dimension, orders of the four loops and stale contents of all work arrays (face
    values, fluxes, speeds, electric fields): the rate of change of every fluid variable of every
    interior zone, and the next time step, are functions of the primitive variables alone. *)
Theorem C46_no_stale : forall cf B v o1 o2 o3 o4 p1 p2 p3 p4 q0 q1 m0 m1 e0 e1, (kndim cf = 1 \/ kndim cf = 2 \/ kndim cf = 3)%nat ->
  order_of (flux_box (kndim cf) B) o1 -> order_of (flux_box (kndim cf) B) o2 -> order_of (ct_box (kndim cf) B) o3 -> order_of (ct_box (kndim cf) B) o4 ->
  order_of (flux_box (kndim cf) B) p1 -> order_of (flux_box (kndim cf) B) p2 -> order_of (ct_box (kndim cf) B) p3 -> order_of (ct_box (kndim cf) B) p4 ->
  (forall x cv dx c, cons_of cf x = Some cv -> in_box B c ->
     gain (kndim cf) dx (fun d f => fluxes_after cf o1 o2 o3 o4 v q0 m0 e0 (d, x, f)) c = gain (kndim cf) dx (fun d f => fluxes_after cf p1 p2 p3 p4 v q1 m1 e1 (d, x, f)) c) /\
  (forall faces csig dx tiny big cfl o, (forall c, In c o -> in_box B c) ->
     EstimateTimestep faces (kndim cf) csig (snd (CalculateFluxes cf o1 o2 v q0 m0)) dx tiny big cfl o =
     EstimateTimestep faces (kndim cf) csig (snd (CalculateFluxes cf p1 p2 v q1 m1)) dx tiny big cfl o).
Proof.
  intros cf B v o1 o2 o3 o4 p1 p2 p3 p4 q0 q1 m0 m1 e0 e1 Hn O1 O2 O3 O4 P1 P2 P3 P4.
  assert (Eq : forall d x f cv, cons_of cf x = Some cv -> live_dir (kndim cf) d = true -> computed (kndim cf) B d f ->
     fst (CalculateFluxes cf o1 o2 v q0 m0) (d, x, f) = fst (CalculateFluxes cf p1 p2 v q1 m1) (d, x, f)).
  { intros d x f cv Ex Hl Hc. destruct (C46_face_flux cf B o1 o2 v q0 m0 d f O1 O2 Hl Hc) as (A & _). destruct (C46_face_flux cf B p1 p2 v q1 m1 d f P1 P2 Hl Hc) as (A' & _).
    rewrite (A x cv Ex), (A' x cv Ex). reflexivity. }
  assert (Eqs : forall d f, live_dir (kndim cf) d = true -> computed (kndim cf) B d f -> snd (CalculateFluxes cf o1 o2 v q0 m0) d f = snd (CalculateFluxes cf p1 p2 v q1 m1) d f).
  { intros d f Hl Hc. destruct (C46_face_flux cf B o1 o2 v q0 m0 d f O1 O2 Hl Hc) as (_ & _ & A). destruct (C46_face_flux cf B p1 p2 v q1 m1 d f P1 P2 Hl Hc) as (_ & _ & A').
    rewrite A, A'. reflexivity. }
  split.
  - intros x cv dx c Ex Hc. unfold fluxes_after.
    set (F := fst (CalculateFluxes cf o1 o2 v q0 m0)) in *. set (G := fst (CalculateFluxes cf p1 p2 v q1 m1)) in *. clearbody F G. clear O1 O2 P1 P2 Eqs.
    apply gain_ext. intros d Hl. destruct (zone_computed _ _ _ _ Hn Hl Hc) as (C1 & C2).
    destruct (khas_B cf) eqn:HB; [|split; apply (Eq d x _ cv Ex Hl); assumption].
    destruct Hn as [E|Hn]; [rewrite E; cbn; split; apply (Eq d x _ cv Ex Hl); assumption|].
    assert (L : live (kndim cf) d) by (apply live_live; tauto).
    assert (K : forall f, (f = c \/ f = next d c) -> computed (kndim cf) B d f -> fst (FluxCT (kndim cf) o3 o4 e0 F) (d, x, f) = fst (FluxCT (kndim cf) p3 p4 e1 G) (d, x, f)).
    { intros f Hf Cf. assert (If : in_box (ct_box (kndim cf) B) f).
      { destruct c as [[k j] i]. destruct Hn as [E | E]; rewrite E in *; destruct d; try discriminate Hl; destruct Hf as [-> | ->]; cbn in *; lia. }
      destruct x as [| |i|n| |s|s i]; try (rewrite (ct_other _ B o3 o4 e0 F d _ f Hn O4 If), (ct_other _ B p3 p4 e1 G d _ f Hn P4 If) by (intros; discriminate); apply (Eq d _ _ cv Ex Hl Cf)).
      assert (ZF : zone_face B d f) by (exists c; split; assumption).
      assert (EqB : forall d n y, (n < 3)%nat -> live_dir (kndim cf) d = true -> computed (kndim cf) B d y -> F (d, CB n, y) = G (d, CB n, y)).
      { intros d' n' y Hn' Hl' Cy. apply (Eq d' (CB n') y (vB n')); [|exact Hl'|exact Cy]. cbn. rewrite HB. change (n' <=? 2)%nat with (n' <? 3)%nat. rewrite (proj2 (Nat.ltb_lt n' 3) Hn'). reflexivity. }
      cbn in Ex. rewrite HB in Ex. cbn in Ex. change (n <=? 2)%nat with (n <? 3)%nat in Ex. destruct (Nat.ltb_spec n 3) as [N3|N3]; [|discriminate Ex].
      destruct (Nat.ltb_spec n (kndim cf)) as [Nn|Nn].
      - rewrite (ct_val (kndim cf) B o3 o4 e0 F d n f Hn O3 O4 L ZF Nn), (ct_val (kndim cf) B p3 p4 e1 G d n f Hn P3 P4 L ZF Nn).
        apply (ct_flux_ext _ B); assumption.
      - rewrite (ct_other _ B o3 o4 e0 F d _ f Hn O4 If), (ct_other _ B p3 p4 e1 G d _ f Hn P4 If) by (intros n' E'; inversion E'; subst; assumption). apply EqB; assumption. }
    split; apply K; auto.
  - intros faces csig dx tiny big cfl o Ho. unfold EstimateTimestep. f_equal. revert big. induction o as [|c o IH]; intros big; [reflexivity|]. cbn [fold_left].
    rewrite IH by (intros; apply Ho; right; assumption). f_equal. f_equal. f_equal. f_equal. unfold zone_rate.
    pose proof (Ho c (or_introl eq_refl)) as Hc.
    assert (U : forall d, up d c = next d c) by (intros []; destruct c as [[? ?] ?]; reflexivity).
    assert (S : forall d, live_dir (kndim cf) d = true -> snd (CalculateFluxes cf o1 o2 v q0 m0) d c = snd (CalculateFluxes cf p1 p2 v q1 m1) d c /\ snd (CalculateFluxes cf o1 o2 v q0 m0) d (up d c) = snd (CalculateFluxes cf p1 p2 v q1 m1) d (up d c)).
    { intros d Hl. destruct (zone_computed _ _ _ _ Hn Hl Hc). rewrite U. split; apply Eqs; assumption. }
    pose proof (S D1) as S1. pose proof (S D2) as S2. pose proof (S D3) as S3. clear S.
    destruct Hn as [E|[E|E]]; rewrite E in *; cbn [dirs firstn fold_left]; cbn in S1, S2, S3.
    { destruct (S1 eq_refl) as [-> ->]. reflexivity. }
    { destruct (S1 eq_refl) as [-> ->]. destruct (S2 eq_refl) as [-> ->]. reflexivity. }
    { destruct (S1 eq_refl) as [-> ->]. destruct (S2 eq_refl) as [-> ->]. destruct (S3 eq_refl) as [-> ->]. reflexivity. }
Qed.
Print Assumptions C46_no_stale.

(** *** neighbouring blocks *)
Lemma shift_shift d m n c : shift d m (shift d n c) = shift d (n + m) c.
Proof. destruct c as [[k j] i]. destruct d; cbn; match goal with |- (?a, ?b, ?x) = (?a', ?b', ?x') => replace a' with a by lia; replace b' with b by lia; replace x' with x by lia; reflexivity end. Qed.
Lemma shift_0 d c : shift d 0 c = c.
Proof. destruct c as [[k j] i]. destruct d; cbn; repeat f_equal; lia. Qed.
(** the values at a face use the three zones on either side only *)
Lemma face_values_local rt (v v' : PMem) d f f' : (forall n m, (-3 <= m <= 2)%Z -> v n (shift d m f) = v' n (shift d m f')) ->
  forall l n, face_values rt v l d n f = face_values rt v' l d n f'.
Proof.
  intros H l n. unfold face_values, recon. destruct l; rewrite ?shift_shift; cbn [Z.add Z.opp Z.pos_sub Pos.add Pos.succ].
  - pose proof (H n (-1)%Z ltac:(lia)) as E. destruct rt; rewrite ?shift_shift; cbn; rewrite ?(H n) by lia; reflexivity.
  - pose proof (H n 0%Z ltac:(lia)) as E. rewrite !shift_0 in E. destruct rt; rewrite ?E, ?(H n) by lia; reflexivity.
Qed.
(** same physics in two configurations: everything but the geometry, floors and mesh *)
Definition same_physics (cf cf' : KConf) : Prop :=
  kvalencia cf = kvalencia cf' /\ khas_B cf = khas_B cf' /\ khas_ye cf = khas_ye cf' /\ krecon cf = krecon cf' /\ ksolver cf = ksolver cf'.
Definition same_face (cf cf' : KConf) (d : Dir) (f f' : Cell) : Prop :=
  kgeom cf d f = kgeom cf' d f' /\ (forall rho, kfloors cf d f rho = kfloors cf' d f' rho) /\ kceil cf d f = kceil cf' d f'.
Lemma side_local cf cf' q q' l d f f' : same_physics cf cf' -> same_face cf cf' d f f' -> (forall n, q l d n f = q' l d n f') -> side cf q l d f = side cf' q' l d f'.
Proof.
  intros (P1 & P2 & P3 & _) (G1 & G2 & G3) H. unfold side.
  assert (E : state_at (khas_B cf) (khas_ye cf) q l d f = state_at (khas_B cf') (khas_ye cf') q' l d f').
  { rewrite P2, P3. unfold state_at. f_equal; try apply H; try (apply functional_extensionality; intros i); try apply H.
    - destruct (khas_B cf'); [apply H|reflexivity].
    - destruct (khas_ye cf'); [apply H|reflexivity]. }
  rewrite E, G2, G3, G1, P1. reflexivity.
Qed.
(** Two blocks that hold the same primitive variables in the three zones on either side of a face
    they share (one of them in its ghost zones) and the same geometry there: whatever the orders
    of their loops, the contents of their work arrays and the position of the face in each
    block, they compute the same flux and speed; what leaves one block enters the other. *)
Theorem C46_shared_face : forall cf cf' B B' o1 o2 p1 p2 v v' q0 q1 m0 m1 d f f',
  order_of (flux_box (kndim cf) B) o1 -> order_of (flux_box (kndim cf) B) o2 -> order_of (flux_box (kndim cf') B') p1 -> order_of (flux_box (kndim cf') B') p2 ->
  live_dir (kndim cf) d = true -> live_dir (kndim cf') d = true -> computed (kndim cf) B d f -> computed (kndim cf') B' d f' ->
  same_physics cf cf' -> same_face cf cf' d f f' -> (forall n m, (-3 <= m <= 2)%Z -> v n (shift d m f) = v' n (shift d m f')) ->
  (forall x cv, cons_of cf x = Some cv -> fst (CalculateFluxes cf o1 o2 v q0 m0) (d, x, f) = fst (CalculateFluxes cf' p1 p2 v' q1 m1) (d, x, f')) /\
  snd (CalculateFluxes cf o1 o2 v q0 m0) d f = snd (CalculateFluxes cf' p1 p2 v' q1 m1) d f'.
Proof.
  intros cf cf' B B' o1 o2 p1 p2 v v' q0 q1 m0 m1 d f f' O1 O2 P1 P2 L L' C C' SP SF H.
  destruct (C46_face_flux cf B o1 o2 v q0 m0 d f O1 O2 L C) as (A1 & _ & A3). destruct (C46_face_flux cf' B' p1 p2 v' q1 m1 d f' P1 P2 L' C') as (B1 & _ & B3).
  pose proof SP as (S1 & S2 & S3 & S4 & S5).
  assert (SD : forall l, side cf (face_values (krecon cf) v) l d f = side cf' (face_values (krecon cf') v') l d f').
  { intros l. apply side_local; [exact SP|exact SF|]. intros n. rewrite S4. apply face_values_local, H. }
  destruct SF as (G1 & _).
  split.
  - intros x cv Ex. rewrite (A1 x cv Ex). rewrite (B1 x cv).
    + unfold godunov_flux, face_flux. rewrite !SD, S5, G1. reflexivity.
    + rewrite <- Ex. unfold cons_of. rewrite S2, S3. reflexivity.
  - rewrite A3, B3. unfold godunov_speed, face_speed. rewrite !SD, S5. reflexivity.
Qed.
Print Assumptions C46_shared_face.

(** *** uniform flow *)
Lemma recon_uniform rt (v : Cell -> R) d c x : (forall m, (-2 <= m <= 2)%Z -> v (shift d m c) = x) -> recon rt v d c = (x, x).
Proof.
  intros H. pose proof (H 0%Z ltac:(lia)) as E0. rewrite shift_0 in E0. unfold recon. rewrite !H by lia. rewrite E0. destruct rt.
  - apply C06_weno_exact_on_constant.
  - pose proof (C07_mp5_exact_on_linear x 0) as K. replace (x - 2 * 0) with x in K by ring. replace (x - 0) with x in K by ring. replace (x + 0) with x in K by ring. replace (x + 2 * 0) with x in K by ring.
    rewrite K. f_equal; field.
  - pose proof (C05_plm_exact_on_linear x 0) as K. replace (x - 0) with x in K by ring. replace (x + 0) with x in K by ring. rewrite K. f_equal; field.
  - apply C05_constant.
Qed.
Definition uniform_geometry (cf : KConf) (G : Dir -> FaceGeom) (fl : Dir -> R -> R * R) (ce : Dir -> R * R) : Prop :=
  forall d f, kgeom cf d f = G d /\ (forall rho, kfloors cf d f rho = fl d rho) /\ kceil cf d f = ce d.
(** the state whose primitive variables are [s] *)
Definition uniform_state (cf : KConf) (s : PVar -> R) : FaceState :=
  {| q_rho := s pRho; q_vp := fun i => s (pVel i); q_eng := s pEng; q_prs := s pPrs; q_gm1 := s pGm1;
     q_B := fun i => if khas_B cf then s (pB i) else 0; q_ye := if khas_ye cf then s pYe else 0 |}.
Definition uniform_side (cf : KConf) G (fl : Dir -> R -> R * R) (ce : Dir -> R * R) (s : PVar -> R) (d : Dir) : FluxOut :=
  prim_to_flux (kvalencia cf) (axis d) (G d) (uniform_state cf s) (fst (fl d (s pRho))) (snd (fl d (s pRho))) (fst (ce d)) (snd (ce d)).
Lemma uniform_sides cf G fl ce (v : PMem) s d f : uniform_geometry cf G fl ce -> (forall n m, (-3 <= m <= 2)%Z -> v n (shift d m f) = s n) ->
  forall l, side cf (face_values (krecon cf) v) l d f = uniform_side cf G fl ce s d.
Proof.
  intros HG H l. assert (Q : forall n, face_values (krecon cf) v l d n f = s n).
  { intros n. unfold face_values. destruct l.
    - rewrite (recon_uniform (krecon cf) (v n) d (shift d (-1) f) (s n)); [reflexivity|]. intros m Hm. rewrite shift_shift. apply H. lia.
    - rewrite (recon_uniform (krecon cf) (v n) d f (s n)); [reflexivity|]. intros m Hm. apply H. lia. }
  destruct (HG d f) as (G1 & G2 & G3). unfold side.
  assert (E : state_at (khas_B cf) (khas_ye cf) (face_values (krecon cf) v) l d f = uniform_state cf s).
  { unfold state_at, uniform_state. f_equal; try apply Q; try (apply functional_extensionality; intros i); try apply Q.
    - destruct (khas_B cf); [apply Q|reflexivity].
    - destruct (khas_ye cf); [apply Q|reflexivity]. }
  rewrite E, G1, G2, G3. unfold uniform_side. cbn [q_rho uniform_state]. destruct (fl d (s pRho)), (ce d). reflexivity.
Qed.
(** Every scheme, dimension, direction, metric: primitive variables that do not depend on position,
    in a geometry that does not (floors and ceilings included), give the same flux through every
    face, the physical flux of the state; every fluid variable of every zone keeps its value exactly,
    the magnetic field after constrained transport too. *)
Theorem C46_uniform_flow : forall cf B o1 o2 o3 o4 v q0 m0 e0 G fl ce s, (kndim cf = 1 \/ kndim cf = 2 \/ kndim cf = 3)%nat ->
  order_of (flux_box (kndim cf) B) o1 -> order_of (flux_box (kndim cf) B) o2 -> order_of (ct_box (kndim cf) B) o3 -> order_of (ct_box (kndim cf) B) o4 ->
  uniform_geometry cf G fl ce -> (forall n c, v n c = s n) ->
  (forall d, exists alpha beta g ginv gamma gi sg sgg, adm_consistent alpha beta g ginv gamma gi sg sgg /\ G d = mkFace alpha sgg sg g beta (gi (axis d) (axis d))) -> (forall d, 1 <= snd (ce d)) ->
  (forall d f x cv, live_dir (kndim cf) d = true -> computed (kndim cf) B d f -> cons_of cf x = Some cv ->
     fst (CalculateFluxes cf o1 o2 v q0 m0) (d, x, f) = phys (G d) (uniform_side cf G fl ce s d) cv) /\
  (forall x cv dx c, cons_of cf x = Some cv -> in_box B c -> gain (kndim cf) dx (fun d f => fluxes_after cf o1 o2 o3 o4 v q0 m0 e0 (d, x, f)) c = 0).
Proof.
  intros cf B o1 o2 o3 o4 v q0 m0 e0 G fl ce s Hn O1 O2 O3 O4 HG Hv Hadm Hce.
  assert (Fx : forall d f x cv, live_dir (kndim cf) d = true -> computed (kndim cf) B d f -> cons_of cf x = Some cv ->
     fst (CalculateFluxes cf o1 o2 v q0 m0) (d, x, f) = phys (G d) (uniform_side cf G fl ce s d) cv).
  { intros d f x cv Hl Hc Ex. destruct (C46_face_flux cf B o1 o2 v q0 m0 d f O1 O2 Hl Hc) as (A & _). rewrite (A x cv Ex). unfold godunov_flux, face_flux.
    rewrite !(uniform_sides cf G fl ce v s d f HG) by (intros; apply Hv). rewrite (proj1 (HG d f)).
    destruct (C19_consistent (G d) (uniform_side cf G fl ce s d) cv) as (K1 & K2). destruct (ksolver cf); [exact K1|apply K2].
    destruct (Hadm d) as (alpha & beta & g & ginv & gamma & gi & sg & sgg & HA & EG).
    assert (D3 : (axis d < 3)%nat) by (destruct d; cbn; lia).
    destruct (C20_face_advection _ _ _ _ _ _ _ _ HA (kvalencia cf) (axis d) (uniform_state cf s) (fst (fl d (s pRho))) (snd (fl d (s pRho))) (fst (ce d)) (snd (ce d)) D3 (Hce d)) as (lam & _ & _ & L1 & L2).
    rewrite <- EG in L1, L2. fold (uniform_side cf G fl ce s d) in L1, L2. lra. }
  split; [exact Fx|]. intros x cv dx c Ex Hc.
  set (F := fst (CalculateFluxes cf o1 o2 v q0 m0)) in *. 
  assert (K : forall d, live_dir (kndim cf) d = true -> fluxes_after cf o1 o2 o3 o4 v q0 m0 e0 (d, x, c) = fluxes_after cf o1 o2 o3 o4 v q0 m0 e0 (d, x, next d c)).
  { intros d Hl. destruct (zone_computed _ _ _ _ Hn Hl Hc) as (C1 & C2). unfold fluxes_after. fold F. clearbody F.
    destruct (khas_B cf) eqn:HB; [|rewrite (Fx d c x cv), (Fx d (next d c) x cv) by assumption; reflexivity].
    destruct Hn as [E|Hn]; [rewrite E; cbn; rewrite (Fx d c x cv), (Fx d (next d c) x cv) by assumption; reflexivity|].
    assert (L : live (kndim cf) d) by (apply live_live; tauto).
    assert (If : forall f, f = c \/ f = next d c -> in_box (ct_box (kndim cf) B) f).
    { intros f Hf. destruct c as [[k j] i]. destruct Hn as [E | E]; rewrite E in *; destruct d; try discriminate Hl; destruct Hf as [-> | ->]; cbn in *; lia. }
    assert (NB : (forall n, x = CB n -> (kndim cf <= n)%nat) -> fst (FluxCT (kndim cf) o3 o4 e0 F) (d, x, c) = fst (FluxCT (kndim cf) o3 o4 e0 F) (d, x, next d c)).
    { intros Hx. rewrite (ct_other _ B o3 o4 e0 F d x c Hn O4 (If c (or_introl eq_refl)) Hx), (ct_other _ B o3 o4 e0 F d x (next d c) Hn O4 (If _ (or_intror eq_refl)) Hx).
      rewrite (Fx d c x cv), (Fx d (next d c) x cv) by assumption. reflexivity. }
    destruct x as [| |i|n| |sp|sp i]; try (apply NB; intros; discriminate).
    destruct (Nat.ltb_spec n (kndim cf)) as [Nn|Nn]; [|apply NB; intros n' E'; inversion E'; subst; assumption].
    set (F' := fun l : FLoc => let '(d, v, _) := l in match cons_of cf v with Some cv => phys (G d) (uniform_side cf G fl ce s d) cv | None => 0 end).
    assert (EF : forall d n y, (n < 3)%nat -> live_dir (kndim cf) d = true -> computed (kndim cf) B d y -> F (d, CB n, y) = F' (d, CB n, y)).
    { intros d' n' y H3 Hl' Cy. assert (Ec : cons_of cf (CB n') = Some (vB n')) by (unfold cons_of; rewrite HB, (proj2 (Nat.ltb_lt n' 3) H3); reflexivity).
      unfold F'. rewrite Ec. apply Fx; assumption. }
    rewrite (ct_val (kndim cf) B o3 o4 e0 F d n c Hn O3 O4 L) by (try assumption; exists c; auto).
    rewrite (ct_val (kndim cf) B o3 o4 e0 F d n (next d c) Hn O3 O4 L) by (try assumption; exists c; auto).
    rewrite !(ct_flux_ext (kndim cf) B F F' d n) by (try assumption; exists c; auto).
    destruct c as [[k j] i]. clear. unfold ct_flux, emf_x, emf_y, emf_z, F'. cbn [next]. destruct d; reflexivity. }
  unfold gain. rewrite <- (K D1 eq_refl).
  replace ((fluxes_after cf o1 o2 o3 o4 v q0 m0 e0 (D1, x, c) - fluxes_after cf o1 o2 o3 o4 v q0 m0 e0 (D1, x, c)) / dx D1) with 0 by (unfold Rdiv; ring).
  destruct (Nat.ltb 1 (kndim cf)) eqn:E1; destruct (Nat.ltb 2 (kndim cf)) eqn:E2; try rewrite <- (K D2 E1); try rewrite <- (K D3 E2); unfold Rdiv; ring.
Qed.
Print Assumptions C46_uniform_flow.

(** *** mirror symmetry *)
Lemma weno_odd a b c d e : WENO5Z (- a) (- b) (- c) (- d) (- e) = (- fst (WENO5Z a b c d e), - snd (WENO5Z a b c d e)).
Proof.
  assert (Eb : weno_betas (- a) (- b) (- c) (- d) (- e) = weno_betas a b c d e).
  { unfold weno_betas. cbv zeta.
    assert (S : forall x y, weno_beta (- x) (- y) = weno_beta x y) by (intros; unfold weno_beta; ring).
    replace (- a - 2 * - b + - c) with (- (a - 2 * b + c)) by ring. replace (- a - 4 * - b + 3 * - c) with (- (a - 4 * b + 3 * c)) by ring.
    replace (- b - 2 * - c + - d) with (- (b - 2 * c + d)) by ring. replace (- d - - b) with (- (d - b)) by ring.
    replace (- c - 2 * - d + - e) with (- (c - 2 * d + e)) by ring. replace (- e - 4 * - d + 3 * - c) with (- (e - 4 * d + 3 * c)) by ring.
    rewrite !S. reflexivity. }
  unfold WENO5Z. rewrite Eb. destruct (weno_betas a b c d e) as [[b0 b1] b2]. cbv zeta. cbn [fst snd].
  replace (- c - - b) with (- (c - b)) by ring. replace (- d - - c) with (- (d - c)) by ring.
  destruct (C08_mc (c - b) (d - c) 2 ltac:(lra)) as (_ & _ & M & _). rewrite M.
  assert (F : forall w0 w1 w2 p0 p1 p2 p3 p4, weno_face w0 w1 w2 (- p0) (- p1) (- p2) (- p3) (- p4) = - weno_face w0 w1 w2 p0 p1 p2 p3 p4) by (intros; unfold weno_face; ring).
  rewrite !F. f_equal; ring.
Qed.
Lemma plm_odd a b c : PiecewiseLinear (- a) (- b) (- c) = (- fst (PiecewiseLinear a b c), - snd (PiecewiseLinear a b c)).
Proof.
  unfold PiecewiseLinear. cbv zeta. cbn [fst snd]. replace (- b - - a) with (- (b - a)) by ring. replace (- c - - b) with (- (c - b)) by ring.
  destruct (C08_mc (b - a) (c - b) (3 / 2) ltac:(lra)) as (_ & _ & M & _). rewrite M. f_equal; ring.
Qed.
(** zone index a becomes M - a along direction d; the lower face of zone a is the upper face of its
    mirror image, that is the lower face of zone M + 1 - a *)
Definition mirror_zone (d : Dir) (M : Z) (c : Cell) : Cell :=
  let '(k, j, i) := c in match d with D1 => (k, j, M - i)%Z | D2 => (k, M - j, i)%Z | D3 => (M - k, j, i)%Z end.
Definition mirror_face (d : Dir) (M : Z) (f : Cell) : Cell := mirror_zone d (M + 1) f.
(** velocity and field change sign along the reflected axis *)
Definition prim_parity (d : Dir) (n : PVar) : R := match n with pVel i => flip (axis d) i | pB i => flip (axis d) i | _ => 1 end.
Lemma mirror_shift d M n c : mirror_zone d M (shift d n c) = shift d (- n) (mirror_zone d M c).
Proof. destruct c as [[k j] i]. destruct d; cbn; match goal with |- (?a, ?b, ?x) = (?a', ?b', ?x') => replace a' with a by lia; replace b' with b by lia; replace x' with x by lia; reflexivity end. Qed.
Lemma mirror_face_up d M f : mirror_zone d M (shift d (-1) f) = mirror_face d M f /\ mirror_zone d M f = shift d (-1) (mirror_face d M f).
Proof.
  destruct f as [[k j] i]. split; destruct d; cbn; match goal with |- (?a, ?b, ?x) = (?a', ?b', ?x') => replace a' with a by lia; replace b' with b by lia; replace x' with x by lia; reflexivity end.
Qed.
Lemma recon_mirror rt (v : Cell -> R) d M s c : s = 1 \/ s = -1 -> recon rt (fun c => s * v (mirror_zone d M c)) d c = (s * snd (recon rt v d (mirror_zone d M c)), s * fst (recon rt v d (mirror_zone d M c))).
Proof.
  intros Hs. unfold recon. rewrite !mirror_shift. cbn [Z.opp]. set (y := mirror_zone d M c). clearbody y.
  set (a0 := v (shift d (-2) y)). set (a1 := v (shift d (-1) y)). set (a2 := v y). set (a3 := v (shift d 1 y)). set (a4 := v (shift d 2 y)). clearbody a0 a1 a2 a3 a4.
  destruct rt.
  - assert (E : WENO5Z a4 a3 a2 a1 a0 = (snd (WENO5Z a0 a1 a2 a3 a4), fst (WENO5Z a0 a1 a2 a3 a4))) by (apply C06_weno_mirror; destruct (WENO5Z a0 a1 a2 a3 a4); reflexivity).
    destruct Hs as [-> | ->].
    + rewrite !Rmult_1_l. exact E.
    + rewrite !(Rmult_comm (-1)). replace (a4 * -1) with (- a4) by ring. replace (a3 * -1) with (- a3) by ring. replace (a2 * -1) with (- a2) by ring. replace (a1 * -1) with (- a1) by ring. replace (a0 * -1) with (- a0) by ring.
      rewrite weno_odd, E. cbn [fst snd]. f_equal; ring.
  - pose proof (C07_mp5_mirror a0 a1 a2 a3 a4) as E. destruct Hs as [-> | ->].
    + rewrite !Rmult_1_l. exact E.
    + rewrite !(Rmult_comm (-1)). replace (a4 * -1) with (- a4) by ring. replace (a3 * -1) with (- a3) by ring. replace (a2 * -1) with (- a2) by ring. replace (a1 * -1) with (- a1) by ring. replace (a0 * -1) with (- a0) by ring.
      rewrite C07_mp5_odd, E. cbn [fst snd]. f_equal; ring.
  - assert (E : PiecewiseLinear a3 a2 a1 = (snd (PiecewiseLinear a1 a2 a3), fst (PiecewiseLinear a1 a2 a3))) by (apply C05_plm_mirror; destruct (PiecewiseLinear a1 a2 a3); reflexivity).
    destruct Hs as [-> | ->].
    + rewrite !Rmult_1_l. exact E.
    + rewrite !(Rmult_comm (-1)). replace (a3 * -1) with (- a3) by ring. replace (a2 * -1) with (- a2) by ring. replace (a1 * -1) with (- a1) by ring.
      rewrite plm_odd, E. cbn [fst snd]. f_equal; ring.
  - rewrite !C05_constant. reflexivity.
Qed.
(** the configuration seen in the mirror: reflected geometry, same limits *)
Definition mirror_config (d : Dir) (M : Z) (cf cf' : KConf) : Prop :=
  same_physics cf cf' /\ forall f, kgeom cf' d f = reflect_geom (axis d) (kgeom cf d (mirror_face d M f)) /\
    (forall rho, kfloors cf' d f rho = kfloors cf d (mirror_face d M f) rho) /\ kceil cf' d f = kceil cf d (mirror_face d M f).
(** Reflecting the data and the geometry of a block along a direction reflects its fluxes in that
    direction: the flux through the mirror image of a face is minus (plus for momentum and field
    along the reflected axis) the flux through the face, the signal speed is the same.  Every
    scheme, solver, formulation, loop order. *)
Theorem C46_mirror : forall cf cf' B B' o1 o2 p1 p2 v q0 q1 m0 m1 d M f,
  order_of (flux_box (kndim cf) B) o1 -> order_of (flux_box (kndim cf) B) o2 -> order_of (flux_box (kndim cf') B') p1 -> order_of (flux_box (kndim cf') B') p2 ->
  live_dir (kndim cf) d = true -> live_dir (kndim cf') d = true -> computed (kndim cf) B d (mirror_face d M f) -> computed (kndim cf') B' d f ->
  mirror_config d M cf cf' ->
  let v' : PMem := fun n c => prim_parity d n * v n (mirror_zone d M c) in
  (forall x cv, cons_of cf x = Some cv -> fst (CalculateFluxes cf' p1 p2 v' q1 m1) (d, x, f) = - (parity (axis d) cv * fst (CalculateFluxes cf o1 o2 v q0 m0) (d, x, mirror_face d M f))) /\
  snd (CalculateFluxes cf' p1 p2 v' q1 m1) d f = snd (CalculateFluxes cf o1 o2 v q0 m0) d (mirror_face d M f).
Proof.
  intros cf cf' B B' o1 o2 p1 p2 v q0 q1 m0 m1 d M f O1 O2 P1 P2 L L' C C' (SP & HG) v'.
  destruct (C46_face_flux cf B o1 o2 v q0 m0 d (mirror_face d M f) O1 O2 L C) as (A1 & _ & A3). destruct (C46_face_flux cf' B' p1 p2 v' q1 m1 d f P1 P2 L' C') as (B1 & _ & B3).
  pose proof SP as (S1 & S2 & S3 & S4 & S5). destruct (HG f) as (G1 & G2 & G3).
  assert (Sg : forall n, prim_parity d n = 1 \/ prim_parity d n = -1) by (intros [| | | | | |]; cbn; unfold flip; try destruct (Nat.eqb _ _); auto).
  assert (Q : forall l n, face_values (krecon cf') v' l d n f = prim_parity d n * face_values (krecon cf) v (negb l) d n (mirror_face d M f)).
  { intros l n. rewrite <- S4. unfold face_values, v'. destruct (mirror_face_up d M f) as (U1 & U2). destruct l; cbn [negb].
    - rewrite (recon_mirror (krecon cf) (v n) d M (prim_parity d n) (shift d (-1) f) (Sg n)). cbn [fst]. rewrite U1. reflexivity.
    - rewrite (recon_mirror (krecon cf) (v n) d M (prim_parity d n) f (Sg n)). cbn [snd]. rewrite U2. reflexivity. }
  assert (D3 : (axis d < 3)%nat) by (destruct d; cbn; lia).
  assert (Mi : forall l, mirrored (parity (axis d)) (side cf (face_values (krecon cf) v) (negb l) d (mirror_face d M f)) (side cf' (face_values (krecon cf') v') l d f)).
  { intros l. unfold side.
    assert (E : state_at (khas_B cf') (khas_ye cf') (face_values (krecon cf') v') l d f = reflect_state (axis d) (state_at (khas_B cf) (khas_ye cf) (face_values (krecon cf) v) (negb l) d (mirror_face d M f))).
    { rewrite <- S2, <- S3. unfold state_at, reflect_state. cbn [q_rho q_vp q_eng q_prs q_gm1 q_B q_ye].
      f_equal; try (rewrite Q; cbn [prim_parity]; ring); try (apply functional_extensionality; intros i); try (rewrite Q; reflexivity).
      - destruct (khas_B cf); [rewrite Q; reflexivity|ring].
      - destruct (khas_ye cf); [rewrite Q; cbn [prim_parity]; ring|reflexivity]. }
    rewrite E, G1, G2, G3, <- S1. cbn [q_rho reflect_state].
    set (st := state_at (khas_B cf) (khas_ye cf) (face_values (krecon cf) v) (negb l) d (mirror_face d M f)). clearbody st.
    destruct (kfloors cf d (mirror_face d M f) (q_rho st)) as [rf sf]. destruct (kceil cf d (mirror_face d M f)) as [sm gm].
    apply C19_reflected_state. exact D3. }
  pose proof (Mi true) as Mr. pose proof (Mi false) as Ml. cbn [negb] in Mr, Ml.
  set (sr := side cf (face_values (krecon cf) v) false d (mirror_face d M f)) in *. set (sl := side cf (face_values (krecon cf) v) true d (mirror_face d M f)) in *.
  set (sr' := side cf' (face_values (krecon cf') v') false d f) in *. set (sl' := side cf' (face_values (krecon cf') v') true d f) in *.
  split.
  - intros x cv Ex. rewrite (A1 x cv Ex). rewrite (B1 x cv) by (rewrite <- Ex; unfold cons_of; rewrite S2, S3; reflexivity).
    unfold godunov_flux, face_flux. fold sr sl sr' sl'. clearbody sr sl sr' sl'. rewrite <- S5, G1.
    destruct (C19_mirror (parity (axis d)) (kgeom cf d (mirror_face d M f)) sl sr sr' sl' Ml Mr cv) as (K1 & K2 & _).
    destruct (ksolver cf); [exact K1|exact K2].
  - rewrite A3, B3. unfold godunov_speed, face_speed. fold sr sl sr' sl'. clearbody sr sl sr' sl'. rewrite <- S5.
    destruct (C19_mirror (parity (axis d)) (kgeom cf d (mirror_face d M f)) sl sr sr' sl' Ml Mr vRho) as (_ & _ & K3 & K4).
    destruct (ksolver cf); [exact K3|exact K4].
Qed.
Print Assumptions C46_mirror.

(** *** positive density and bounded composition *)
(** both solvers: the flux of a quantity carried with the fluid takes at most a share (s + lam_l)/2
    of the left content and (s - lam_r)/2 of the right one, s the returned speed, lam the
    coordinate velocity of the fluid *)
Lemma flux_shares cf l r d f ll lr : let g := kgeom cf d f in
  fo_vm l <= ll <= fo_vp l -> fo_vm r <= lr <= fo_vp r -> fo_vm l < fo_vp l -> let s := face_speed cf l r in
  exists A Bc, 0 <= A <= (s + ll) / 2 /\ 0 <= Bc <= (s - lr) / 2 /\
    forall m, phys g l m = ll * dens g l m -> phys g r m = lr * dens g r m -> face_flux cf l r d f m = A * dens g l m - Bc * dens g r m.
Proof.
  intros g Hl Hr Hs. unfold face_speed, face_flux. fold g. destruct (ksolver cf).
  - assert (C1 : - fo_vm l <= llf_cmax l r /\ fo_vp l <= llf_cmax l r /\ - fo_vm r <= llf_cmax l r /\ fo_vp r <= llf_cmax l r).
    { unfold llf_cmax. rewrite !std_max_R. repeat split.
      - eapply Rle_trans; [|apply Rmax_l]. apply Rmax_l.
      - eapply Rle_trans; [|apply Rmax_l]. apply Rmax_r.
      - eapply Rle_trans; [|apply Rmax_r]. apply Rmax_l.
      - eapply Rle_trans; [|apply Rmax_r]. apply Rmax_r. }
    exists ((llf_cmax l r + ll) / 2), ((llf_cmax l r - lr) / 2). split; [lra|]. split; [lra|]. intros m E1 E2. unfold llf, dens, phys in *.
    replace ((fo_F l m + fo_F r m) * fg_gdet g) with (fo_F l m * fg_gdet g + fo_F r m * fg_gdet g) by ring. rewrite E1, E2. field.
  - assert (C2 : hll_cl l r <= fo_vm l /\ hll_cl l r <= fo_vm r /\ fo_vp l <= hll_cr l r /\ fo_vp r <= hll_cr l r).
    { unfold hll_cl, hll_cr. rewrite !std_max_R, !std_min_R. repeat split.
      - eapply Rle_trans; [apply Rmin_l|]. apply Rmin_l.
      - eapply Rle_trans; [apply Rmin_l|]. apply Rmin_r.
      - eapply Rle_trans; [|apply Rmax_l]. apply Rmax_l.
      - eapply Rle_trans; [|apply Rmax_l]. apply Rmax_r. }
    pose proof (cl_le l r) as Cn. pose proof (cr_ge l r) as Cp.
    assert (C3 : (hll_speed l r = - hll_cl l r /\ hll_cr l r <= - hll_cl l r) \/ (hll_speed l r = hll_cr l r /\ - hll_cl l r <= hll_cr l r)).
    { unfold hll_speed. rewrite std_max_R. destruct (Rle_dec (- hll_cl l r) (hll_cr l r)) as [K|K]; [right; split; [apply Rmax_right|]; lra|left; split; [apply Rmax_left|]; lra]. }
    unfold hll. set (cl := hll_cl l r) in *. set (cr := hll_cr l r) in *. set (sp := hll_speed l r) in *. clearbody cl cr sp.
    assert (P : 0 < cr - cl) by lra.
    exists (cr * (ll - cl) / (cr - cl)), (- cl * (cr - lr) / (cr - cl)).
    assert (I : 0 < / (cr - cl)) by (apply Rinv_0_lt_compat; exact P).
    split; [|split].
    + split; [apply Rmult_le_pos; [apply Rmult_le_pos; lra|lra]|].
      apply Rmult_le_reg_r with (cr - cl); [exact P|]. unfold Rdiv at 1. rewrite Rmult_assoc, Rinv_l, Rmult_1_r by lra.
      destruct C3 as [(-> & K)|(-> & K)].
      * assert (0 <= (- cl + ll) * (- cl - cr)) by (apply Rmult_le_pos; lra). nra.
      * assert (0 <= (cr - ll) * (cr + cl)) by (apply Rmult_le_pos; lra). nra.
    + split; [apply Rmult_le_pos; [apply Rmult_le_pos; lra|lra]|].
      apply Rmult_le_reg_r with (cr - cl); [exact P|]. unfold Rdiv at 1. rewrite Rmult_assoc, Rinv_l, Rmult_1_r by lra.
      destruct C3 as [(-> & K)|(-> & K)].
      * assert (0 <= (- cl + lr) * (- cl - cr)) by (apply Rmult_le_pos; lra). nra.
      * assert (0 <= (cr - lr) * (cr + cl)) by (apply Rmult_le_pos; lra). nra.
    + intros m E1 E2. rewrite gratio_nz by lra. unfold dens, phys in *.
      replace ((cr * fo_F l m - cl * fo_F r m) * fg_gdet g) with (cr * (fo_F l m * fg_gdet g) - cl * (fo_F r m * fg_gdet g)) by ring. rewrite E1, E2. field. lra.
Qed.
Section Positive.
Variables (cf : KConf) (B : Box) (o1 o2 o3 o4 : list Cell) (v : PMem) (q0 : QMem) (m0 : FMem) (e0 : Emf R).
Variables (alpha : R) (beta : vec) (g ginv gamma gi : mat) (sg sgg : R) (fl : Dir -> R -> R * R) (ce : Dir -> R * R).
Let G (d : Dir) := mkFace alpha sgg sg g beta (gi (axis d) (axis d)).
Hypothesis Hn : (kndim cf = 1 \/ kndim cf = 2 \/ kndim cf = 3)%nat.
Hypothesis O1 : order_of (flux_box (kndim cf) B) o1.
Hypothesis O2 : order_of (flux_box (kndim cf) B) o2.
Hypothesis O4 : order_of (ct_box (kndim cf) B) o4.
Hypothesis H : adm_consistent alpha beta g ginv gamma gi sg sgg.
Hypothesis HG : uniform_geometry cf G fl ce.
Hypothesis Hrec : krecon cf = constant.
Hypothesis Hce : forall d, 1 <= snd (ce d).
Hypothesis Hfl : forall d rho, 0 <= fst (fl d rho).
Let zs (d : Dir) (c : Cell) := uniform_side cf G fl ce (fun n => v n c) d.
Let F (x : CVar) (d : Dir) (f : Cell) := fluxes_after cf o1 o2 o3 o4 v q0 m0 e0 (d, x, f).
Let sp := snd (CalculateFluxes cf o1 o2 v q0 m0).
Lemma zone_side l d f : side cf (face_values (krecon cf) v) l d f = zs d (if l then shift d (-1) f else f).
Proof.
  assert (Q : forall n, face_values (krecon cf) v l d n f = v n (if l then shift d (-1) f else f)).
  { intros n. rewrite Hrec. destruct l; reflexivity. }
  destruct (HG d f) as (G1 & G2 & G3). unfold side.
  assert (E : state_at (khas_B cf) (khas_ye cf) (face_values (krecon cf) v) l d f = uniform_state cf (fun n => v n (if l then shift d (-1) f else f))).
  { unfold state_at, uniform_state. f_equal; try apply Q; try (apply functional_extensionality; intros i); try apply Q.
    - destruct (khas_B cf); [apply Q|reflexivity].
    - destruct (khas_ye cf); [apply Q|reflexivity]. }
  rewrite E, G1, G2, G3. unfold zs, uniform_side. cbn [q_rho uniform_state]. destruct (fl d _), (ce d). reflexivity.
Qed.
Lemma after_flux x cv d c f : live_dir (kndim cf) d = true -> in_box B c -> f = c \/ f = next d c -> cons_of cf x = Some cv -> (forall n, x <> CB n) ->
  F x d f = face_flux cf (zs d (shift d (-1) f)) (zs d f) d f cv /\ sp d f = face_speed cf (zs d (shift d (-1) f)) (zs d f).
Proof.
  intros Hl Hc Hf Ex Hx. destruct (zone_computed _ _ _ _ Hn Hl Hc) as (C1 & C2). assert (Cf : computed (kndim cf) B d f) by (destruct Hf as [-> | ->]; assumption).
  destruct (C46_face_flux cf B o1 o2 v q0 m0 d f O1 O2 Hl Cf) as (A1 & _ & A3).
  assert (E : F x d f = fst (CalculateFluxes cf o1 o2 v q0 m0) (d, x, f)).
  { unfold F, fluxes_after. destruct (khas_B cf); [|reflexivity]. destruct Hn as [E|Hn']; [rewrite E; reflexivity|].
    apply (ct_other _ B); [exact Hn'|exact O4| |intros n E; destruct (Hx n E)].
    destruct c as [[k j] i]. destruct Hn' as [E | E]; rewrite E in *; destruct d; try discriminate Hl; destruct Hf as [-> | ->]; cbn in *; lia. }
  rewrite E, (A1 x cv Ex). unfold sp. rewrite A3. unfold godunov_flux, godunov_speed. rewrite !zone_side. split; reflexivity.
Qed.
Definition lam (d : Dir) (c : Cell) : R := alpha * face_vcon (uniform_state cf (fun n => v n c)) (G d) (snd (ce d)) (axis d) - beta (axis d).
Lemma zone_facts d c : phys (G d) (zs d c) vRho = lam d c * dens (G d) (zs d c) vRho /\ phys (G d) (zs d c) vYe = lam d c * dens (G d) (zs d c) vYe /\
  fo_vm (zs d c) <= lam d c <= fo_vp (zs d c) /\ fo_vm (zs d c) < fo_vp (zs d c) /\ 0 <= dens (G d) (zs d c) vRho /\
  (khas_ye cf = true -> dens (G d) (zs d c) vYe = v pYe c * dens (G d) (zs d c) vRho).
Proof.
  assert (D3 : (axis d < 3)%nat) by (destruct d; cbn; lia).
  set (st := uniform_state cf (fun n => v n c)). set (rf := fst (fl d (v pRho c))). set (sf := snd (fl d (v pRho c))).
  destruct (mass_speed _ _ _ _ _ _ _ _ (gi (axis d) (axis d)) H st rf sf (fst (ce d)) (snd (ce d)) (kvalencia cf) (axis d)) as (M1 & M2).
  pose proof (face_bracket _ _ _ _ _ _ _ _ (gi (axis d) (axis d)) H st rf sf (fst (ce d)) (snd (ce d)) (Hce d) (kvalencia cf) (axis d) D3 eq_refl) as (K1 & K2).
  pose proof (rho_U _ _ _ _ _ _ _ _ (gi (axis d) (axis d)) H st rf sf (fst (ce d)) (snd (ce d)) (Hce d) (kvalencia cf) (axis d) (Hfl d _)) as K3.
  pose proof (proj1 (adm_det3 _ _ _ _ _ _ _ _ H)) as sgp.
  split; [exact M1|]. split; [exact M2|]. split; [exact K1|]. split; [exact K2|]. split.
  - unfold dens. apply Rmult_le_pos; [exact K3|]. cbn. lra.
  - intros Hy. unfold dens, zs, uniform_side, prim_to_flux. cbn [fo_U q_ye uniform_state]. rewrite Hy. ring.
Qed.
(** one direction of the update of an interior zone *)
Lemma dir_share d c D : live_dir (kndim cf) d = true -> in_box B c -> D = dens (G d) (zs d c) vRho ->
  exists p r1 r2, 0 <= p <= (sp d c + sp d (next d c)) / 2 /\ 0 <= r1 /\ 0 <= r2 /\ F CD d c - F CD d (next d c) = r1 + r2 - p * D /\
    (khas_ye cf = true -> F Cye d c - F Cye d (next d c) = r1 * v pYe (shift d (-1) c) + r2 * v pYe (next d c) - p * (D * v pYe c)).
Proof.
  intros Hl Hc ED.
  assert (Sn : shift d (-1) (next d c) = c) by (destruct c as [[k j] i]; destruct d; cbn; repeat f_equal; lia).
  destruct (zone_facts d c) as (A1 & A2 & A3 & A4 & A5 & A6). destruct (zone_facts d (shift d (-1) c)) as (B1 & B2 & B3 & B4 & B5 & B6). destruct (zone_facts d (next d c)) as (C1 & C2 & C3 & C4 & C5 & C6).
  assert (Gf : forall f, kgeom cf d f = G d) by (intros f; exact (proj1 (HG d f))).
  destruct (flux_shares cf (zs d (shift d (-1) c)) (zs d c) d c (lam d (shift d (-1) c)) (lam d c) B3 A3 B4) as (a1 & b1 & Ha1 & Hb1 & E1).
  destruct (flux_shares cf (zs d c) (zs d (next d c)) d (next d c) (lam d c) (lam d (next d c)) A3 C3 A4) as (a2 & b2 & Ha2 & Hb2 & E2).
  rewrite !Gf in E1, E2.
  destruct (after_flux CD vRho d c c Hl Hc (or_introl eq_refl) eq_refl) as (X1 & Y1); [discriminate|].
  destruct (after_flux CD vRho d c (next d c) Hl Hc (or_intror eq_refl) eq_refl) as (X2 & Y2); [discriminate|].
  rewrite Sn in X2, Y2. rewrite <- Y1 in Ha1, Hb1. rewrite <- Y2 in Ha2, Hb2.
  exists (b1 + a2), (a1 * dens (G d) (zs d (shift d (-1) c)) vRho), (b2 * dens (G d) (zs d (next d c)) vRho).
  split; [lra|]. split; [apply Rmult_le_pos; lra|]. split; [apply Rmult_le_pos; lra|]. split.
  - rewrite X1, X2, (E1 vRho B1 A1), (E2 vRho A1 C1), ED. ring.
  - intros Hy. assert (Ec : cons_of cf Cye = Some vYe) by (cbn; rewrite Hy; reflexivity).
    destruct (after_flux Cye vYe d c c Hl Hc (or_introl eq_refl) Ec) as (Z1 & _); [discriminate|].
    destruct (after_flux Cye vYe d c (next d c) Hl Hc (or_intror eq_refl) Ec) as (Z2 & _); [discriminate|]. rewrite Sn in Z2.
    rewrite Z1, Z2, (E1 vYe B2 A2), (E2 vYe A2 C2), ED, (A6 Hy), (B6 Hy), (C6 Hy). ring.
Qed.
Variables (dx : Dir -> R) (dt : R) (c : Cell).
Hypothesis Hdx : forall d, 0 < dx d.
Hypothesis Hdt : 0 <= dt.
Hypothesis Hc : in_box B c.
Let W := GetLorentzFactor (fun i => v (pVel i) c) gamma.
Hypothesis Hin : forall d, fst (fl d (v pRho c)) <= v pRho c /\ W <= snd (ce d).
Let D := sg * (v pRho c * W).
Definition courant : R := (sp D1 c + sp D1 (next D1 c)) / (2 * dx D1) + (if Nat.ltb 1 (kndim cf) then (sp D2 c + sp D2 (next D2 c)) / (2 * dx D2) else 0) +
  (if Nat.ltb 2 (kndim cf) then (sp D3 c + sp D3 (next D3 c)) / (2 * dx D3) else 0).
Lemma zone_dens d : D = dens (G d) (zs d c) vRho.
Proof.
  destruct (Hin d) as (I1 & I2). unfold dens, zs, uniform_side, prim_to_flux. cbn [fo_U].
  rewrite (f_rho (uniform_state cf (fun n => v n c)) _ I1).
  replace (face_W (uniform_state cf (fun n => v n c)) (G d) (snd (ce d))) with W.
  2:{ symmetry. exact (f_W _ _ _ _ _ _ _ _ (gi (axis d) (axis d)) H (uniform_state cf (fun n => v n c)) (snd (ce d)) I2). }
  unfold D. cbn. ring.
Qed.
Lemma one_dir (b : bool) d : (b = true -> live_dir (kndim cf) d = true) ->
  exists P Rr T, 0 <= P <= (if b then (sp d c + sp d (next d c)) / (2 * dx d) else 0) /\ 0 <= Rr /\ (if b then (F CD d c - F CD d (next d c)) / dx d else 0) = Rr - P * D /\
   (khas_ye cf = true -> (if b then (F Cye d c - F Cye d (next d c)) / dx d else 0) = T - P * (D * v pYe c)) /\
   (forall lo hi, (b = true -> forall y, y = shift d (-1) c \/ y = next d c -> lo <= v pYe y <= hi) -> lo * Rr <= T <= hi * Rr).
Proof.
  intros Hl. destruct b.
  - specialize (Hl eq_refl). destruct (dir_share d c D Hl Hc (zone_dens d)) as (p & r1 & r2 & Hp & Hr1 & Hr2 & E1 & E2).
    assert (I : 0 < / dx d) by (apply Rinv_0_lt_compat, Hdx).
    exists (p / dx d), ((r1 + r2) / dx d), ((r1 * v pYe (shift d (-1) c) + r2 * v pYe (next d c)) / dx d). split; [|split; [|split; [|split]]].
    + split; [apply Rmult_le_pos; lra|]. replace ((sp d c + sp d (next d c)) / (2 * dx d)) with ((sp d c + sp d (next d c)) / 2 / dx d) by (field; pose proof (Hdx d); lra).
      apply Rmult_le_compat_r; lra.
    + apply Rmult_le_pos; lra.
    + rewrite E1. field. pose proof (Hdx d); lra.
    + intros Hy. rewrite (E2 Hy). field. pose proof (Hdx d); lra.
    + intros lo hi Hb. pose proof (Hb eq_refl _ (or_introl eq_refl)) as U1. pose proof (Hb eq_refl _ (or_intror eq_refl)) as U2.
      assert (0 <= r1 * (v pYe (shift d (-1) c) - lo)) by (apply Rmult_le_pos; lra). assert (0 <= r1 * (hi - v pYe (shift d (-1) c))) by (apply Rmult_le_pos; lra).
      assert (0 <= r2 * (v pYe (next d c) - lo)) by (apply Rmult_le_pos; lra). assert (0 <= r2 * (hi - v pYe (next d c))) by (apply Rmult_le_pos; lra).
      unfold Rdiv. split; rewrite <- Rmult_assoc; apply Rmult_le_compat_r; nra.
  - exists 0, 0, 0. repeat split; try lra. 
Qed.
Lemma positive : dt * courant <= 1 ->
  let D' := D + dt * gain (kndim cf) dx (F CD) c in let Y' := D * v pYe c + dt * gain (kndim cf) dx (F Cye) c in
  0 <= D' /\ (khas_ye cf = true -> forall lo hi, lo <= v pYe c <= hi -> (forall d y, live_dir (kndim cf) d = true -> y = shift d (-1) c \/ y = next d c -> lo <= v pYe y <= hi) -> lo * D' <= Y' <= hi * D').
Proof.
  intros HC D' Y'.
  assert (D0 : 0 <= D) by (rewrite (zone_dens D1); apply zone_facts).
  destruct (one_dir true D1 (fun _ => eq_refl)) as (P1 & R1 & T1 & A1 & A2 & A3 & A4 & A5).
  destruct (one_dir (Nat.ltb 1 (kndim cf)) D2 (fun E => E)) as (P2 & R2 & T2 & B1 & B2 & B3 & B4 & B5).
  destruct (one_dir (Nat.ltb 2 (kndim cf)) D3 (fun E => E)) as (P3 & R3 & T3 & C1 & C2 & C3 & C4 & C5).
  assert (EX : gain (kndim cf) dx (F CD) c = R1 + R2 + R3 - (P1 + P2 + P3) * D) by (unfold gain; rewrite A3, B3, C3; ring).
  assert (Q : 0 <= dt * (P1 + P2 + P3) <= 1).
  { split; [apply Rmult_le_pos; lra|]. eapply Rle_trans; [|exact HC]. apply Rmult_le_compat_l; [exact Hdt|]. unfold courant. lra. }
  assert (K0 : 0 <= (1 - dt * (P1 + P2 + P3)) * D) by (apply Rmult_le_pos; lra).
  assert (K1 : 0 <= dt * (R1 + R2 + R3)) by (apply Rmult_le_pos; lra).
  assert (ED : D' = (1 - dt * (P1 + P2 + P3)) * D + dt * (R1 + R2 + R3)) by (unfold D'; rewrite EX; ring).
  split; [rewrite ED; lra|]. intros Hy lo hi Hv Hb.
  assert (EY : gain (kndim cf) dx (F Cye) c = T1 + T2 + T3 - (P1 + P2 + P3) * (D * v pYe c)) by (unfold gain; rewrite (A4 Hy), (B4 Hy), (C4 Hy); ring).
  assert (EYY : Y' = (1 - dt * (P1 + P2 + P3)) * D * v pYe c + dt * (T1 + T2 + T3)) by (unfold Y'; rewrite EY; ring).
  pose proof (A5 lo hi (fun E => fun y => Hb D1 y E)) as U1. pose proof (B5 lo hi (fun E => fun y => Hb D2 y E)) as U2. pose proof (C5 lo hi (fun E => fun y => Hb D3 y E)) as U3.
  rewrite ED, EYY. set (k := (1 - dt * (P1 + P2 + P3)) * D) in *. clearbody k.
  assert (0 <= k * (v pYe c - lo)) by (apply Rmult_le_pos; lra). assert (0 <= k * (hi - v pYe c)) by (apply Rmult_le_pos; lra).
  assert (dt * (lo * (R1 + R2 + R3)) <= dt * (T1 + T2 + T3)) by (apply Rmult_le_compat_l; lra).
  assert (dt * (T1 + T2 + T3) <= dt * (hi * (R1 + R2 + R3))) by (apply Rmult_le_compat_l; lra).
  split; nra.
Qed.
End Positive.
(** First-order reconstruction in a uniform geometry, both solvers, both formulations, any
    dimension: if the step obeys  dt sum_d (s_d + s_d^+)/(2 dx_d) <= 1  with the speeds the kernel
    returns for the two faces of the zone, the conserved density of a zone whose state is inside
    the floors and ceilings does not become negative whatever its neighbours hold, and the
    composition stays between the extreme values of the zone and its neighbours. *)
Theorem C46_positivity : forall cf B o1 o2 o3 o4 v q0 m0 e0 alpha beta g ginv gamma gi sg sgg fl ce dx dt c,
  (kndim cf = 1 \/ kndim cf = 2 \/ kndim cf = 3)%nat ->
  order_of (flux_box (kndim cf) B) o1 -> order_of (flux_box (kndim cf) B) o2 -> order_of (ct_box (kndim cf) B) o4 ->
  adm_consistent alpha beta g ginv gamma gi sg sgg ->
  uniform_geometry cf (fun d => mkFace alpha sgg sg g beta (gi (axis d) (axis d))) fl ce ->
  krecon cf = constant -> (forall d, 1 <= snd (ce d)) -> (forall d rho, 0 <= fst (fl d rho)) -> (forall d, 0 < dx d) -> 0 <= dt -> in_box B c ->
  let W := GetLorentzFactor (fun i => v (pVel i) c) gamma in
  (forall d, fst (fl d (v pRho c)) <= v pRho c /\ W <= snd (ce d)) ->
  let s := snd (CalculateFluxes cf o1 o2 v q0 m0) in
  dt * ((s D1 c + s D1 (next D1 c)) / (2 * dx D1) + (if Nat.ltb 1 (kndim cf) then (s D2 c + s D2 (next D2 c)) / (2 * dx D2) else 0) +
        (if Nat.ltb 2 (kndim cf) then (s D3 c + s D3 (next D3 c)) / (2 * dx D3) else 0)) <= 1 ->
  let F x d f := fluxes_after cf o1 o2 o3 o4 v q0 m0 e0 (d, x, f) in
  let D := sg * (v pRho c * W) in
  let D' := D + dt * gain (kndim cf) dx (F CD) c in let Y' := D * v pYe c + dt * gain (kndim cf) dx (F Cye) c in
  0 <= D' /\
  (khas_ye cf = true -> forall lo hi, lo <= v pYe c <= hi -> (forall d y, live_dir (kndim cf) d = true -> y = shift d (-1) c \/ y = next d c -> lo <= v pYe y <= hi) -> lo * D' <= Y' <= hi * D').
Proof.
  intros cf B o1 o2 o3 o4 v q0 m0 e0 alpha beta g ginv gamma gi sg sgg fl ce dx dt c Hn O1 O2 O4 H HG Hrec Hce Hfl Hdx Hdt Hc W Hin s HC.
  exact (positive cf B o1 o2 o3 o4 v q0 m0 e0 alpha beta g ginv gamma gi sg sgg fl ce Hn O1 O2 O4 H HG Hrec Hce Hfl dx dt c Hdx Hdt Hc Hin HC).
Qed.
Print Assumptions C46_positivity.
(** In particular with the step EstimateTimestep computes from these speeds, for every Courant
    number up to 1. *)
Theorem C46_cfl_positivity : forall cf B o1 o2 o3 o4 v q0 m0 e0 alpha beta g ginv gamma gi sg sgg fl ce dx c csig tiny big cfl o,
  (kndim cf = 1 \/ kndim cf = 2 \/ kndim cf = 3)%nat ->
  order_of (flux_box (kndim cf) B) o1 -> order_of (flux_box (kndim cf) B) o2 -> order_of (ct_box (kndim cf) B) o4 ->
  adm_consistent alpha beta g ginv gamma gi sg sgg ->
  uniform_geometry cf (fun d => mkFace alpha sgg sg g beta (gi (axis d) (axis d))) fl ce ->
  krecon cf = constant -> (forall d, 1 <= snd (ce d)) -> (forall d rho, 0 <= fst (fl d rho)) -> (forall d, 0 < dx d) -> in_box B c ->
  let W := GetLorentzFactor (fun i => v (pVel i) c) gamma in
  (forall d, fst (fl d (v pRho c)) <= v pRho c /\ W <= snd (ce d)) ->
  order_of B o -> 0 < tiny -> 0 < big -> 0 < cfl <= 1 -> (forall d x, 0 <= csig d x) ->
  let dt := EstimateTimestep true (kndim cf) csig (snd (CalculateFluxes cf o1 o2 v q0 m0)) (fun d _ => dx d) tiny big cfl o in
  let F x d f := fluxes_after cf o1 o2 o3 o4 v q0 m0 e0 (d, x, f) in
  let D := sg * (v pRho c * W) in
  let D' := D + dt * gain (kndim cf) dx (F CD) c in let Y' := D * v pYe c + dt * gain (kndim cf) dx (F Cye) c in
  0 < dt /\ 0 <= D' /\
  (khas_ye cf = true -> forall lo hi, lo <= v pYe c <= hi -> (forall d y, live_dir (kndim cf) d = true -> y = shift d (-1) c \/ y = next d c -> lo <= v pYe y <= hi) -> lo * D' <= Y' <= hi * D').
Proof.
  intros cf B o1 o2 o3 o4 v q0 m0 e0 alpha beta g ginv gamma gi sg sgg fl ce dx c csig tiny big cfl o Hn O1 O2 O4 H HG Hrec Hce Hfl Hdx Hc W Hin Ho Ht Hb Hcfl Hcs dt F D D' Y'.
  assert (Ff : forall d x, 0 <= fastest true csig (snd (CalculateFluxes cf o1 o2 v q0 m0)) d x /\ snd (CalculateFluxes cf o1 o2 v q0 m0) d x <= fastest true csig (snd (CalculateFluxes cf o1 o2 v q0 m0)) d x /\
    snd (CalculateFluxes cf o1 o2 v q0 m0) d (next d x) <= fastest true csig (snd (CalculateFluxes cf o1 o2 v q0 m0)) d x).
  { intros d x. set (s := snd (CalculateFluxes cf o1 o2 v q0 m0)). clearbody s. unfold fastest, speeds. cbn [fold_right]. specialize (Hcs d x). set (a := csig d x) in *. set (b := s d x). set (e := s d (next d x)). clearbody a b e.
    pose proof (Rmax_l a (Rmax b (Rmax e a))). pose proof (Rmax_r a (Rmax b (Rmax e a))). pose proof (Rmax_l b (Rmax e a)). pose proof (Rmax_r b (Rmax e a)). pose proof (Rmax_l e a). lra. }
  destruct (C39_cfl true (kndim cf) csig (snd (CalculateFluxes cf o1 o2 v q0 m0)) (fun d _ => dx d) tiny big cfl B o Hn Ho (fun d _ => Hdx d) Ht Hb ltac:(lra) (fun d x _ => proj1 (Ff d x))) as (K1 & _ & K2 & _).
  fold dt in K1, K2. split; [exact K1|].
  refine (C46_positivity cf B o1 o2 o3 o4 v q0 m0 e0 alpha beta g ginv gamma gi sg sgg fl ce dx dt c Hn O1 O2 O4 H HG Hrec Hce Hfl Hdx (Rlt_le _ _ K1) Hc Hin _).
  specialize (K2 c Hc). eapply Rle_trans; [|apply Rle_trans with (1 := K2); lra]. apply Rmult_le_compat_l; [lra|].
  assert (U : forall d, (snd (CalculateFluxes cf o1 o2 v q0 m0) d c + snd (CalculateFluxes cf o1 o2 v q0 m0) d (next d c)) / (2 * dx d) <= fastest true csig (snd (CalculateFluxes cf o1 o2 v q0 m0)) d c / dx d).
  { intros d. destruct (Ff d c) as (_ & A1 & A2). pose proof (Hdx d) as P. set (s := snd (CalculateFluxes cf o1 o2 v q0 m0)) in *. clearbody s.
    replace ((s d c + s d (next d c)) / (2 * dx d)) with ((s d c + s d (next d c)) / 2 / dx d) by (field; lra).
    apply Rmult_le_compat_r; [left; apply Rinv_0_lt_compat, P|lra]. }
  pose proof (U D1). pose proof (U D2). pose proof (U D3).
  destruct (Nat.ltb 1 (kndim cf)), (Nat.ltb 2 (kndim cf)); lra.
Qed.
Print Assumptions C46_cfl_positivity.

(** *** the radiation reconstruction arrays *)
(** what the reader calls component number [comp] of species [ispec] in direction [idir] *)
Inductive RadComp := rJ | rH (i : nat) | rPi (i j : nat).
Definition comp_ok (mocmc : bool) (x : RadComp) : Prop := match x with rJ => True | rH i => (i < 3)%nat | rPi i j => mocmc = true /\ (i < 3 /\ j < 3)%nat end.
Definition comp_no (x : RadComp) : nat := match x with rJ => 0 | rH i => 1 + i | rPi i j => 4 + i + 3 * j end.
Definition pack_pos (nspec ispec : nat) (x : RadComp) : nat := match x with rJ => pos_J ispec | rH i => pos_H nspec ispec i | rPi i j => pos_tilPi nspec ispec i j end.
Definition n_comp (mocmc : bool) : nat := if mocmc then 13 else 4.
(** The slot the reconstruction loop writes for a component of a species in a direction is the slot
    the flux kernel reads for it, every number of species and offset, with and without the MOCMC
    tensor; every slot is in range, and different (direction, species, component) use different
    slots. *)
Theorem C46_radiation_layout : forall nspec offset (mocmc : bool) ndim idir ispec x, (ispec < nspec)%nat -> (idir < ndim)%nat -> comp_ok mocmc x ->
  written_at nspec (n_comp mocmc) offset idir (pack_pos nspec ispec x) = flat3 nspec (n_comp mocmc) offset ispec (comp_no x) idir /\
  (pack_pos nspec ispec x < n_comp mocmc * nspec)%nat /\
  (offset <= written_at nspec (n_comp mocmc) offset idir (pack_pos nspec ispec x) < offset + nspec * n_comp mocmc * ndim)%nat /\
  (forall idir' ispec' x', (ispec' < nspec)%nat -> (idir' < ndim)%nat -> comp_ok mocmc x' ->
     written_at nspec (n_comp mocmc) offset idir (pack_pos nspec ispec x) = written_at nspec (n_comp mocmc) offset idir' (pack_pos nspec ispec' x') -> idir = idir' /\ ispec = ispec' /\ x = x').
Proof.
  intros nspec offset mocmc ndim idir ispec x Hs Hd Hx.
  assert (P : forall ispec x, (ispec < nspec)%nat -> comp_ok mocmc x -> pack_pos nspec ispec x = (ispec + nspec * comp_no x)%nat /\ (comp_no x < n_comp mocmc)%nat).
  { intros is' [|i|i j] H1 H2; cbn in H2 |- *; unfold pos_J, pos_H, pos_tilPi, flat2, flat3, n_comp; [destruct mocmc; split; lia|destruct mocmc; split; lia|]. destruct H2 as (-> & H2 & H3). split; nia. }
  assert (Inj : forall x x', comp_ok mocmc x -> comp_ok mocmc x' -> comp_no x = comp_no x' -> x = x').
  { intros [|i|i j] [|i'|i' j']; cbn; intros H1 H2 E; try lia; try reflexivity.
    - f_equal; lia.
    - f_equal; lia. }
  destruct (P ispec x Hs Hx) as (Ep & Ec). unfold written_at, flat3. rewrite Ep. set (C := n_comp mocmc) in *. clearbody C.
  assert (T1 : (ispec + nspec * comp_no x < C * nspec)%nat) by nia.
  assert (T2 : (idir * (C * nspec) + (ispec + nspec * comp_no x) < nspec * C * ndim)%nat).
  { assert ((idir * (C * nspec) + C * nspec <= nspec * C * ndim)%nat) by (replace (nspec * C * ndim)%nat with (ndim * (C * nspec))%nat by ring; replace (idir * (C * nspec) + C * nspec)%nat with (S idir * (C * nspec))%nat by ring; apply Nat.mul_le_mono_r; lia). lia. }
  split; [ring|]. split; [exact T1|]. split; [lia|].
  intros idir' ispec' x' Hs' Hd' Hx' E. destruct (P ispec' x' Hs' Hx') as (Ep' & Ec'). rewrite Ep' in E.
  assert (E2 : (nspec * (idir * C + comp_no x) + ispec = nspec * (idir' * C + comp_no x') + ispec')%nat) by (ring_simplify; ring_simplify in E; lia).
  destruct (Nat.div_mod_unique nspec _ _ _ _ Hs Hs' E2) as (E3 & E4).
  assert (E5 : (C * idir + comp_no x = C * idir' + comp_no x')%nat) by (rewrite (Nat.mul_comm C), (Nat.mul_comm C idir'); exact E3).
  destruct (Nat.div_mod_unique C _ _ _ _ Ec Ec' E5) as (E6 & E7). split; [exact E6|]. split; [exact E4|]. apply Inj; assumption.
Qed.
Print Assumptions C46_radiation_layout.

(** *** the hypotheses can be met *)
(** a two-dimensional magnetised run with composition, HLL, on a 4 x 4 block in flat space; density
    and composition jump, the gas moves *)
Definition demo_cf (rt : ReconType) (sv : Solver) : KConf :=
  mkK 2 true true true rt sv (fun d _ => mkFace 1 1 1 eta4 zero3 (delta (axis d) (axis d))) (fun _ _ _ => (/ 100, / 100)) (fun _ _ => (10, 10)).
Definition demo_box : Box := {| ks := 0; ke := 0; js := 4; je := 7; is_ := 4; ie := 7 |}.
Definition demo_v : PMem := fun n c => let '(_, _, i) := c in
  match n with pRho => if (i <? 6)%Z then 1 else / 10 | pVel 0 => 3 / 4 | pEng => 1 / 2 | pPrs => 1 / 3 | pGm1 => 4 / 3 | pB 0 => 1 | pYe => if (i <? 6)%Z then 1 / 2 else 1 / 10 | _ => 0 end.
Example C46_nonvacuous : forall rt sv, let cf := demo_cf rt sv in
  (kndim cf = 1 \/ kndim cf = 2 \/ kndim cf = 3)%nat /\ order_of (flux_box (kndim cf) demo_box) (box_list (flux_box (kndim cf) demo_box)) /\ order_of (ct_box (kndim cf) demo_box) (box_list (ct_box (kndim cf) demo_box)) /\
  adm_consistent 1 zero3 eta4 eta4 delta delta 1 1 /\ uniform_geometry cf (fun d => mkFace 1 1 1 eta4 zero3 (delta (axis d) (axis d))) (fun _ _ => (/ 100, / 100)) (fun _ => (10, 10)) /\
  in_box demo_box (0, 5, 5)%Z /\ live_dir (kndim cf) D1 = true /\ computed (kndim cf) demo_box D1 (0, 5, 6)%Z /\
  (forall n, cons_of cf (CB n) = if Nat.ltb n 3 then Some (vB n) else None) /\ cons_of cf CD = Some vRho /\
  (forall d : Dir, / 100 <= demo_v pRho (0, 5, 5)%Z /\ GetLorentzFactor (fun i => demo_v (pVel i) (0, 5, 5)%Z) delta <= 10) /\
  demo_v pRho (0, 5, 5)%Z <> demo_v pRho (0, 5, 6)%Z /\
  (forall x : R, exists dt, 0 < dt /\ dt * x <= 1) /\
  mirror_config D1 11 cf cf.
Proof.
  intros rt sv cf.
  split; [right; left; reflexivity|]. split; [apply order_box_list|]. split; [apply order_box_list|]. split; [exact eta4_consistent|].
  split; [intros d f; repeat split|]. split; [cbn; lia|]. split; [reflexivity|]. split; [unfold computed; cbn; lia|]. split; [reflexivity|]. split; [reflexivity|].
  split.
  { intros _. split; [cbn; lra|]. unfold GetLorentzFactor, sum3, delta. cbn. apply Rle_trans with (sqrt (10 * 10)); [apply sqrt_le_1_alt; lra|rewrite sqrt_square; lra]. }
  split; [cbn; lra|]. split.
  { intros x. exists (/ (1 + Rabs x)). assert (0 < 1 + Rabs x) by (pose proof (Rabs_pos x); lra). split; [apply Rinv_0_lt_compat; assumption|].
    apply Rmult_le_reg_l with (1 + Rabs x); [assumption|]. rewrite <- Rmult_assoc, Rinv_r, Rmult_1_l, Rmult_1_r by lra. pose proof (Rle_abs x). lra. }
  split; [repeat split|]. intros f. split; [|split; reflexivity]. cbn [kgeom cf demo_cf]. unfold reflect_geom. cbn [fg_alpha fg_gdet fg_gammadet fg_gcov fg_beta fg_gdd].
  f_equal; apply functional_extensionality; intros mu; [apply functional_extensionality; intros nu; unfold eta4; cbn|unfold zero3; ring].
  destruct mu as [|[|mu]], nu as [|[|nu]]; cbn; unfold flip; cbn; try ring.
Qed.
