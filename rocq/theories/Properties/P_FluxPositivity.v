(** C46, continued: positive density in every geometry and with every reconstruction. *)
From Coq Require Import ZArith Reals List Bool Arith Lra Lia Psatz FunctionalExtensionality.
From Flocq Require Import Core.
From Verif.Model Require Import Num Robust ParFor Reconstruction Relativity Riemann FluxFix FluxKernel Geometry.
From Verif.Spec Require Import Tensor GeomSpec SystemSpec FluxSpec.
From Verif.Proofs Require Import NumR RobustProofs GeomBase AdmProofs ParForProofs FluxFixProofs SumProofs FluxCTProofs RiemannProofs FaceProofs ReflectProofs FlatWitness.
From Verif.Properties Require Import P_Recon P_Riemann P_FluxCT P_FluxKernel P_Geometry.
Import ListNotations.
Local Open Scope R_scope.

(** the geometry of a face is a spacetime *)
Definition face_ok (cf : KConf) (d : Dir) (f : Cell) : Prop :=
  exists alpha beta g ginv gamma gi sg sgg, adm_consistent alpha beta g ginv gamma gi sg sgg /\ kgeom cf d f = mkFace alpha sgg sg g beta (gi (axis d) (axis d)).
(** conserved density of the state on the lower ([true]) or upper ([false]) side of a face *)
Definition face_density (cf : KConf) (v : PMem) (below : bool) (d : Dir) (f : Cell) : R :=
  dens (kgeom cf d f) (side cf (face_values (krecon cf) v) below d f) vRho.

Lemma speed_bounds cf l r : let s := face_speed cf l r in (- s <= fo_vm l /\ fo_vp l <= s) /\ (- s <= fo_vm r /\ fo_vp r <= s).
Proof.
  cbv zeta. unfold face_speed. destruct (ksolver cf).
  - unfold llf_cmax. rewrite !std_max_R.
    pose proof (Rmax_l (- fo_vm l) (fo_vp l)). pose proof (Rmax_r (- fo_vm l) (fo_vp l)). pose proof (Rmax_l (- fo_vm r) (fo_vp r)). pose proof (Rmax_r (- fo_vm r) (fo_vp r)).
    pose proof (Rmax_l (Rmax (- fo_vm l) (fo_vp l)) (Rmax (- fo_vm r) (fo_vp r))). pose proof (Rmax_r (Rmax (- fo_vm l) (fo_vp l)) (Rmax (- fo_vm r) (fo_vp r))). lra.
  - unfold hll_speed, hll_cl, hll_cr. rewrite !std_max_R, !std_min_R.
    pose proof (Rmin_l (fo_vm l) (fo_vm r)). pose proof (Rmin_r (fo_vm l) (fo_vm r)). pose proof (Rmax_l (fo_vp l) (fo_vp r)). pose proof (Rmax_r (fo_vp l) (fo_vp r)).
    set (a := Rmin (fo_vm l) (fo_vm r)) in *. set (b := Rmax (fo_vp l) (fo_vp r)) in *. clearbody a b.
    pose proof (Rmin_l a 0). pose proof (Rmax_l b 0). set (a' := Rmin a 0) in *. set (b' := Rmax b 0) in *. clearbody a' b'.
    pose proof (Rmax_l (- a') b'). pose proof (Rmax_r (- a') b'). lra.
Qed.

Section Any.
Variables (cf : KConf) (B : Box) (o1 o2 o3 o4 : list Cell) (v : PMem) (q0 : QMem) (m0 : FMem) (e0 : Emf R).
Hypothesis Hn : (kndim cf = 1 \/ kndim cf = 2 \/ kndim cf = 3)%nat.
Hypothesis O1 : order_of (flux_box (kndim cf) B) o1.
Hypothesis O2 : order_of (flux_box (kndim cf) B) o2.
Hypothesis O4 : order_of (ct_box (kndim cf) B) o4.
Hypothesis Hce : forall d f, 1 <= snd (kceil cf d f).
Hypothesis Hfl : forall d f rho, 0 <= fst (kfloors cf d f rho).
Let F (x : CVar) (d : Dir) (f : Cell) := fluxes_after cf o1 o2 o3 o4 v q0 m0 e0 (d, x, f).
Let sp := snd (CalculateFluxes cf o1 o2 v q0 m0).
Let zs (l : bool) d f := side cf (face_values (krecon cf) v) l d f.
Let fd := face_density cf v.

Lemma any_flux x cv d c f : live_dir (kndim cf) d = true -> in_box B c -> f = c \/ f = next d c -> cons_of cf x = Some cv -> (forall n, x <> CB n) ->
  F x d f = face_flux cf (zs true d f) (zs false d f) d f cv /\ sp d f = face_speed cf (zs true d f) (zs false d f).
Proof.
  intros Hl Hc Hf Ex Hx. destruct (zone_computed _ _ _ _ Hn Hl Hc) as (C1 & C2). assert (Cf : computed (kndim cf) B d f) by (destruct Hf as [-> | ->]; assumption).
  destruct (C46_face_flux cf B o1 o2 v q0 m0 d f O1 O2 Hl Cf) as (A1 & _ & A3).
  assert (E : F x d f = fst (CalculateFluxes cf o1 o2 v q0 m0) (d, x, f)).
  { unfold F, fluxes_after. destruct (khas_B cf); [|reflexivity]. destruct Hn as [E|Hn']; [rewrite E; reflexivity|].
    apply (ct_other _ B); [exact Hn'|exact O4| |intros n E; destruct (Hx n E)].
    destruct c as [[k j] i]. destruct Hn' as [E | E]; rewrite E in *; destruct d; try discriminate Hl; destruct Hf as [-> | ->]; cbn in *; lia. }
  rewrite E, (A1 x cv Ex). unfold sp. rewrite A3. split; reflexivity.
Qed.
Lemma any_facts l d f : face_ok cf d f -> exists lam, phys (kgeom cf d f) (zs l d f) vRho = lam * fd l d f /\
  phys (kgeom cf d f) (zs l d f) vYe = lam * dens (kgeom cf d f) (zs l d f) vYe /\
  fo_vm (zs l d f) <= lam <= fo_vp (zs l d f) /\ fo_vm (zs l d f) < fo_vp (zs l d f) /\ 0 <= fd l d f /\
  (khas_ye cf = true -> dens (kgeom cf d f) (zs l d f) vYe = face_values (krecon cf) v l d pYe f * fd l d f).
Proof.
  intros (alpha & beta & g & ginv & gamma & gi & sg & sgg & H & E).
  assert (D3 : (axis d < 3)%nat) by (destruct d; cbn; lia).
  unfold fd, face_density, zs, side. cbn [q_rho state_at].
  pose proof (Hfl d f (face_values (krecon cf) v l d pRho f)) as Pf. pose proof (Hce d f) as Pc.
  destruct (kfloors cf d f (face_values (krecon cf) v l d pRho f)) as [rf sf]. destruct (kceil cf d f) as [sm gm]. cbn [fst snd] in Pf, Pc.
  rewrite E. change (dnum d) with (axis d). set (st := state_at (khas_B cf) (khas_ye cf) (face_values (krecon cf) v) l d f).
  destruct (C20_face_advection _ _ _ _ _ _ _ _ H (kvalencia cf) (axis d) st rf sf sm gm D3 Pc) as (lam & M1 & M2 & M3 & M4).
  pose proof (rho_U _ _ _ _ _ _ _ _ (gi (axis d) (axis d)) H st rf sf sm gm Pc (kvalencia cf) (axis d) Pf) as K3.
  pose proof (proj1 (adm_det3 _ _ _ _ _ _ _ _ H)) as sgp.
  exists lam. split; [exact M1|]. split; [exact M2|]. split; [exact M3|]. split; [exact M4|]. split.
  - unfold dens. apply Rmult_le_pos; [exact K3|]. cbn. lra.
  - intros Hy. unfold dens, prim_to_flux, st. cbn [fo_U q_ye state_at]. rewrite Hy. ring.
Qed.
(** one direction *)
Lemma any_dir d c : live_dir (kndim cf) d = true -> in_box B c -> face_ok cf d c -> face_ok cf d (next d c) ->
  exists p1 p2 r1 r2, 0 <= p1 <= sp d c /\ 0 <= p2 <= sp d (next d c) /\ 0 <= r1 /\ 0 <= r2 /\
    F CD d c - F CD d (next d c) = r1 + r2 - (p1 * fd false d c + p2 * fd true d (next d c)) /\
    (khas_ye cf = true -> F Cye d c - F Cye d (next d c) = r1 * face_values (krecon cf) v true d pYe c + r2 * face_values (krecon cf) v false d pYe (next d c)
       - (p1 * fd false d c * face_values (krecon cf) v false d pYe c + p2 * fd true d (next d c) * face_values (krecon cf) v true d pYe (next d c))).
Proof.
  intros Hl Hc G1 G2.
  destruct (any_facts true d c G1) as (ll & A1 & A2 & A3 & A4 & A5 & A6). destruct (any_facts false d c G1) as (lr & B1 & B2 & B3 & B4 & B5 & B6).
  destruct (any_facts true d (next d c) G2) as (ul & C1 & C2 & C3 & C4 & C5 & C6). destruct (any_facts false d (next d c) G2) as (ur & E1 & E2 & E3 & E4 & E5 & E6).
  destruct (flux_shares cf _ _ d c ll lr A3 B3 A4) as (a1 & b1 & Ha1 & Hb1 & X1).
  destruct (flux_shares cf _ _ d (next d c) ul ur C3 E3 C4) as (a2 & b2 & Ha2 & Hb2 & X2).
  destruct (any_flux CD vRho d c c Hl Hc (or_introl eq_refl) eq_refl) as (Y1 & S1); [discriminate|].
  destruct (any_flux CD vRho d c (next d c) Hl Hc (or_intror eq_refl) eq_refl) as (Y2 & S2); [discriminate|].
  pose proof (speed_bounds cf (zs true d c) (zs false d c)) as (_ & T1). pose proof (speed_bounds cf (zs true d (next d c)) (zs false d (next d c))) as (T2 & _).
  fold (zs true d c) (zs false d c) in Ha1, Hb1. fold (zs true d (next d c)) (zs false d (next d c)) in Ha2, Hb2. rewrite <- S1 in Ha1, Hb1, T1. rewrite <- S2 in Ha2, Hb2, T2.
  exists b1, a2, (a1 * fd true d c), (b2 * fd false d (next d c)).
  split; [lra|]. split; [lra|]. split; [apply Rmult_le_pos; lra|]. split; [apply Rmult_le_pos; lra|]. split.
  - rewrite Y1, Y2, (X1 vRho A1 B1), (X2 vRho C1 E1). unfold fd, face_density. fold (zs true d c) (zs false d c) (zs true d (next d c)) (zs false d (next d c)). ring.
  - intros Hy. assert (Ec : cons_of cf Cye = Some vYe) by (cbn; rewrite Hy; reflexivity).
    destruct (any_flux Cye vYe d c c Hl Hc (or_introl eq_refl) Ec) as (Z1 & _); [discriminate|].
    destruct (any_flux Cye vYe d c (next d c) Hl Hc (or_intror eq_refl) Ec) as (Z2 & _); [discriminate|].
    rewrite Z1, Z2, (X1 vYe A2 B2), (X2 vYe C2 E2), (A6 Hy), (B6 Hy), (C6 Hy), (E6 Hy). ring.
Qed.

Variables (dx : Dir -> R) (dt : R) (c : Cell).
Hypothesis Hdx : forall d, 0 < dx d.
Hypothesis Hdt : 0 <= dt.
Hypothesis Hc : in_box B c.
Hypothesis HG : forall d, live_dir (kndim cf) d = true -> face_ok cf d c /\ face_ok cf d (next d c).
Let share d := (sp d c * fd false d c + sp d (next d c) * fd true d (next d c)) / dx d.
Lemma any_one (b : bool) d : (b = true -> live_dir (kndim cf) d = true) ->
  exists P Rr T, 0 <= P <= (if b then share d else 0) /\ 0 <= Rr /\ (if b then (F CD d c - F CD d (next d c)) / dx d else 0) = Rr - P /\
   (khas_ye cf = true -> krecon cf = constant -> (if b then (F Cye d c - F Cye d (next d c)) / dx d else 0) = T - P * v pYe c) /\
   (krecon cf = constant -> forall lo hi, (b = true -> forall y, y = shift d (-1) c \/ y = next d c -> lo <= v pYe y <= hi) -> lo * Rr <= T <= hi * Rr).
Proof.
  intros Hl. destruct b.
  - specialize (Hl eq_refl). destruct (HG d Hl) as (G1 & G2). destruct (any_dir d c Hl Hc G1 G2) as (p1 & p2 & r1 & r2 & Hp1 & Hp2 & Hr1 & Hr2 & E1 & E2).
    assert (I : 0 < / dx d) by (apply Rinv_0_lt_compat, Hdx). pose proof (Hdx d) as Pd.
    destruct (any_facts false d c G1) as (_ & _ & _ & _ & _ & N1 & _). destruct (any_facts true d (next d c) G2) as (_ & _ & _ & _ & _ & N2 & _).
    assert (ES : share d = (sp d c * fd false d c + sp d (next d c) * fd true d (next d c)) / dx d) by reflexivity.
    set (u1 := fd false d c) in *. set (u2 := fd true d (next d c)) in *. clearbody u1 u2.
    assert (Q1 : 0 <= p1 * u1 <= sp d c * u1) by (split; [apply Rmult_le_pos; lra | apply Rmult_le_compat_r; lra]).
    assert (Q2 : 0 <= p2 * u2 <= sp d (next d c) * u2) by (split; [apply Rmult_le_pos; lra | apply Rmult_le_compat_r; lra]).
    exists ((p1 * u1 + p2 * u2) / dx d), ((r1 + r2) / dx d), ((r1 * v pYe (shift d (-1) c) + r2 * v pYe (next d c)) / dx d). split; [|split; [|split; [|split]]].
    + split; [apply Rmult_le_pos; lra|]. rewrite ES. apply Rmult_le_compat_r; lra.
    + apply Rmult_le_pos; lra.
    + rewrite E1. field. lra.
    + intros Hy Hrec. rewrite (E2 Hy). rewrite Hrec. unfold face_values, recon. replace (shift d (-1) (next d c)) with c by (destruct c as [[k j] i]; destruct d; cbn; repeat f_equal; lia). unfold PiecewiseConstant. cbn [fst snd]. field. lra.
    + intros Hrec lo hi Hb. pose proof (Hb eq_refl _ (or_introl eq_refl)) as U1. pose proof (Hb eq_refl _ (or_intror eq_refl)) as U2.
      assert (0 <= r1 * (v pYe (shift d (-1) c) - lo)) by (apply Rmult_le_pos; lra). assert (0 <= r1 * (hi - v pYe (shift d (-1) c))) by (apply Rmult_le_pos; lra).
      assert (0 <= r2 * (v pYe (next d c) - lo)) by (apply Rmult_le_pos; lra). assert (0 <= r2 * (hi - v pYe (next d c))) by (apply Rmult_le_pos; lra).
      unfold Rdiv. split; rewrite <- Rmult_assoc; apply Rmult_le_compat_r; nra.
  - exists 0, 0, 0. repeat split; try lra.
Qed.
Lemma any_positive D : dt * (share D1 + (if Nat.ltb 1 (kndim cf) then share D2 else 0) + (if Nat.ltb 2 (kndim cf) then share D3 else 0)) <= D ->
  let D' := D + dt * gain (kndim cf) dx (F CD) c in let Y' := D * v pYe c + dt * gain (kndim cf) dx (F Cye) c in
  0 <= D' /\ (khas_ye cf = true -> krecon cf = constant -> forall lo hi, lo <= v pYe c <= hi -> (forall d y, live_dir (kndim cf) d = true -> y = shift d (-1) c \/ y = next d c -> lo <= v pYe y <= hi) -> lo * D' <= Y' <= hi * D').
Proof.
  intros HC D' Y'.
  destruct (any_one true D1 (fun _ => eq_refl)) as (P1 & R1 & T1 & A1 & A2 & A3 & A4 & A5).
  destruct (any_one (Nat.ltb 1 (kndim cf)) D2 (fun E => E)) as (P2 & R2 & T2 & B1 & B2 & B3 & B4 & B5).
  destruct (any_one (Nat.ltb 2 (kndim cf)) D3 (fun E => E)) as (P3 & R3 & T3 & C1 & C2 & C3 & C4 & C5).
  assert (EX : gain (kndim cf) dx (F CD) c = R1 + R2 + R3 - (P1 + P2 + P3)) by (unfold gain; rewrite A3, B3, C3; ring).
  assert (Q : dt * (P1 + P2 + P3) <= D).
  { eapply Rle_trans; [|exact HC]. apply Rmult_le_compat_l; [exact Hdt|]. lra. }
  assert (K1 : 0 <= dt * (R1 + R2 + R3)) by (apply Rmult_le_pos; lra).
  assert (ED : D' = (D - dt * (P1 + P2 + P3)) + dt * (R1 + R2 + R3)) by (unfold D'; rewrite EX; ring).
  split; [rewrite ED; lra|]. intros Hy Hrec lo hi Hv Hb.
  assert (EY : gain (kndim cf) dx (F Cye) c = T1 + T2 + T3 - (P1 + P2 + P3) * v pYe c) by (unfold gain; rewrite (A4 Hy Hrec), (B4 Hy Hrec), (C4 Hy Hrec); ring).
  assert (EYY : Y' = (D - dt * (P1 + P2 + P3)) * v pYe c + dt * (T1 + T2 + T3)) by (unfold Y'; rewrite EY; ring).
  pose proof (A5 Hrec lo hi (fun E => fun y => Hb D1 y E)) as U1. pose proof (B5 Hrec lo hi (fun E => fun y => Hb D2 y E)) as U2. pose proof (C5 Hrec lo hi (fun E => fun y => Hb D3 y E)) as U3.
  rewrite ED, EYY. set (k := D - dt * (P1 + P2 + P3)) in *. assert (Hk : 0 <= k) by (unfold k; lra). clearbody k.
  assert (0 <= k * (v pYe c - lo)) by (apply Rmult_le_pos; lra). assert (0 <= k * (hi - v pYe c)) by (apply Rmult_le_pos; lra).
  assert (dt * (lo * (R1 + R2 + R3)) <= dt * (T1 + T2 + T3)) by (apply Rmult_le_compat_l; lra).
  assert (dt * (T1 + T2 + T3) <= dt * (hi * (R1 + R2 + R3))) by (apply Rmult_le_compat_l; lra).
  split; nra.
Qed.
End Any.

(** Every geometry (faces with different metrics), every reconstruction, both solvers, both
    formulations, any dimension, any state: the conserved density D of a zone stays non-negative
    whenever the step could not empty the zone at the returned speeds, that is
    dt sum_d (s_d D_d^- + s_d^+ D_d^+) / dx_d <= D  with D_d^-, D_d^+ the densities of the zone's own
    states at its two faces.  With first-order reconstruction the composition also stays between
    the extreme values of the zone and its neighbours. *)
Theorem C46_positivity_curved : forall cf B o1 o2 o3 o4 v q0 m0 e0 dx dt c D,
  (kndim cf = 1 \/ kndim cf = 2 \/ kndim cf = 3)%nat ->
  order_of (flux_box (kndim cf) B) o1 -> order_of (flux_box (kndim cf) B) o2 -> order_of (ct_box (kndim cf) B) o4 ->
  (forall d f, 1 <= snd (kceil cf d f)) -> (forall d f rho, 0 <= fst (kfloors cf d f rho)) -> (forall d, 0 < dx d) -> 0 <= dt -> in_box B c ->
  (forall d, live_dir (kndim cf) d = true -> face_ok cf d c /\ face_ok cf d (next d c)) ->
  let s := snd (CalculateFluxes cf o1 o2 v q0 m0) in
  let rate d := (s d c * face_density cf v false d c + s d (next d c) * face_density cf v true d (next d c)) / dx d in
  dt * (rate D1 + (if Nat.ltb 1 (kndim cf) then rate D2 else 0) + (if Nat.ltb 2 (kndim cf) then rate D3 else 0)) <= D ->
  let F x d f := fluxes_after cf o1 o2 o3 o4 v q0 m0 e0 (d, x, f) in
  let D' := D + dt * gain (kndim cf) dx (F CD) c in let Y' := D * v pYe c + dt * gain (kndim cf) dx (F Cye) c in
  0 <= D' /\
  (khas_ye cf = true -> krecon cf = constant -> forall lo hi, lo <= v pYe c <= hi ->
   (forall d y, live_dir (kndim cf) d = true -> y = shift d (-1) c \/ y = next d c -> lo <= v pYe y <= hi) -> lo * D' <= Y' <= hi * D').
Proof.
  intros cf B o1 o2 o3 o4 v q0 m0 e0 dx dt c D Hn O1 O2 O4 Hce Hfl Hdx Hdt Hc HG s rate HC.
  exact (any_positive cf B o1 o2 o3 o4 v q0 m0 e0 Hn O1 O2 O4 Hce Hfl dx dt c Hdx Hdt Hc HG D HC).
Qed.
Print Assumptions C46_positivity_curved.
Example C46_positivity_curved_nonvacuous : forall rt sv, let cf := demo_cf rt sv in
  (kndim cf = 1 \/ kndim cf = 2 \/ kndim cf = 3)%nat /\ order_of (flux_box (kndim cf) demo_box) (box_list (flux_box (kndim cf) demo_box)) /\ order_of (ct_box (kndim cf) demo_box) (box_list (ct_box (kndim cf) demo_box)) /\
  (forall d f, 1 <= snd (kceil cf d f)) /\ (forall d f rho, 0 <= fst (kfloors cf d f rho)) /\ in_box demo_box (0, 5, 5)%Z /\ (forall d f, face_ok cf d f) /\
  (forall x D : R, 0 < D -> exists dt, 0 < dt /\ dt * x <= D).
Proof.
  intros rt sv cf. split; [right; left; reflexivity|]. split; [apply order_box_list|]. split; [apply order_box_list|].
  split; [intros; cbn; lra|]. split; [intros; cbn; lra|]. split; [cbn; lia|]. split.
  - intros d f. exists 1, zero3, eta4, eta4, delta, delta, 1, 1. split; [exact eta4_consistent|reflexivity].
  - intros x D HD. exists (D * / (1 + Rabs x)). assert (P : 0 < 1 + Rabs x) by (pose proof (Rabs_pos x); lra). pose proof (Rinv_0_lt_compat _ P). split; [apply Rmult_lt_0_compat; lra|].
    apply Rmult_le_reg_l with (1 + Rabs x); [assumption|]. replace ((1 + Rabs x) * (D * / (1 + Rabs x) * x)) with (D * x) by (field; lra). pose proof (Rle_abs x). pose proof (Rabs_pos x). nra.
Qed.

(** *** with the step the code takes, not in spherical coordinates near the origin *)
(** zones of width 1 of a radial block in [SphericalMinkowski], the first from r = 1/10 to 11/10 *)
Definition rface (i : Z) : R := / 10 + IZR i.
Definition sph_point (r : R) : point := row4 0 r (PI / 2) 0.
Definition sph_cf (sv : Solver) : KConf :=
  mkK 1 true false false constant sv
    (fun d f => let '(_, _, i) := f in let X := sph_point (rface i) in let S := SphericalMinkowski in
       mkFace (Lapse S X) (DetG S X) (DetGamma S X) (SpacetimeMetric S X) (ContravariantShift S X) (MetricInverse S X (axis d) (axis d)))
    (fun _ _ _ => (/ 100, / 100)) (fun _ _ => (100, 100)).
(** gas moving outward at 3/5 of the speed of light (W = 5/4), sound speed 1/2 *)
Definition sph_v : PMem := fun n _ => match n with pRho => 1 | pVel 0 => 3 / 4 | pEng => 1 | pPrs => 1 | pGm1 => 3 / 4 | _ => 0 end.
Definition sph_box : Box := {| ks := 0; ke := 0; js := 0; je := 0; is_ := 0; ie := 7 |}.

Lemma sph_side sv l i : let s := side (sph_cf sv) (face_values constant sph_v) l D1 (0, 0, i)%Z in
  fo_U s vRho = 5 / 4 /\ fo_F s vRho = 3 / 4 /\ fo_vm s = 1 / 7 /\ fo_vp s = 11 / 13.
Proof.
  cbv zeta. unfold side. cbn [kfloors kceil sph_cf khas_B khas_ye kvalencia kgeom].
  assert (ES : state_at false false (face_values constant sph_v) l D1 (0, 0, i)%Z = {| q_rho := 1; q_vp := fun i => sph_v (pVel i) (0,0,0)%Z; q_eng := 1; q_prs := 1; q_gm1 := 3 / 4; q_B := fun _ => 0; q_ye := 0 |}).
  { unfold state_at, face_values, recon, PiecewiseConstant. destruct l; reflexivity. }
  rewrite ES. clear ES l. set (g := mkFace _ _ _ _ _ _). set (q := mkState _ _ _ _ _ _ _).
  assert (W : GetLorentzFactor4 (q_vp q) (fg_gcov g) = 5 / 4).
  { unfold GetLorentzFactor4, sum3, q, g. cbn. replace (1 + _) with (5 / 4 * (5 / 4)) by field. apply sqrt_square; lra. }
  assert (L : lim_vpcon q g 100 = q_vp q) by (unfold lim_vpcon; rewrite W, Rlt_bool_false by lra; reflexivity).
  assert (V0 : face_vcon0 q g 100 = fun ii => q_vp q ii / (5 / 4)) by (unfold face_vcon0; rewrite L, W; reflexivity).
  assert (Q0 : face_vsq0 q g 100 = 9 / 25) by (unfold face_vsq0; rewrite V0; unfold sum3, q, g; cbn; field).
  assert (SC : face_scale q g 100 = 1) by (unfold face_scale; rewrite Q0, Rlt_bool_false by lra; reflexivity).
  assert (V : face_vcon q g 100 = fun ii => q_vp q ii / (5 / 4)) by (unfold face_vcon; rewrite V0, SC, sqrt_1; apply functional_extensionality; intros; ring).
  assert (Q : face_vsq q g 100 = 9 / 25) by (unfold face_vsq; rewrite Q0, SC; ring).
  assert (FW : face_W q g 100 = 5 / 4).
  { unfold face_W. rewrite Q. replace (1 - 9 / 25) with (4 / 5 * (4 / 5)) by field. rewrite sqrt_square by lra. field. }
  assert (RH : lim_rho q (/ 100) = 1) by (unfold lim_rho; rewrite std_max_R; apply Rmax_left; cbn; lra).
  assert (EN : lim_eng q 1 (/ 100) 100 = 1) by (unfold lim_eng; cbn [q_eng q]; rewrite Rlt_bool_true, Rlt_bool_false by lra; reflexivity).
  assert (PR : std_max (q_prs q) 0 = 1) by (rewrite std_max_R; apply Rmax_left; cbn; lra).
  assert (BB : sum3 (fun m : nat => sum3 (fun n : nat => fg_gcov g (m + 1)%nat (n + 1)%nat * q_B q m * q_B q n)) = 0) by (unfold sum3; cbn [q_B q]; ring).
  assert (BV : sum3 (fun m : nat => sum3 (fun n : nat => fg_gcov g (m + 1)%nat (n + 1)%nat * q_B q m * face_vcon0 q g 100 n)) = 0) by (unfold sum3; cbn [q_B q]; ring).
  pose proof EPS_pos as Ep.
  assert (MP : forall x, / 100 <= x -> make_positive x = x) by (intros x Hx; rewrite make_positive_R; apply Rmax_left; lra).
  unfold prim_to_flux. rewrite ?V, ?Q, ?FW. cbv zeta. cbn [fo_U fo_F fo_vm fo_vp]. rewrite ?RH, ?EN, ?PR, ?BB, ?BV.
  change (q_gm1 q) with (3 / 4). change (q_vp q (dnum D1)) with (3 / 4). change (fg_alpha g) with 1. change (fg_beta g (dnum D1)) with 0. change (fg_gdd g) with 1.
  set (cs := make_bounded (3 / 4 * 1 * (5 / 4) * (5 / 4) / make_positive _) 0 1).
  assert (C1 : cs = 1 / 4).
  { unfold cs. rewrite MP by lra. rewrite make_bounded_R. rewrite Rmax_left, Rmin_left by (try rewrite Rmax_left by lra; lra). field. }
  clearbody cs.
  set (cm := make_bounded (cs + _) 0 1).
  assert (C2 : cm = 1 / 4).
  { unfold cm. rewrite MP by lra. rewrite C1, make_bounded_R. rewrite Rmax_left, Rmin_left by (try rewrite Rmax_left by lra; lra). field. }
  clearbody cm. rewrite C2. rewrite MP by lra.
  replace (1 / 4 * (1 - 9 / 25) * _) with (32 / 100 * (32 / 100)) by field. rewrite sqrt_square by lra.
  split; [field|]. split; [field|]. split; field.
Qed.
Lemma sph_flux sv i : godunov_flux (sph_cf sv) sph_v D1 (0, 0, i)%Z vRho = 3 / 4 * (rface i * rface i) /\ godunov_speed (sph_cf sv) sph_v D1 (0, 0, i)%Z = 11 / 13.
Proof.
  destruct (sph_side sv true i) as (U1 & F1 & M1 & P1). destruct (sph_side sv false i) as (U2 & F2 & M2 & P2). cbv zeta in *.
  unfold godunov_flux, godunov_speed, face_flux, face_speed. change (krecon (sph_cf sv)) with constant.
  set (s1 := side (sph_cf sv) (face_values constant sph_v) true D1 (0, 0, i)%Z) in *. set (s2 := side (sph_cf sv) (face_values constant sph_v) false D1 (0, 0, i)%Z) in *. clearbody s1 s2.
  assert (G : fg_gdet (kgeom (sph_cf sv) D1 (0, 0, i)%Z) = rface i * rface i) by (cbn; rewrite sin_PI2, Rabs_R1; ring).
  change (ksolver (sph_cf sv)) with sv. destruct sv.
  - split.
    + unfold llf. rewrite G, F1, F2, U1, U2. field.
    + unfold llf_cmax. rewrite M1, M2, P1, P2, !std_max_R. rewrite (Rmax_right (- (1 / 7))) by lra. rewrite Rmax_left by lra. reflexivity.
  - assert (CL : hll_cl s1 s2 = 0) by (unfold hll_cl; rewrite M1, M2, !std_min_R; rewrite (Rmin_left (1 / 7)) by lra; apply Rmin_right; lra).
    assert (CR : hll_cr s1 s2 = 11 / 13) by (unfold hll_cr; rewrite P1, P2, !std_max_R; rewrite (Rmax_left (11 / 13)) by lra; apply Rmax_left; lra).
    split.
    + unfold hll. rewrite CL, CR, gratio_nz by lra. rewrite G, F1, F2. field.
    + unfold hll_speed. rewrite CL, CR, std_max_R. apply Rmax_right; lra.
Qed.

(** VIOLATION: first-order reconstruction, smooth data (uniform gas moving outward), the exact
    spherical geometry, the step EstimateTimestep computes with the default Courant number 0.8
    (fluid.cpp:63, for every cell signal speed up to the speed of light), either solver, every loop
    order and stale array content: the density of the innermost zone becomes negative.  The
    estimate compares speeds with coordinate widths; the outer face of a zone at r ~ dx / 2 is many
    times larger than the inner one and than the zone's own volume weight. *)
Theorem C46_curved_cfl_refuted : forall sv o1 o2 o3 o4 q0 m0 e0 csig tiny big o,
  let cf := sph_cf sv in
  order_of (flux_box 1 sph_box) o1 -> order_of (flux_box 1 sph_box) o2 -> (forall d x, 0 <= csig d x <= 1) -> 0 < tiny <= / 10 -> 10 <= big -> order_of {| ks := 0; ke := 0; js := 0; je := 0; is_ := 0; ie := 0 |} o ->
  (forall d f, let '(k, j, i) := f in (0 <= i)%Z -> face_ok cf d f) /\
  let dt := EstimateTimestep true 1 csig (snd (CalculateFluxes cf o1 o2 sph_v q0 m0)) (fun _ _ => 1) tiny big (8 / 10) o in
  let c := (0, 0, 0)%Z in let rc := (rface 0 + rface 1) / 2 in
  let D := DetGamma SphericalMinkowski (sph_point rc) * (1 * (5 / 4)) in
  0 < D /\ D + dt * gain 1 (fun _ => 1) (fun d f => fluxes_after cf o1 o2 o3 o4 sph_v q0 m0 e0 (d, CD, f)) c < 0.
Proof.
  intros sv o1 o2 o3 o4 q0 m0 e0 csig tiny big o cf O1 O2 Hcs Ht Hb Ho. split.
  - intros d [[k j] i] Hi. assert (R0 : 0 < rface i) by (unfold rface; apply IZR_le in Hi; lra).
    exists (Lapse SphericalMinkowski (sph_point (rface i))), (ContravariantShift SphericalMinkowski (sph_point (rface i))), (SpacetimeMetric SphericalMinkowski (sph_point (rface i))), (SpacetimeMetricInverse SphericalMinkowski (sph_point (rface i))),
      (Metric SphericalMinkowski (sph_point (rface i))), (MetricInverse SphericalMinkowski (sph_point (rface i))), (DetGamma SphericalMinkowski (sph_point (rface i))), (DetG SphericalMinkowski (sph_point (rface i))).
    split; [|reflexivity]. apply C10_spherical_minkowski; cbn; [lra|rewrite sin_PI2; lra].
  - assert (Hc : in_box sph_box (0, 0, 0)%Z) by (cbn; lia).
    destruct (zone_computed 1 sph_box D1 _ ltac:(lia) eq_refl Hc) as (C1 & C2).
    destruct (C46_face_flux cf sph_box o1 o2 sph_v q0 m0 D1 (0, 0, 0)%Z O1 O2 eq_refl C1) as (A1 & _ & A3).
    destruct (C46_face_flux cf sph_box o1 o2 sph_v q0 m0 D1 (next D1 (0, 0, 0)%Z) O1 O2 eq_refl C2) as (B1 & _ & B3).
    specialize (A1 CD vRho eq_refl). specialize (B1 CD vRho eq_refl). change (next D1 (0, 0, 0)%Z) with (0, 0, 1)%Z in *.
    destruct (sph_flux sv 0) as (X1 & X2). destruct (sph_flux sv 1) as (Y1 & Y2). fold cf in X1, X2, Y1, Y2. rewrite X1 in A1. rewrite Y1 in B1. rewrite X2 in A3. rewrite Y2 in B3.
    unfold EstimateTimestep.
    assert (Eo : o = [(0, 0, 0)%Z]).
    { destruct Ho as (ND & Ho). destruct o as [|c o]; [exfalso; apply (proj2 (Ho (0, 0, 0)%Z)); cbn; lia|].
      assert (Ec : c = (0, 0, 0)%Z) by (pose proof (proj1 (Ho c) (or_introl eq_refl)) as I; destruct c as [[k j] i]; cbn in I; repeat f_equal; lia).
      destruct o as [|c' o]; [rewrite Ec; reflexivity|]. exfalso.
      assert (Ec' : c' = (0, 0, 0)%Z) by (pose proof (proj1 (Ho c') (or_intror (or_introl eq_refl))) as I; destruct c' as [[k j] i]; cbn in I; repeat f_equal; lia).
      inversion ND as [|? ? N _]. apply N. rewrite Ec, Ec'. left. reflexivity. }
    rewrite Eo. cbn [fold_left]. unfold zone_rate. cbn [dirs firstn fold_left]. change (up D1 (0, 0, 0)%Z) with (0, 0, 1)%Z.
    set (m := CalculateFluxes cf o1 o2 sph_v q0 m0) in *. rewrite A3, B3. num_R.
    pose proof (Hcs D1 (0, 0, 0)%Z) as HS. set (a := csig D1 (0, 0, 0)%Z) in *. clearbody a.
    rewrite (Rmax_left (11 / 13) (11 / 13)) by lra.
    assert (HM : 11 / 13 <= Rmax a (11 / 13) <= 1) by (split; [apply Rmax_r|apply Rmax_lub; lra]). set (M := Rmax a (11 / 13)) in *. clearbody M.
    assert (HI : / (11 / 10) <= 1 / (0 + M + tiny)).
    { unfold Rdiv. rewrite Rmult_1_l. apply Rinv_le_contravar; lra. }
    set (T := 1 / (0 + M + tiny)) in *. clearbody T.
    assert (HT : / (11 / 10) <= Rmin big T) by (apply Rmin_glb; lra). set (t := Rmin big T) in *. clearbody t.
    assert (E : forall f, fluxes_after cf o1 o2 o3 o4 sph_v q0 m0 e0 (D1, CD, f) = fst m (D1, CD, f)) by reflexivity.
    unfold gain. cbn [Nat.ltb Nat.leb]. rewrite !E. change (next D1 (0, 0, 0)%Z) with (0, 0, 1)%Z. rewrite A1, B1.
    unfold rface. cbn [DetGamma SphericalMinkowski sph_point row4]. rewrite sin_PI2, Rabs_R1. clear - HT. split; lra.
Qed.
Print Assumptions C46_curved_cfl_refuted.
Example C46_curved_cfl_refuted_nonvacuous : exists o1 o : list Cell, order_of (flux_box 1 sph_box) o1 /\ order_of {| ks := 0; ke := 0; js := 0; je := 0; is_ := 0; ie := 0 |} o /\
  (forall (d : Dir) (x : Cell), 0 <= 11 / 13 <= 1) /\ 0 < / 10 <= / 10.
Proof. exists (box_list (flux_box 1 sph_box)), (box_list {| ks := 0; ke := 0; js := 0; je := 0; is_ := 0; ie := 0 |}). split; [apply order_box_list|]. split; [apply order_box_list|]. split; intros; lra. Qed.
