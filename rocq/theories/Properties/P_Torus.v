(** C49: the Fishbone-Moncrief torus problem generator. *)
From Coq Require Import Reals ZArith Arith List Bool Lia Lra Psatz.
From Coquelicot Require Import Coquelicot.
From Flocq Require Import Core.
From Verif.Model Require Import Num Robust LinearAlgebra Geometry Modified BoyerLindquist Relativity ParFor FluxFix Bondi Torus.
From Verif.Proofs Require Import NumR GeomBase TransformProofs TorusProofs FmksVelocity SourceProofs.
From Verif.Properties Require Import P_Geometry P_Bondi.
From Verif.Spec Require Import Tensor GeomSpec Relativity.
Import ListNotations.
Local Open Scope R_scope.

(** ** circular flow *)
(** u is the four-velocity of a fluid on a circular orbit around the axis: no motion in r and theta, unit norm, future *)
Definition circular (g : mat) (u : vec) : Prop := u 1%nat = 0 /\ u 2%nat = 0 /\ dot4 g u u = -1 /\ 0 < u 0%nat.
(** the force on it, (1/2) d_i g_{mu nu} u^mu u^nu *)
Definition force (g : vec -> mat) (X u : vec) (i : nat) : R :=
  sum4 (fun mu => sum4 (fun nu => partial (fun Y => g Y mu nu) i X * u mu * u nu)) / 2.

Lemma circ_dot a r th x3 u : 0 < r -> u 1%nat = 0 -> u 2%nat = 0 ->
  dot4 (BL_SpacetimeMetric a (row4 0 r th x3)) u u = (- kN a r th + kW a r th * kW a r th * kY a r th) * (u 0%nat * u 0%nat) + 2 * (- (kW a r th * kY a r th)) * u 0%nat * u 3%nat + kY a r th * (u 3%nat * u 3%nat).
Proof.
  intros H U1 U2. destruct (kerr_metric a r th x3 H) as (G0 & G3 & GP & _). rewrite <- G0, <- G3, <- GP.
  unfold dot4, sum4. rewrite U1, U2. rewrite (bl_sym a (row4 0 r th x3) 3%nat 0%nat) by lia. ring.
Qed.
Lemma circ_low a r th x3 u : 0 < r -> u 1%nat = 0 -> u 2%nat = 0 ->
  lower4 (BL_SpacetimeMetric a (row4 0 r th x3)) u 3%nat = kY a r th * (u 3%nat - kW a r th * u 0%nat).
Proof.
  intros H U1 U2. destruct (kerr_metric a r th x3 H) as (G0 & G3 & GP & _).
  unfold lower4, sum4. rewrite U1, U2. rewrite (bl_sym a (row4 0 r th x3) 3%nat 0%nat) by lia. rewrite G3, GP. ring.
Qed.
Lemma g00_neg a r th x3 : 2 < r -> BL_SpacetimeMetric a (row4 0 r th x3) 0%nat 0%nat < 0.
Proof.
  intros H. destruct (kerr_metric a r th x3 ltac:(lra)) as (_ & _ & _ & G & _). rewrite G.
  assert (S : r * 2 < fm_SS a r (cos th)). { unfold fm_SS. assert (0 <= (a * cos th) * (a * cos th)) by nra. nra. }
  assert (2 * r / fm_SS a r (cos th) < 1); [|lra]. apply (Rmult_lt_reg_r (fm_SS a r (cos th))); [nra|]. unfold Rdiv. rewrite Rmult_assoc, Rinv_l; nra.
Qed.
Lemma DD_pos a r : 2 < r -> 0 < fm_DD a r. Proof. intros H. unfold fm_DD. assert (0 <= a * a) by nra. nra. Qed.
(** where d/dt is timelike the future root of the norm is the one the code takes *)
Lemma future_root (g : mat) (u : vec) w : symmetric4 g -> g 0%nat 0%nat < 0 -> 0 <= g 3%nat 3%nat -> u 1%nat = 0 -> u 2%nat = 0 ->
  dot4 g (set_u0 u w) (set_u0 u w) = -1 -> 0 < w -> ucon_norm u g = w.
Proof.
  intros Sy G0 GP U1 U2 N W. symmetry. apply (proj1 (C48_norm g u Sy ltac:(lra))); [exists w; exact N | exact N |].
  unfold dot4, sum4, set_u0 in N. rewrite U1, U2 in N. rewrite (Sy 3%nat 0%nat) in N by lia. unfold lower4, sum4, set_u0. rewrite U1, U2.
  set (x := g 0%nat 0%nat) in *. set (y := g 0%nat 3%nat) in *. set (z := g 3%nat 3%nat) in *. set (u3 := u 3%nat) in *.
  assert (E : (x * w + y * u3) * (x * w + y * u3) = (y * u3) * (y * u3) - x * (1 + z * (u3 * u3))) by nra.
  assert (0 < - x * (1 + z * (u3 * u3))). { assert (0 <= z * (u3 * u3)) by (apply Rmult_le_pos; nra). nra. }
  destruct (Rle_dec (x * w + y * u3) 0); [lra|]. exfalso. assert (x * w < 0) by nra. nra.
Qed.

(** Where the torus is (lnh > 0), outside r = 2: the velocity before the transformation is the only circular one whose
    u^t u_phi is the constant l. *)
Theorem C49_velocity : forall p r th x3, 2 < r -> 0 < sin th -> 0 <= tp_l p ->
  0 < log_enthalpy r th (tp_a p) (tp_rin p) (tp_l p) ->
  let g := BL_SpacetimeMetric (tp_a p) (row4 0 r th x3) in let u := torus_ucon_bl p r th x3 in
  circular g u /\ u 0%nat * lower4 g u 3%nat = tp_l p /\
  forall w, circular g w -> w 0%nat * lower4 g w 3%nat = tp_l p -> eq4 w u.
Proof.
  intros p r th x3 Hr S L H g u. set (a := tp_a p) in *. set (l := tp_l p) in *.
  assert (R0 : 0 < r) by lra. assert (D := DD_pos a r Hr). assert (Np := kN_pos a r th R0 D). assert (Yp := kY_pos a r th R0 ltac:(lra)).
  set (n := kN a r th) in *. set (y := kY a r th) in *. set (w := kW a r th).
  assert (U3 : log_enthalpy_uphi r th a (tp_rin p) l = c_up n y w l).
  { unfold log_enthalpy_uphi. rewrite Rlt_bool_true by exact H. apply fm_up; assumption. }
  assert (U0 : u 0%nat = c_u0 n y l).
  { unfold u, torus_ucon_bl. fold a l. rewrite U3. fold g. cbn [set_u0]. apply future_root; try reflexivity.
    - apply bl_sym.
    - apply g00_neg. exact Hr.
    - unfold g. destruct (kerr_metric a r th x3 R0) as (_ & _ & GP & _). rewrite GP. fold y. lra.
    - unfold g. rewrite circ_dot by (try reflexivity; lra). cbn [set_u0 row4]. fold n y w. apply c_norm; assumption.
    - apply c_u0_pos; assumption. }
  assert (U1 : u 1%nat = 0) by reflexivity. assert (U2 : u 2%nat = 0) by reflexivity.
  assert (U3' : u 3%nat = c_up n y w l) by (unfold u, torus_ucon_bl; fold a l; rewrite U3; reflexivity).
  split; [|split].
  - split; [exact U1|]. split; [exact U2|]. split; [|rewrite U0; now apply c_u0_pos].
    unfold g. rewrite circ_dot by (auto; lra). fold n y w. rewrite U0, U3'. apply c_norm; assumption.
  - unfold g. rewrite circ_low by (auto; lra). fold y w. rewrite U0, U3'. apply c_l; assumption.
  - intros v (V1 & V2 & N & P) Lv. unfold g in N, Lv. rewrite circ_dot in N by (auto; lra). rewrite circ_low in Lv by (auto; lra). fold n y w in N, Lv.
    destruct (c_unique n y w l Np Yp L (v 0%nat) (v 3%nat) P N Lv) as [E0 E3].
    intros mu Hmu. destruct mu as [|[|[|[|mu]]]]; [| | | |lia]; [rewrite U0; exact E0 | rewrite V1, U1; reflexivity | rewrite V2, U2; reflexivity | rewrite U3'; exact E3].
Qed.
Print Assumptions C49_velocity.

(** ** hydrostatic equilibrium *)
(** the torus as a function of the Boyer-Lindquist point *)
Definition lnh_at (p : TorusPars) (Y : vec) : R := log_enthalpy (Y 1%nat) (Y 2%nat) (tp_a p) (tp_rin p) (tp_l p).
Definition rho_at (p : TorusPars) (Y : vec) : R := fst (fm_state (tp_kappa p) (tp_gam p) (rho_rmax p) (exp (lnh_at p Y) - 1)).
Definition u_at (p : TorusPars) (Y : vec) : R := snd (fm_state (tp_kappa p) (tp_gam p) (rho_rmax p) (exp (lnh_at p Y) - 1)).
Definition P_at (p : TorusPars) (Y : vec) : R := (tp_gam p - 1) * u_at p Y.

Lemma bl_path a X i h : BL_SpacetimeMetric a (moved X i h) = BL_SpacetimeMetric a (row4 0 (moved X i h 1%nat) (moved X i h 2%nat) (moved X i h 3%nat)).
Proof. reflexivity. Qed.
Lemma force_dir a X i (u : vec) n' y' w' :
  let N h := kN a (moved X i h 1%nat) (moved X i h 2%nat) in let Y h := kY a (moved X i h 1%nat) (moved X i h 2%nat) in
  let W h := kW a (moved X i h 1%nat) (moved X i h 2%nat) in
  locally (X i) (fun h => 0 < moved X i h 1%nat) -> is_derive N (X i) n' -> is_derive Y (X i) y' -> is_derive W (X i) w' ->
  u 1%nat = 0 -> u 2%nat = 0 ->
  force (BL_SpacetimeMetric a) X u i = ((- n' + 2 * W (X i) * w' * Y (X i) + W (X i) * W (X i) * y') * (u 0%nat * u 0%nat) + 2 * (- (w' * Y (X i)) - W (X i) * y') * (u 0%nat * u 3%nat) + y' * (u 3%nat * u 3%nat)) / 2.
Proof.
  intros N Y W Pos DN DY DW U1 U2.
  assert (P00 : partial (fun Y => BL_SpacetimeMetric a Y 0%nat 0%nat) i X = - n' + 2 * W (X i) * w' * Y (X i) + W (X i) * W (X i) * y').
  { unfold partial. apply is_derive_unique. apply (is_derive_ext_loc (fun h => - N h + W h * W h * Y h)).
    - apply (filter_imp _ _ (fun h Ph => eq_sym (proj1 (kerr_metric a _ (moved X i h 2%nat) (moved X i h 3%nat) Ph))) Pos).
    - auto_derive.
      + assert (A1 : ex_derive (fun x0 : R => N x0) (X i)) by (exists n'; exact DN). assert (A2 : ex_derive (fun x0 : R => Y x0) (X i)) by (exists y'; exact DY). assert (A3 : ex_derive (fun x0 : R => W x0) (X i)) by (exists w'; exact DW). tauto.
      + assert (DN' : Derive (fun x0 : R => N x0) (X i) = n') by (apply is_derive_unique; exact DN).
        assert (DY' : Derive (fun x0 : R => Y x0) (X i) = y') by (apply is_derive_unique; exact DY).
        assert (DW' : Derive (fun x0 : R => W x0) (X i) = w') by (apply is_derive_unique; exact DW). rewrite !DN', !DY', !DW'.
        match goal with |- @eq _ ?a ?b => change (@eq R a b) end. ring. }
  assert (P03 : partial (fun Y => BL_SpacetimeMetric a Y 0%nat 3%nat) i X = - (w' * Y (X i)) - W (X i) * y').
  { unfold partial. apply is_derive_unique. apply (is_derive_ext_loc (fun h => - (W h * Y h))).
    - apply (filter_imp _ _ (fun h Ph => eq_sym (proj1 (proj2 (kerr_metric a _ (moved X i h 2%nat) (moved X i h 3%nat) Ph)))) Pos).
    - auto_derive.
      + assert (A2 : ex_derive (fun x0 : R => Y x0) (X i)) by (exists y'; exact DY). assert (A3 : ex_derive (fun x0 : R => W x0) (X i)) by (exists w'; exact DW). tauto.
      + assert (DY' : Derive (fun x0 : R => Y x0) (X i) = y') by (apply is_derive_unique; exact DY).
        assert (DW' : Derive (fun x0 : R => W x0) (X i) = w') by (apply is_derive_unique; exact DW). rewrite !DY', !DW'.
        match goal with |- @eq _ ?a ?b => change (@eq R a b) end. ring. }
  assert (P30 : partial (fun Y => BL_SpacetimeMetric a Y 3%nat 0%nat) i X = - (w' * Y (X i)) - W (X i) * y') by exact P03.
  assert (P33 : partial (fun Y => BL_SpacetimeMetric a Y 3%nat 3%nat) i X = y').
  { unfold partial. apply is_derive_unique. apply (is_derive_ext_loc Y); [|exact DY].
    apply (filter_imp _ _ (fun h Ph => eq_sym (proj1 (proj2 (proj2 (kerr_metric a _ (moved X i h 2%nat) (moved X i h 3%nat) Ph))))) Pos). }
  unfold force, sum4. rewrite U1, U2, P00, P03, P30, P33. clear. field.
Qed.
Lemma k_diff_r a r th : 0 < r -> ex_derive (fun r => kN a r th) r /\ ex_derive (fun r => kY a r th) r /\ ex_derive (fun r => kW a r th) r.
Proof.
  intros H. assert (S := k_SS a r th H). assert (A := k_AA a r th H). unfold kN, kY, kW, fm_SS, fm_AA, fm_DD in *.
  split; [|split]; auto_derive; repeat split; lra.
Qed.
Lemma k_diff_th a r th : 0 < r -> ex_derive (fun th => kN a r th) th /\ ex_derive (fun th => kY a r th) th /\ ex_derive (fun th => kW a r th) th.
Proof.
  intros H. assert (S := k_SS a r th H). assert (A := k_AA a r th H). unfold kN, kY, kW, fm_SS, fm_AA, fm_DD in *.
  split; [|split]; auto_derive; repeat split; lra.
Qed.
Lemma lnh_balance p X i (u : vec) : (i < 4)%nat -> 2 < X 1%nat -> 0 < sin (X 2%nat) -> 0 <= tp_l p ->
  let n := kN (tp_a p) (X 1%nat) (X 2%nat) in let y := kY (tp_a p) (X 1%nat) (X 2%nat) in let w := kW (tp_a p) (X 1%nat) (X 2%nat) in
  u 0%nat = c_u0 n y (tp_l p) -> u 1%nat = 0 -> u 2%nat = 0 -> u 3%nat = c_up n y w (tp_l p) ->
  is_partial (lnh_at p) i X (force (BL_SpacetimeMetric (tp_a p)) X u i).
Proof.
  intros Hi Hr Hs Hl n y w U0 U1 U2 U3. set (a := tp_a p) in *. set (l := tp_l p) in *.
  set (N := fun h => kN a (moved X i h 1%nat) (moved X i h 2%nat)). set (Y := fun h => kY a (moved X i h 1%nat) (moved X i h 2%nat)).
  set (W := fun h => kW a (moved X i h 1%nat) (moved X i h 2%nat)).
  assert (Pos : locally (X i) (fun h => 0 < moved X i h 1%nat)).
  { destruct i as [|[|i]]; cbn -[locally]; [apply filter_forall; intros; lra | | apply filter_forall; intros; lra].
    apply (locally_interval _ _ 0 p_infty); cbn; [lra | exact I | intros; lra]. }
  assert (Sin : locally (X i) (fun h => sin (moved X i h 2%nat) <> 0)).
  { destruct i as [|[|[|i]]]; cbn -[locally sin]; [apply filter_forall; intros; lra | apply filter_forall; intros; lra | | apply filter_forall; intros; lra].
    apply (continuous_sin (X 2%nat) (fun y => y <> 0)). apply (open_neq 0). lra. }
  assert (Df : ex_derive N (X i) /\ ex_derive Y (X i) /\ ex_derive W (X i)).
  { destruct i as [|[|[|i]]].
    - split; [exact (ex_derive_const (K := R_AbsRing) (V := R_NormedModule) (kN a (X 1%nat) (X 2%nat)) _)|]. split; [exact (ex_derive_const (K := R_AbsRing) (V := R_NormedModule) (kY a (X 1%nat) (X 2%nat)) _) | exact (ex_derive_const (K := R_AbsRing) (V := R_NormedModule) (kW a (X 1%nat) (X 2%nat)) _)].
    - apply (k_diff_r a (X 1%nat) (X 2%nat)). lra.
    - apply (k_diff_th a (X 1%nat) (X 2%nat)). lra.
    - split; [exact (ex_derive_const (K := R_AbsRing) (V := R_NormedModule) (kN a (X 1%nat) (X 2%nat)) _)|]. split; [exact (ex_derive_const (K := R_AbsRing) (V := R_NormedModule) (kY a (X 1%nat) (X 2%nat)) _) | exact (ex_derive_const (K := R_AbsRing) (V := R_NormedModule) (kW a (X 1%nat) (X 2%nat)) _)]. }
  destruct Df as ((n' & DN) & (y' & DY) & (w' & DW)).
  assert (Mv : moved X i (X i) 1%nat = X 1%nat /\ moved X i (X i) 2%nat = X 2%nat).
  { unfold moved. split; [destruct (Nat.eqb_spec 1 i); subst; reflexivity | destruct (Nat.eqb_spec 2 i); subst; reflexivity]. }
  assert (En : N (X i) = n) by (unfold N; rewrite (proj1 Mv), (proj2 Mv); reflexivity).
  assert (Ey : Y (X i) = y) by (unfold Y; rewrite (proj1 Mv), (proj2 Mv); reflexivity).
  assert (Ew : W (X i) = w) by (unfold W; rewrite (proj1 Mv), (proj2 Mv); reflexivity).
  assert (F := force_dir a X i u n' y' w' Pos DN DY DW U1 U2). fold N Y W in F. cbv beta zeta in F.
  change (kW a (moved X i (X i) 1%nat) (moved X i (X i) 2%nat)) with (W (X i)) in F. change (kY a (moved X i (X i) 1%nat) (moved X i (X i) 2%nat)) with (Y (X i)) in F.
  rewrite F. rewrite U0, U3, <- En, <- Ey, <- Ew.
  assert (Np : 0 < N (X i)). { rewrite En. apply kN_pos; [lra | apply DD_pos; lra]. }
  assert (Yp : 0 < Y (X i)). { rewrite Ey. apply kY_pos; lra. }
  assert (B := c_balance N Y W (X i) n' y' w' l Np Yp Hl DN DY DW). cbv zeta in B.
  unfold is_partial. set (k := fm_potential a l (tp_rin p) (sin (PI / 2)) (cos (PI / 2))).
  apply (is_derive_ext_loc (fun h => c_pot l (N h) (Y h) (W h) - k)).
  - apply (filter_imp (fun h => 0 < moved X i h 1%nat /\ sin (moved X i h 2%nat) <> 0)); [|now apply filter_and].
    intros h [P S]. unfold lnh_at, log_enthalpy. fold a l k. rewrite fm_pot by assumption. reflexivity.
  - assert (K : is_derive (fun _ : R => k) (X i) 0) by exact (is_derive_const (K := R_AbsRing) (V := R_NormedModule) k (X i)).
    assert (Q := is_derive_sub _ _ _ _ _ B K). rewrite Rminus_0_r in Q. exact Q.
Qed.

Lemma torus_u_val p r th x3 : 2 < r -> 0 < sin th -> 0 <= tp_l p -> 0 < log_enthalpy r th (tp_a p) (tp_rin p) (tp_l p) ->
  let u := torus_ucon_bl p r th x3 in let n := kN (tp_a p) r th in let y := kY (tp_a p) r th in
  u 0%nat = c_u0 n y (tp_l p) /\ u 3%nat = c_up n y (kW (tp_a p) r th) (tp_l p).
Proof.
  intros Hr S L H u n y. destruct (C49_velocity p r th x3 Hr S L H) as ((U1 & U2 & N & P) & A & _). fold u in U1, U2, N, P, A.
  rewrite circ_dot in N by (auto; lra). rewrite circ_low in A by (auto; lra).
  apply (c_unique n y (kW (tp_a p) r th) (tp_l p)); auto.
  - apply kN_pos; [lra | apply DD_pos; lra].
  - apply kY_pos; lra.
Qed.
(** thermodynamics: density, energy and pressure at enthalpy h = hm1 + 1 > 1 *)
Lemma state_h kappa gam rr hm1 : 1 < gam -> 0 < kappa -> 0 < rr -> 0 < hm1 ->
  let '(rho, u) := fm_state kappa gam rr hm1 in
  0 < rho /\ 0 < u /\ (rho + u + (gam - 1) * u) / rho = 1 + hm1 /\ (gam - 1) * u = kappa * Rpower rr (gam - 1) * Rpower rho gam.
Proof.
  intros G K Rr H. unfold fm_state. set (z := hm1 * (gam - 1) / (kappa * gam)).
  assert (Zp : 0 < z). { unfold z. apply Rdiv_lt_0_compat; apply Rmult_lt_0_compat; lra. }
  set (rho := Rpower z (1 / (gam - 1))). assert (Rp : 0 < rho) by apply exp_pos.
  assert (E : Rpower rho gam = rho * z).
  { unfold rho. rewrite Rpower_mult. replace (1 / (gam - 1) * gam) with (1 / (gam - 1) + 1) by (field; lra). rewrite Rpower_plus, Rpower_1 by exact Zp. reflexivity. }
  assert (U : kappa * Rpower rho gam / (gam - 1) / rr = rho / rr * (hm1 / gam)). { rewrite E. unfold z. field. repeat split; lra. }
  assert (Rr' : 0 < rho / rr) by (apply Rdiv_lt_0_compat; assumption).
  rewrite U. split; [exact Rr'|]. split; [apply Rmult_lt_0_compat; [exact Rr' | apply Rdiv_lt_0_compat; lra]|]. split; [field; repeat split; lra|].
  rewrite <- U. unfold Rdiv at 3. rewrite <- Rpower_mult_distr; [|exact Rp|now apply Rinv_0_lt_compat].
  assert (E2 : Rpower (/ rr) gam = / Rpower rr gam). { rewrite <- (Rpower_Ropp rr gam). unfold Rpower. rewrite ln_Rinv by exact Rr. f_equal. ring. }
  rewrite E2. assert (E3 : Rpower rr gam = Rpower rr (gam - 1) * rr). { rewrite <- (Rpower_1 rr) at 3 by exact Rr. rewrite <- Rpower_plus. f_equal. ring. }
  rewrite E3. assert (0 < Rpower rr (gam - 1)) by apply exp_pos. field. repeat split; lra.
Qed.
Lemma dP_dlnh kappa gam rr x : 1 < gam -> 0 < kappa -> 0 < rr -> 0 < x ->
  is_derive (fun x => (gam - 1) * snd (fm_state kappa gam rr (exp x - 1))) x (fst (fm_state kappa gam rr (exp x - 1)) * exp x).
Proof.
  intros G K Rr X. assert (Ex : 0 < exp x - 1). { assert (Q := exp_ineq1 x ltac:(lra)). lra. }
  assert (Zp : 0 < (exp x - 1) * (gam - 1) / (kappa * gam)). { apply Rdiv_lt_0_compat; apply Rmult_lt_0_compat; lra. }
  cbn [fm_state fst snd]. unfold Rpower at 1. unfold Rpower at 1.
  auto_derive.
  - repeat split; try lra. apply exp_pos.
  - rewrite ln_exp. set (z := (exp x - 1) * (gam - 1) / (kappa * gam)) in *.
    change ((exp x + - (1)) * (gam - 1) * / (kappa * gam)) with z. change ((exp x + - (1)) * (gam + - (1)) * / (kappa * gam)) with z.
    unfold Rpower. set (Ez := exp (1 / (gam - 1) * ln z)). 
    assert (E1 : exp (gam * (1 / (gam - 1) * ln z)) = Ez * z).
    { unfold Ez. replace (gam * (1 / (gam - 1) * ln z)) with (1 / (gam - 1) * ln z + ln z) by (field; lra). rewrite exp_plus, exp_ln by exact Zp. reflexivity. }
    match goal with |- @eq _ ?a ?b => change (@eq R a b) end.
    rewrite E1. assert (Ep : 0 < Ez) by apply exp_pos. clearbody Ez z. field. repeat split; lra.
Qed.
(** Inside the torus, outside r = 2: the gas is an isentropic ideal gas of enthalpy e^{lnh}, lnh has the gradient of
    the force on the circular flow, and the pressure gradient balances that force, d_i P = rho h (1/2) d_i g_{mu nu} u^mu
    u^nu for all four coordinates: the r and theta components of the momentum equation of a stationary axisymmetric
    circular flow (the t and phi components and the continuity equation hold by symmetry). *)
Theorem C49_equilibrium : forall p X, 2 < X 1%nat -> 0 < sin (X 2%nat) -> 0 <= tp_l p -> 1 < tp_gam p -> 0 < tp_kappa p ->
  0 < rho_rmax p -> 0 < lnh_at p X ->
  let u := torus_ucon_bl p (X 1%nat) (X 2%nat) (X 3%nat) in let rho := rho_at p X in let eng := u_at p X in let P := P_at p X in
  0 < rho /\ 0 < eng /\ (rho + eng + P) / rho = exp (lnh_at p X) /\
  P = tp_kappa p * Rpower (rho_rmax p) (tp_gam p - 1) * Rpower rho (tp_gam p) /\
  forall i, (i < 4)%nat ->
    is_partial (lnh_at p) i X (force (BL_SpacetimeMetric (tp_a p)) X u i) /\
    is_partial (P_at p) i X ((rho + eng + P) * force (BL_SpacetimeMetric (tp_a p)) X u i).
Proof.
  intros p X Hr Hs Hl G K Rr H u rho eng P.
  assert (Ex : 0 < exp (lnh_at p X) - 1). { assert (Q := exp_ineq1 (lnh_at p X) ltac:(lra)). lra. }
  assert (St := state_h (tp_kappa p) (tp_gam p) (rho_rmax p) (exp (lnh_at p X) - 1) G K Rr Ex).
  unfold rho, eng, P, P_at, rho_at, u_at. destruct (fm_state (tp_kappa p) (tp_gam p) (rho_rmax p) (exp (lnh_at p X) - 1)) as [rh en] eqn:Es. cbn [fst snd].
  destruct St as (S1 & S2 & S3 & S4). replace (1 + (exp (lnh_at p X) - 1)) with (exp (lnh_at p X)) in S3 by ring.
  split; [exact S1|]. split; [exact S2|]. split; [exact S3|]. split; [exact S4|].
  intros i Hi. destruct (torus_u_val p (X 1%nat) (X 2%nat) (X 3%nat) Hr Hs Hl H) as (U0 & U3). fold u in U0, U3.
  assert (B := lnh_balance p X i u Hi Hr Hs Hl U0 eq_refl eq_refl U3). split; [exact B|].
  assert (Rh : rh + en + (tp_gam p - 1) * en = rh * exp (lnh_at p X)) by (rewrite <- S3; field; lra). rewrite Rh.
  unfold is_partial in *. change (fun h : R => P_at p (moved X i h)) with (fun h : R => (fun x => (tp_gam p - 1) * snd (fm_state (tp_kappa p) (tp_gam p) (rho_rmax p) (exp x - 1))) (lnh_at p (moved X i h))).
  assert (Mv : lnh_at p (moved X i (X i)) = lnh_at p X).
  { unfold lnh_at. rewrite moved_same. reflexivity. }
  assert (D := dP_dlnh (tp_kappa p) (tp_gam p) (rho_rmax p) (lnh_at p X) G K Rr H). rewrite Es in D. cbn [fst] in D. rewrite <- Mv in D at 1.
  assert (C := is_derive_comp (K := R_AbsRing) (V := R_NormedModule) _ (fun h : R => lnh_at p (moved X i h)) (X i) _ _ D B).
  replace (rh * exp (lnh_at p X) * force (BL_SpacetimeMetric (tp_a p)) X u i) with (force (BL_SpacetimeMetric (tp_a p)) X u i * (rh * exp (lnh_at p X))) by ring. exact C.
Qed.
Print Assumptions C49_equilibrium.

(** ** the angular momentum of the pressure maximum *)
Lemma equator a r x3 : 0 < r -> let g := BL_SpacetimeMetric a (row4 0 r (PI / 2) x3) in
  g 0%nat 0%nat = - (1 - 2 / r) /\ g 0%nat 3%nat = - (2 * a / r) /\ g 3%nat 0%nat = - (2 * a / r) /\ g 3%nat 3%nat = r * r + a * a + 2 * a * a / r.
Proof.
  intros H g. destruct (kerr_metric a r (PI / 2) x3 H) as (_ & _ & GP & G0 & G3). fold g in GP, G0, G3.
  unfold kY, fm_AA, fm_DD, fm_SS in *. rewrite cos_PI2, sin_PI2 in *. assert (G3' : g 3%nat 0%nat = g 0%nat 3%nat) by (apply bl_sym; lia). rewrite G3', G0, G3, GP.
  split; [|split; [|split]]; field; repeat split; nra.
Qed.
Lemma force_equator a r x3 u : 0 < r -> u 1%nat = 0 -> u 2%nat = 0 ->
  force (BL_SpacetimeMetric a) (row4 0 r (PI / 2) x3) u 1 = - / (r * r) * ((u 0%nat - a * u 3%nat) * (u 0%nat - a * u 3%nat)) + r * (u 3%nat * u 3%nat).
Proof.
  intros H U1 U2. set (X := row4 0 r (PI / 2) x3).
  assert (Pos : locally r (fun h => 0 < h)) by (apply (locally_interval _ _ 0 p_infty); cbn; [lra | exact I | intros; lra]).
  assert (P00 : partial (fun Y => BL_SpacetimeMetric a Y 0%nat 0%nat) 1 X = - 2 / (r * r)).
  { unfold partial. apply is_derive_unique. apply (is_derive_ext_loc (fun h => - (1 - 2 / h))).
    - apply (filter_imp _ _ (fun h Ph => eq_sym (proj1 (equator a h x3 Ph))) Pos).
    - change (X 1%nat) with r. auto_derive; [lra|]. match goal with |- @eq _ ?a ?b => change (@eq R a b) end. field. lra. }
  assert (P03 : partial (fun Y => BL_SpacetimeMetric a Y 0%nat 3%nat) 1 X = 2 * a / (r * r)).
  { unfold partial. apply is_derive_unique. apply (is_derive_ext_loc (fun h => - (2 * a / h))).
    - apply (filter_imp _ _ (fun h Ph => eq_sym (proj1 (proj2 (equator a h x3 Ph)))) Pos).
    - change (X 1%nat) with r. auto_derive; [lra|]. match goal with |- @eq _ ?a ?b => change (@eq R a b) end. field. lra. }
  assert (P30 : partial (fun Y => BL_SpacetimeMetric a Y 3%nat 0%nat) 1 X = 2 * a / (r * r)) by exact P03.
  assert (P33 : partial (fun Y => BL_SpacetimeMetric a Y 3%nat 3%nat) 1 X = 2 * r - 2 * a * a / (r * r)).
  { unfold partial. apply is_derive_unique. apply (is_derive_ext_loc (fun h => h * h + a * a + 2 * a * a / h)).
    - apply (filter_imp _ _ (fun h Ph => eq_sym (proj2 (proj2 (proj2 (equator a h x3 Ph))))) Pos).
    - change (X 1%nat) with r. auto_derive; [lra|]. match goal with |- @eq _ ?a ?b => change (@eq R a b) end. field. lra. }
  unfold force, sum4. rewrite U1, U2, P00, P03, P30, P33. field. lra.
Qed.
Lemma circ_equator a r x3 u : 0 < r -> u 1%nat = 0 -> u 2%nat = 0 -> let g := BL_SpacetimeMetric a (row4 0 r (PI / 2) x3) in
  dot4 g u u = - (1 - 2 / r) * (u 0%nat * u 0%nat) - 4 * a / r * (u 0%nat * u 3%nat) + (r * r + a * a + 2 * a * a / r) * (u 3%nat * u 3%nat) /\
  lower4 g u 3%nat = - (2 * a / r) * u 0%nat + (r * r + a * a + 2 * a * a / r) * u 3%nat.
Proof.
  intros H U1 U2 g. destruct (equator a r x3 H) as (G0 & G3 & G3' & GP). fold g in G0, G3, G3', GP.
  unfold dot4, lower4, sum4. rewrite U1, U2, G0, G3, G3', GP. split; [field; lra | ring].
Qed.
(** lfish_calc in closed form, s = sqrt r *)
Lemma lfish_closed a s : 1 < s -> a * a <= 1 -> 0 < s ^ 4 - 2 * s ^ 2 + a ^ 2 -> 0 < s ^ 3 - 3 * s + 2 * a ->
  lfish_calc (s ^ 2) a = (s ^ 4 - 2 * a * s + a ^ 2) * (s ^ 3 + a) / (s ^ 3 * (s ^ 3 - 3 * s + 2 * a)).
Proof.
  intros Hs Ha HD HE. assert (S2 : sqrt (s ^ 2) = s) by (replace (s ^ 2) with (s * s) by ring; apply sqrt_square; lra).
  assert (S3 : Rpower (s ^ 2) (3 / 2) = s ^ 3).
  { rewrite <- (Rpower_pow 2 s) by lra. rewrite Rpower_mult. replace (INR 2 * (3 / 2)) with (INR 3) by (cbn; lra). apply Rpower_pow. lra. }
  unfold lfish_calc. rewrite S2, S3.
  set (e := s ^ 3 - 3 * s + 2 * a) in *.
  assert (Ep : 0 < e / s ^ 3) by (apply Rdiv_lt_0_compat; [exact HE | apply pow_lt; lra]).
  replace (1 + 2 * a / s ^ 3 - 3 / s ^ 2) with (e / s ^ 3) by (unfold e; field; lra).
  replace (2 * a * s + (-3 + s ^ 2) * s ^ 2) with (s ^ 2 * s ^ 2 * (e / s ^ 3)) by (unfold e; field; lra).
  assert (P2 : 0 < s ^ 2) by (apply pow_lt; lra).
  rewrite sqrt_mult by nra. rewrite sqrt_square by lra.
  set (d := sqrt (e / s ^ 3)). assert (Dp : 0 < d) by (apply sqrt_lt_R0; exact Ep). assert (D2 : d * d = e / s ^ 3) by (apply sqrt_sqrt; lra).
  transitivity ((s ^ 4 - 2 * a * s + a ^ 2) * ((s ^ 3 + a) * (s ^ 2 * (s ^ 4 - 2 * s ^ 2 + a ^ 2))) / ((d * d) * s ^ 8 * (s ^ 4 - 2 * s ^ 2 + a ^ 2))).
  { replace ((s ^ 3 + a) * (s ^ 2 * (s ^ 4 - 2 * s ^ 2 + a ^ 2))) with (-2 * a * (a ^ 2 - 2 * a * s + (s ^ 2) ^ 2) + (a + (-2 + s ^ 2) * s) * ((s ^ 2) ^ 3 + a ^ 2 * (2 + s ^ 2))) by ring.
    assert (s ^ 4 - 2 * s ^ 2 + a ^ 2 = a ^ 2 + (-2 + s ^ 2) * s ^ 2) as Q by ring. rewrite Q in *. field. repeat split; lra. }
  rewrite D2. assert (e <> 0) by lra. field. repeat split; try lra.
Qed.
(** lfish_calc is u^t u_phi of the free circular orbit in the equatorial plane (unit norm, future, phi increasing, no
    radial force), which exists wherever the formula is defined. *)
Theorem C49_lfish : forall a r x3, a * a <= 1 -> 1 < r -> 0 < r * r - 2 * r + a * a -> 0 < r * r - 3 * r + 2 * a * sqrt r ->
  let X := row4 0 r (PI / 2) x3 in let g := BL_SpacetimeMetric a X in
  let free u := circular g u /\ 0 < u 3%nat /\ force (BL_SpacetimeMetric a) X u 1 = 0 in
  (exists u, free u) /\ (forall u, free u -> u 0%nat * lower4 g u 3%nat = lfish_calc r a) /\ 0 < lfish_calc r a.
Proof.
  intros a r x3 Ha Hr HD HE X g free.
  assert (Es : exists s, 1 < s /\ r = s ^ 2 /\ sqrt r = s).
  { exists (sqrt r). assert (Q : sqrt r * sqrt r = r) by (apply sqrt_sqrt; lra). split; [|split; [cbn; lra | reflexivity]].
    rewrite <- sqrt_1 at 1. apply sqrt_lt_1; lra. }
  destruct Es as (s & S1 & Er & Sq). rewrite Sq in HE.
  assert (E : 0 < s ^ 3 - 3 * s + 2 * a). { apply (Rmult_lt_reg_l s); [lra|]. rewrite Rmult_0_r. rewrite Er in HE. nra. }
  assert (D : 0 < s ^ 4 - 2 * s ^ 2 + a ^ 2) by (rewrite Er in HD; nra).
  assert (S3 : 1 < s ^ 3). { assert (1 < s * s) by nra. assert (1 < s * (s * s)) by nra. nra. }
  assert (A1 : -1 <= a <= 1) by nra.
  assert (Lf := lfish_closed a s S1 Ha D E). rewrite <- Er in Lf.
  set (e := s ^ 3 - 3 * s + 2 * a) in *.
  assert (F0 : 0 < s ^ 3 * e) by (apply Rmult_lt_0_compat; lra).
  assert (Xp : 0 < s ^ 4 - 2 * a * s + a ^ 2).
  { assert (0 < s ^ 4 - s ^ 2). { replace (s ^ 4 - s ^ 2) with (s ^ 2 * (s ^ 2 - 1)) by ring. assert (1 < s ^ 2) by nra. nra. } assert (0 <= (s - a) ^ 2) by apply pow2_ge_0. nra. }
  assert (R0 : 0 < r) by lra.
  assert (Key : forall u, u 1%nat = 0 -> u 2%nat = 0 -> u 0%nat = (s ^ 3 + a) * u 3%nat ->
    dot4 g u u = - (s ^ 3 * e) * (u 3%nat * u 3%nat) /\ lower4 g u 3%nat = (s ^ 4 - 2 * a * s + a ^ 2) * u 3%nat).
  { intros u U1 U2 U0. destruct (circ_equator a r x3 u R0 U1 U2) as (N & L). fold X g in N, L. rewrite N, L, U0, Er. unfold e. split; field; lra. }
  split; [|split].
  - set (d := sqrt (s ^ 3 * e)). assert (Dp : 0 < d) by (apply sqrt_lt_R0; exact F0). assert (D2 : d * d = s ^ 3 * e) by (apply sqrt_sqrt; lra).
    exists (row4 ((s ^ 3 + a) * (1 / d)) 0 0 (1 / d)). assert (Dq : 0 < 1 / d) by (apply Rdiv_lt_0_compat; lra).
    split; [split; [reflexivity|]; split; [reflexivity|]; split|split].
    + rewrite (proj1 (Key (row4 ((s ^ 3 + a) * (1 / d)) 0 0 (1 / d)) eq_refl eq_refl eq_refl)). cbn [row4]. rewrite <- D2. field. lra.
    + cbn [row4]. apply Rmult_lt_0_compat; lra.
    + exact Dq.
    + unfold X. rewrite force_equator by (auto; reflexivity). cbn [row4]. rewrite Er. field. lra.
  - intros u ((U1 & U2 & N & P0) & P3 & F). unfold X in F. rewrite force_equator in F by auto.
    assert (Q : (u 0%nat - a * u 3%nat) * (u 0%nat - a * u 3%nat) = (s ^ 3 * u 3%nat) * (s ^ 3 * u 3%nat)).
    { apply (f_equal (fun z => z * (r * r))) in F. rewrite Rmult_0_l in F. replace ((s ^ 3 * u 3%nat) * (s ^ 3 * u 3%nat)) with (r * (u 3%nat * u 3%nat) * (r * r)) by (rewrite Er; ring).
      apply Rminus_diag_uniq. rewrite <- Ropp_0. rewrite <- F. field. lra. }
    assert (U0 : u 0%nat = (s ^ 3 + a) * u 3%nat).
    { assert (B : 0 < s ^ 3 * u 3%nat) by (apply Rmult_lt_0_compat; lra). assert (B' : a * u 3%nat < s ^ 3 * u 3%nat) by nra.
      assert (C : (u 0%nat - a * u 3%nat - s ^ 3 * u 3%nat) * (u 0%nat - a * u 3%nat + s ^ 3 * u 3%nat) = 0) by lra.
      apply Rmult_integral in C. destruct C as [C|C]; lra. }
    destruct (Key u U1 U2 U0) as (N' & L). rewrite L, U0, Lf. rewrite N' in N.
    assert (V : u 3%nat * u 3%nat = / (s ^ 3 * e)). { apply (Rmult_eq_reg_l (s ^ 3 * e)); [|lra]. rewrite Rinv_r by lra. lra. }
    replace ((s ^ 3 + a) * u 3%nat * ((s ^ 4 - 2 * a * s + a ^ 2) * u 3%nat)) with ((s ^ 4 - 2 * a * s + a ^ 2) * (s ^ 3 + a) * (u 3%nat * u 3%nat)) by ring. rewrite V. reflexivity.
  - rewrite Lf. apply Rdiv_lt_0_compat; [apply Rmult_lt_0_compat; lra | exact F0].
Qed.
Print Assumptions C49_lfish.

Lemma k_th0 a r : 0 < r -> is_derive (fun th => kN a r th) (PI / 2) 0 /\ is_derive (fun th => kY a r th) (PI / 2) 0 /\ is_derive (fun th => kW a r th) (PI / 2) 0.
Proof.
  intros H. assert (S := k_SS a r (PI / 2) H). assert (A := k_AA a r (PI / 2) H). unfold kN, kY, kW, fm_SS, fm_AA, fm_DD in *.
  split; [|split]; (auto_derive; [repeat split; lra | rewrite !cos_PI2, !sin_PI2 in *; match goal with |- @eq _ ?a ?b => change (@eq R a b) end; field; repeat split; nra]).
Qed.
Lemma force_ext g X u w i : eq4 u w -> force g X u i = force g X w i.
Proof. intros E. unfold force, sum4. rewrite !E by lia. reflexivity. Qed.
Lemma force_ignorable a X u i : (i = 0 \/ i = 3)%nat -> force (BL_SpacetimeMetric a) X u i = 0.
Proof.
  intros Hi. assert (Z : forall mu nu, partial (fun Y => BL_SpacetimeMetric a Y mu nu) i X = 0).
  { intros mu nu. unfold partial. destruct Hi as [-> | ->]; exact (Derive_const (BL_SpacetimeMetric a X mu nu) _). }
  unfold force, sum4. rewrite !Z. field.
Qed.
(** With l = lfish_calc(rmax), at rmax in the equatorial plane: the fluid of the torus moves on the free circular
    orbit, and lnh (and with it every function of lnh: density, energy and pressure) is stationary in r and theta; the
    normalisation gives density 1 there. *)
Theorem C49_maximum : forall p x3, let a := tp_a p in let r := tp_rmax p in
  a * a <= 1 -> 2 < r -> 0 < r * r - 3 * r + 2 * a * sqrt r -> 1 < tp_gam p -> 0 < tp_kappa p ->
  let X := row4 0 r (PI / 2) x3 in 0 < lnh_at p X ->
  let u := torus_ucon_bl p r (PI / 2) x3 in
  0 < tp_l p /\ 0 < rho_rmax p /\ rho_at p X = 1 /\
  (forall w, circular (BL_SpacetimeMetric a X) w -> 0 < w 3%nat -> force (BL_SpacetimeMetric a) X w 1 = 0 -> eq4 w u) /\
  (forall i, (i < 4)%nat -> is_partial (lnh_at p) i X 0 /\ is_partial (P_at p) i X 0).
Proof.
  intros p x3 a r Ha Hr HE G K X H u.
  assert (HD : 0 < r * r - 2 * r + a * a) by (assert (0 <= a * a) by nra; nra).
  destruct (C49_lfish a r x3 Ha ltac:(lra) HD HE) as ((w0 & C0 & P0 & F0) & Un & Lp). fold X in C0, F0, Un.
  change (lfish_calc r a) with (tp_l p) in Un, Lp.
  assert (Sn : 0 < sin (PI / 2)) by (rewrite sin_PI2; lra).
  destruct (C49_velocity p r (PI / 2) x3 Hr Sn ltac:(lra) H) as (Cu & Lu & Uq). fold a X u in Cu, Lu, Uq.
  assert (All : forall w, circular (BL_SpacetimeMetric a X) w -> 0 < w 3%nat -> force (BL_SpacetimeMetric a) X w 1 = 0 -> eq4 w u).
  { intros w Cw Pw Fw. apply Uq; [exact Cw|]. apply Un. split; [exact Cw|]. split; [exact Pw | exact Fw]. }
  assert (W0 := All w0 C0 P0 F0).
  assert (Hh : hm1_rmax p = exp (lnh_at p X) - 1). { unfold hm1_rmax, lnh_at, X. cbn [row4]. replace (/ 2 * PI) with (PI / 2) by field. reflexivity. }
  assert (Rp : 0 < rho_rmax p). { unfold rho_rmax, fm_state. cbn [fst]. apply Rdiv_lt_0_compat; [apply exp_pos | lra]. }
  split; [exact Lp|]. split; [exact Rp|]. split; [|split; [exact All|]].
  - unfold rho_at. rewrite <- Hh. unfold rho_rmax, fm_state in Rp |- *. cbn [fst] in *. field. unfold Rdiv in Rp. rewrite Rinv_1, Rmult_1_r in Rp. lra.
  - intros i Hi. destruct (C49_equilibrium p X Hr Sn ltac:(lra) G K Rp H) as (_ & _ & _ & _ & Eq). destruct (Eq i Hi) as [E1 E2].
    change (torus_ucon_bl p (X 1%nat) (X 2%nat) (X 3%nat)) with u in E1, E2. fold a in E1, E2.
    assert (F : force (BL_SpacetimeMetric a) X u i = 0).
    { destruct i as [|[|[|[|i]]]]; [| | | |lia].
      - apply force_ignorable. now left.
      - rewrite <- (force_ext _ _ _ _ 1 W0). exact F0.
      - assert (Pos : locally (X 2%nat) (fun h => 0 < moved X 2 h 1%nat)) by (apply filter_forall; intros h; cbn; lra).
        destruct (k_th0 a r ltac:(lra)) as (D1 & D2 & D3).
        assert (Q := force_dir a X 2 u 0 0 0 Pos D1 D2 D3 eq_refl eq_refl). cbv zeta in Q. rewrite Q. field.
      - apply force_ignorable. now right. }
    rewrite F in E1, E2. rewrite Rmult_0_r in E2. split; [exact E1 | exact E2].
Qed.
Print Assumptions C49_maximum.

(** ** what is written into the cells *)
Lemma fold_bounds (n : R) (f : nat * nat -> R) lo hi l : 0 < n -> (forall ij, In ij l -> lo <= f ij <= hi) ->
  forall s, s + INR (length l) * lo / n <= fold_left (fun s ij => s + f ij / n) l s <= s + INR (length l) * hi / n.
Proof.
  intros N H. induction l as [|ij l IH]; intros s.
  - cbn. unfold Rdiv. lra.
  - cbn [fold_left]. cbn [length]. rewrite S_INR. assert (Hh := H ij (or_introl eq_refl)).
    assert (J := IH (fun x Hx => H x (or_intror Hx)) (s + f ij / n)). assert (I : 0 < / n) by now apply Rinv_0_lt_compat.
    assert (lo / n <= f ij / n <= hi / n) by (unfold Rdiv; split; apply Rmult_le_compat_r; lra).
    unfold Rdiv in *. split; nra.
Qed.
Lemma accumulate_bounds nsub f lo hi : (0 < nsub)%nat -> (forall i j, (i < nsub)%nat -> (j < nsub)%nat -> lo <= f i j <= hi) -> lo <= accumulate nsub f <= hi.
Proof.
  intros N H. assert (P : 0 < INR (nsub * nsub)) by (apply lt_0_INR; nia).
  assert (B := fold_bounds (INR (nsub * nsub)) (fun ij => f (fst ij) (snd ij)) lo hi (list_prod (seq 0 nsub) (seq 0 nsub)) P).
  unfold accumulate. rewrite prod_length, seq_length in B.
  assert (H' : forall ij, In ij (list_prod (seq 0 nsub) (seq 0 nsub)) -> lo <= f (fst ij) (snd ij) <= hi).
  { intros [i j] I. apply in_prod_iff in I. destruct I as [I J]. apply in_seq in I. apply in_seq in J. apply H; cbn; lia. }
  specialize (B H' 0). replace (0 + INR (nsub * nsub) * lo / INR (nsub * nsub)) with lo in B by (field; lra). replace (0 + INR (nsub * nsub) * hi / INR (nsub * nsub)) with hi in B by (field; lra). exact B.
Qed.
Lemma accumulate_1 f : accumulate 1 f = f 0%nat 0%nat.
Proof. unfold accumulate. cbn. field. Qed.
(** Whatever the samples: the cell ends at or above both floors, with P = (Gamma - 1) u and gamma_1 = Gamma; density
    and velocity are averages of the samples (zero outside the torus), so with no sample in the torus the gas is the
    floor gas at rest. *)
Theorem C49_cell_floor : forall p m rhoflr epsflr rand xf1 xf2 x3 w1 w2, (0 < tp_nsub p)%nat -> 1 < tp_gam p -> 0 < tp_Cv p ->
  0 < rhoflr -> 0 < epsflr ->
  let c := torus_cell p m rhoflr epsflr rand xf1 xf2 x3 w1 w2 in
  let sample i j := torus_sample p m (sample_point (tp_nsub p) xf1 xf2 x3 w1 w2 i j) in
  rhoflr <= tt_rho c /\ tt_rho c * epsflr <= tt_u c /\ tt_P c = (tp_gam p - 1) * tt_u c /\ tt_u c = tt_rho c * tp_Cv p * tt_T c /\ tt_gam1 c = tp_gam p /\
  (forall lo hi, (forall i j, (i < tp_nsub p)%nat -> (j < tp_nsub p)%nat -> lo <= opt ts_rho (sample i j) <= hi) ->
     lo <= tt_rho c <= Rmax rhoflr hi) /\
  (forall d lo hi, (forall i j, (i < tp_nsub p)%nat -> (j < tp_nsub p)%nat -> lo <= opt (fun s => ts_v s d) (sample i j) <= hi) -> lo <= tt_v c d <= hi) /\
  ((forall i j, (i < tp_nsub p)%nat -> (j < tp_nsub p)%nat -> sample i j = None) ->
     tt_rho c = rhoflr /\ tt_u c = rhoflr * epsflr /\ forall d, tt_v c d = 0).
Proof.
  intros p m rf ef rand xf1 xf2 x3 w1 w2 Hn G Cv Rf Ef c sample.
  set (rho0 := accumulate (tp_nsub p) (fun i j => opt ts_rho (sample i j))).
  assert (Er : tt_rho c = if Rlt_bool rho0 rf then rf else rho0) by reflexivity.
  set (u0 := accumulate (tp_nsub p) (fun i j => opt ts_u (sample i j)) * (1 + tp_jitter p * (rand - / 2))).
  assert (Eu : tt_u c = if Rlt_bool (u0 / tt_rho c) ef then tt_rho c * ef else u0) by reflexivity.
  assert (R1 : rf <= tt_rho c) by (rewrite Er; destruct (Rlt_bool_spec rho0 rf); lra).
  assert (U1 : tt_rho c * ef <= tt_u c).
  { rewrite Eu. destruct (Rlt_bool_spec (u0 / tt_rho c) ef) as [L|L]; [lra|]. apply (Rmult_le_compat_l (tt_rho c)) in L; [|lra]. unfold Rdiv in L. replace (tt_rho c * (u0 * / tt_rho c)) with u0 in L by (field; lra). exact L. }
  assert (Ep : tt_P c = (tp_gam p - 1) * tt_rho c * tp_Cv p * (tt_u c / tt_rho c / tp_Cv p)) by reflexivity.
  assert (Et : tt_T c = tt_u c / tt_rho c / tp_Cv p) by reflexivity.
  assert (Eg : tt_gam1 c = tp_gam p * (tp_gam p - 1) * tt_rho c * tp_Cv p * tt_T c / tt_P c) by reflexivity.
  assert (Up : 0 < tt_u c) by (assert (0 < tt_rho c * ef) by (apply Rmult_lt_0_compat; lra); lra).
  assert (Bd : forall lo hi, (forall i j, (i < tp_nsub p)%nat -> (j < tp_nsub p)%nat -> lo <= opt ts_rho (sample i j) <= hi) -> lo <= tt_rho c <= Rmax rf hi).
  { intros lo hi H. assert (B := accumulate_bounds (tp_nsub p) _ lo hi Hn H). fold rho0 in B. rewrite Er. destruct (Rlt_bool_spec rho0 rf); assert (Q1 := Rmax_l rf hi); assert (Q2 := Rmax_r rf hi); lra. }
  assert (Bv : forall d lo hi, (forall i j, (i < tp_nsub p)%nat -> (j < tp_nsub p)%nat -> lo <= opt (fun s => ts_v s d) (sample i j) <= hi) -> lo <= tt_v c d <= hi).
  { intros d lo hi H. exact (accumulate_bounds (tp_nsub p) _ lo hi Hn H). }
  split; [exact R1|]. split; [exact U1|]. split; [rewrite Ep; field; lra|]. split; [rewrite Et; field; lra|].
  split. { rewrite Eg, Ep, Et. field. repeat split; lra. }
  split; [exact Bd|]. split; [exact Bv|].
  intros None_. assert (Z : forall f i j, (i < tp_nsub p)%nat -> (j < tp_nsub p)%nat -> 0 <= opt f (sample i j) <= 0).
  { intros f i j Hi Hj. rewrite None_ by assumption. cbn. lra. }
  assert (Rz : rho0 = 0) by (assert (B := accumulate_bounds (tp_nsub p) _ 0 0 Hn (Z ts_rho)); fold rho0 in B; lra).
  assert (Uz : u0 = 0). { unfold u0. assert (B := accumulate_bounds (tp_nsub p) _ 0 0 Hn (Z ts_u)). assert (E : accumulate (tp_nsub p) (fun i j => opt ts_u (sample i j)) = 0) by lra. rewrite E. ring. }
  assert (Rr : tt_rho c = rf) by (rewrite Er, Rz, Rlt_bool_true; lra).
  split; [exact Rr|]. split.
  - rewrite Eu, Uz, Rr. rewrite Rlt_bool_true; [reflexivity|]. unfold Rdiv. rewrite Rmult_0_l. exact Ef.
  - intros d. assert (B := Bv d 0 0 (Z (fun s => ts_v s d))). lra.
Qed.
Print Assumptions C49_cell_floor.

(** One sample per cell, at the centre X, in the torus and outside r = 2: above the floors the cell holds the torus
    solution at X (the energy times the random factor), and the four-velocity the code computes from the stored velocity
    is the circular one, transformed to the coordinates of the grid. *)
Theorem C49_cell : forall p m rhoflr epsflr rand xf1 xf2 x3 w1 w2, tp_nsub p = 1%nat -> mgr_valid m ->
  let X := row4 0 (xf1 + w1 / 2) (xf2 + w2 / 2) x3 in
  mgr_x0 m <= X.[1] -> 0 <= X.[2] <= 1 ->
  let r := mgr_r m X.[1] in let th := mgr_th m X.[1] X.[2] in let Xbl := row4 0 r th x3 in
  2 < r -> tp_rin p < r -> 0 < sin th -> 0 <= tp_l p -> 0 < lnh_at p Xbl ->
  let c := torus_cell p m rhoflr epsflr rand xf1 xf2 x3 w1 w2 in
  let jit := 1 + tp_jitter p * (rand - / 2) in
  (rhoflr <= rho_at p Xbl -> tt_rho c = rho_at p Xbl /\ (epsflr <= u_at p Xbl * jit / rho_at p Xbl -> tt_u c = u_at p Xbl * jit)) /\
  let U := GetFourVelocity (tt_v c) (Metric (FMKS (tp_a p) m) X) (Lapse (FMKS (tp_a p) m) X) (ContravariantShift (FMKS (tp_a p) m) X) in
  eq4 U (bl_to_fmks m X.[1] X.[2] X.[3] (tp_a p) (torus_ucon_bl p r th x3)) /\
  dot4 (SpacetimeMetric (FMKS (tp_a p) m) X) U U = -1.
Proof.
  intros p m rf ef rand xf1 xf2 x3 w1 w2 Hn V X H1 H2 r th Xbl Hr Hin Hs Hl H c jit.
  set (a := tp_a p) in *.
  assert (Xe : sample_point (tp_nsub p) xf1 xf2 x3 w1 w2 0 0 = X).
  { rewrite Hn. unfold sample_point, X. cbn [INR]. f_equal; field. }
  assert (Ln : torus_lnh p r th = lnh_at p Xbl) by (unfold torus_lnh; rewrite Rlt_bool_true by exact Hin; reflexivity).
  assert (Ac : forall f : TorusSample -> R, accumulate (tp_nsub p) (fun i j => opt f (torus_sample p m (sample_point (tp_nsub p) xf1 xf2 x3 w1 w2 i j))) = opt f (torus_sample p m X)).
  { intros f. rewrite Hn at 1. rewrite accumulate_1, Xe. reflexivity. }
  set (ub := torus_ucon_bl p r th x3) in *. set (uf := bl_to_fmks m X.[1] X.[2] X.[3] a ub).
  set (g := SpacetimeMetric (FMKS a m) X). set (al := Lapse (FMKS a m) X). set (be := ContravariantShift (FMKS a m) X).
  assert (Sm : torus_sample p m X = Some {| ts_rho := rho_at p Xbl; ts_u := u_at p Xbl;
     ts_v := fun d => al * ucon_norm uf g * (uf (d + 1)%nat / (al * ucon_norm uf g) + be d / al) |}).
  { unfold torus_sample. fold r th. rewrite Ln, Rlt_bool_true by exact H. unfold rho_at, u_at.
    destruct (fm_state (tp_kappa p) (tp_gam p) (rho_rmax p) (exp (lnh_at p Xbl) - 1)) as [rh en]. reflexivity. }
  split.
  - intros Rf. assert (Er : tt_rho c = rho_at p Xbl).
    { unfold c, torus_cell. cbn [tt_rho]. rewrite Ac, Sm. cbn [opt ts_rho]. rewrite Rlt_bool_false by exact Rf. reflexivity. }
    split; [exact Er|]. intros Ef.
    assert (Eu : tt_u c = if Rlt_bool (opt ts_u (torus_sample p m X) * jit / tt_rho c) ef then tt_rho c * ef else opt ts_u (torus_sample p m X) * jit).
    { unfold c, torus_cell. cbn [tt_rho tt_u]. rewrite !Ac. reflexivity. }
    rewrite Eu, Er, Sm. cbn [opt ts_u]. rewrite Rlt_bool_false by exact Ef. reflexivity.
  - intros U.
    destruct (C49_velocity p r th x3 Hr Hs Hl H) as ((U1 & U2 & N & P) & _ & _). fold a ub in U1, U2, N, P.
    assert (D := DD_pos a r Hr).
    set (us := row4 0 0 0 (log_enthalpy_uphi r th a (tp_rin p) (tp_l p))). set (gb := BL_SpacetimeMetric a (row4 0 r th x3)) in *.
    assert (Eub : ub = set_u0 us (ucon_norm us gb)) by reflexivity.
    destruct (C48_transform a m X us V H1 H2) as (Nf & _ & Sf & Vf).
    { fold r. unfold fm_DD in D. lra. }
    { fold r th. change (gb 0%nat 0%nat <> 0). assert (Q := g00_neg a r th x3 Hr). fold gb in Q. lra. }
    { exists (ucon_norm us gb). exact N. }
    change (dot4 g uf uf = -1) in Nf. change (eq4 (set_u0 uf (ucon_norm uf g)) uf) in Sf.
    change (0 < uf 0%nat -> eq4 (GetFourVelocity (fun d : nat => uf (d + 1)%nat + al * uf 0%nat * be d / al) (Metric (FMKS a m) X) al be) uf) in Vf.
    assert (Uf0 : uf 0%nat = ub 0%nat).
    { assert (Ks := fmks_ks a m X V H1 ub). rewrite <- (Rplus_0_r (uf 0%nat)). assert (Q := Ks 0%nat ltac:(lia)). unfold apply4, S2ST, sum4 in Q. cbn [Nat.eqb orb Nat.sub] in Q. fold uf in Q.
      transitivity (bl_to_ks a (mgr_r m X.[1]) ub 0%nat); [rewrite <- Q; ring|]. fold r. unfold bl_to_ks. cbv beta. unfold sum4. rewrite U1, U2. change (ub 2%nat) with 0. unfold bl_to_ks_trans. cbn -[ub]. ring. }
    assert (Pf : 0 < uf 0%nat) by (rewrite Uf0; exact P).
    assert (En : ucon_norm uf g = uf 0%nat) by (apply (Sf 0%nat); lia).
    assert (Ap : 0 < al) by (apply (fmks_three_plus_one a m X V H1 H2)).
    assert (UE : eq4 U uf).
    { apply eq4_trans with (2 := Vf Pf). unfold U. apply velocity_ext. intros d Hd. unfold c, torus_cell. cbn [tt_v]. rewrite Ac, Sm. cbn [opt ts_v]. rewrite En. field. split; lra. }
    split; [exact UE|]. rewrite (dot4_ext g g U uf) by (auto; reflexivity). exact Nf.
Qed.
Print Assumptions C49_cell.

(** the torus begins at rin in the equatorial plane; nothing is added where r <= rin or lnh <= 0 *)
Theorem C49_edge : forall p m X x3, lnh_at p (row4 0 (tp_rin p) (PI / 2) x3) = 0 /\
  (let r := mgr_r m X.[1] in let th := mgr_th m X.[1] X.[2] in
   torus_sample p m X <> None <-> tp_rin p < r /\ 0 < log_enthalpy r th (tp_a p) (tp_rin p) (tp_l p)).
Proof.
  intros p m X x3. split; [unfold lnh_at, log_enthalpy; cbn [row4]; ring|]. intros r th.
  unfold torus_sample. fold r th. unfold torus_lnh. destruct (Rlt_bool_spec (tp_rin p) r) as [A|A].
  - destruct (Rlt_bool_spec 0 (log_enthalpy r th (tp_a p) (tp_rin p) (tp_l p))) as [B|B].
    + destruct (fm_state _ _ _ _). split; [intros _; split; assumption | intros _; discriminate].
    + split; [intros K; contradiction K; reflexivity | lra].
  - rewrite Rlt_bool_false by lra. split; [intros K; contradiction K; reflexivity | lra].
Qed.
Print Assumptions C49_edge.

(** ** magnetic field *)
(** The stored field has zero corner divergence (C38), in two and three dimensions, whatever the density and the
    volume element, also after the normalisation by any factor; it is the curl of the azimuthal potential that is, at every corner, the
    excess over 0.2 of the mean density of the four zones around the corner; and there is no field in a zone around
    which the density does not exceed 0.2. *)
Theorem C49_field : forall rho gamdet dx1 dx2 dx3 fac, 0 < dx1 -> 0 < dx2 -> 0 < dx3 -> (forall j i, 0 < gamdet j i) ->
  let B n j i := fm_B (fm_A rho) dx1 dx2 gamdet n j i * fac in
  let b : BField R := fun n c => let '(k, j, i) := c in gamdet j i * B n j i in
  let dx := fun d (_ : Cell) => match d with D1 => dx1 | D2 => dx2 | D3 => dx3 end in
  (forall ndim c, (ndim = 2 \/ ndim = 3)%nat -> divB ndim dx b c = 0) /\
  (let A j i := Rmax 0 ((rho j i + rho j (i - 1)%Z + rho (j - 1)%Z i + rho (j - 1)%Z (i - 1)%Z) / 4 - 1 / 5) in
   forall j i,
     gamdet j i * B 0%nat j i = fac * ((A (j + 1)%Z i + A (j + 1)%Z (i + 1)%Z) / 2 - (A j i + A j (i + 1)%Z) / 2) / dx2 /\
     gamdet j i * B 1%nat j i = - fac * ((A j (i + 1)%Z + A (j + 1)%Z (i + 1)%Z) / 2 - (A j i + A (j + 1)%Z i) / 2) / dx1 /\
     B 2%nat j i = 0) /\
  (forall j i, (forall j' i', (j - 1 <= j' <= j + 1)%Z -> (i - 1 <= i' <= i + 1)%Z -> rho j' i' <= 1 / 5) -> forall n, B n j i = 0).
Proof.
  intros rho gd dx1 dx2 dx3 fac H1 H2 H3 G B b dx. split; [|split].
  - intros ndim [[k j] i] Hnd.
    assert (Bn : forall n k j i, b n (k, j, i) = match n with
       | O => - (fm_A rho j i - fm_A rho (j + 1)%Z i + fm_A rho j (i + 1)%Z - fm_A rho (j + 1)%Z (i + 1)%Z) / (2 * dx2) * fac
       | S O => (fm_A rho j i + fm_A rho (j + 1)%Z i - fm_A rho j (i + 1)%Z - fm_A rho (j + 1)%Z (i + 1)%Z) / (2 * dx1) * fac
       | _ => 0 end).
    { intros n k' j' i'. assert (Q := G j' i'). unfold b, B, fm_B. destruct n as [|[|n]]; [field; lra | field; lra | ring]. }
    clearbody b. set (A := fm_A rho) in *. clearbody A.
    destruct Hnd as [-> | ->]; unfold divB; cbn [Nat.eqb]; rewrite !Bn; rewrite ?Z.sub_add; unfold half_, quarter, dx; num_R; field; lra.
  - intros A. assert (EA : forall j i, fm_A rho j i = A j i).
    { intros j i. unfold fm_A, A, Rmax. cbv zeta. destruct (Rle_dec 0 _) as [Q|Q].
      - destruct (Rlt_bool_spec 0 (/ 4 * (rho j i + rho j (i - 1)%Z + rho (j - 1)%Z i + rho (j - 1)%Z (i - 1)%Z) - 2 / 10)); lra.
      - rewrite Rlt_bool_false; lra. }
    intros j i. assert (Q := G j i). unfold B, fm_B. rewrite !EA. split; [field; lra|]. split; [field; lra|ring].
  - intros j i H n. assert (Z : forall j' i', (j <= j' <= j + 1)%Z -> (i <= i' <= i + 1)%Z -> fm_A rho j' i' = 0).
    { intros j' i' Hj Hi. unfold fm_A. rewrite Rlt_bool_false; [reflexivity|].
      assert (Q1 := H j' i' ltac:(lia) ltac:(lia)). assert (Q2 := H j' (i' - 1)%Z ltac:(lia) ltac:(lia)).
      assert (Q3 := H (j' - 1)%Z i' ltac:(lia) ltac:(lia)). assert (Q4 := H (j' - 1)%Z (i' - 1)%Z ltac:(lia) ltac:(lia)). lra. }
    assert (Q := G j i). unfold B, fm_B. destruct n as [|[|n]]; [rewrite !Z by lia; field; lra | rewrite !Z by lia; field; lra | ring].
Qed.
Print Assumptions C49_field.

(** ** a concrete torus: no spin, rin = 8, rmax = 12, Gamma = 4/3 *)
Definition tp0 : TorusPars := {| tp_a := 0; tp_rin := 8; tp_rmax := 12; tp_kappa := 1; tp_gam := 4 / 3; tp_Cv := 1; tp_jitter := 1 / 10; tp_nsub := 1 |}.
Lemma tp0_l2 : 0 < tp_l tp0 /\ tp_l tp0 * tp_l tp0 = 64 / 3.
Proof.
  assert (Q : 0 < sqrt 12) by (apply sqrt_lt_R0; lra). assert (Q2 : sqrt 12 * sqrt 12 = 12) by (apply sqrt_sqrt; lra).
  assert (S1 : 1 < sqrt 12) by nra. set (s := sqrt 12) in *.
  assert (E : tp_l tp0 = 16 / s).
  { unfold tp_l. cbn [tp_rmax tp_a tp0]. replace 12 with (s ^ 2) by (rewrite <- Q2; ring). rewrite lfish_closed.
    - transitivity (s ^ 4 / (s * (s ^ 2 - 3))); [field; split; nra|]. replace (s ^ 4) with (12 * 12) by (rewrite <- Q2; ring). replace (s ^ 2) with 12 by (rewrite <- Q2; ring). field. lra.
    - exact S1.
    - lra.
    - replace (s ^ 4) with (12 * 12) by (rewrite <- Q2; ring). replace (s ^ 2) with 12 by (rewrite <- Q2; ring). lra.
    - replace (s ^ 3 - 3 * s + 2 * 0) with (s * (s * s - 3)) by ring. rewrite Q2. lra. }
  rewrite E. split; [apply Rdiv_lt_0_compat; lra|]. replace (16 / s * (16 / s)) with (256 / (s * s)) by (field; lra). rewrite Q2. lra.
Qed.
Lemma tp0_pot r c : 2 < r -> sqrt (1 + 4 * (64 / 3) * (r * r - 2 * r) / (r ^ 4)) = c ->
  fm_potential 0 (tp_l tp0) r 1 0 = / 2 * ln ((1 + c) / (1 - 2 / r)) - / 2 * c.
Proof.
  intros H <-. unfold fm_potential, fm_SS, fm_AA, fm_DD. destruct tp0_l2 as [_ L2].
  replace (4 * (tp_l tp0 * tp_l tp0 * (r * r + 0 * 0 * 0 * 0) * (r * r + 0 * 0 * 0 * 0)) * (r * r - 2 * r + 0 * 0) /
    (((r * r + 0 * 0) * (r * r + 0 * 0) - (r * r - 2 * r + 0 * 0) * 0 * 0 * 1 * 1) * ((r * r + 0 * 0) * (r * r + 0 * 0) - (r * r - 2 * r + 0 * 0) * 0 * 0 * 1 * 1) * 1 * 1))
    with (4 * (64 / 3) * (r * r - 2 * r) / r ^ 4) by (rewrite L2; field; lra).
  replace ((r * r + 0 * 0 * 0 * 0) * (r * r - 2 * r + 0 * 0) / ((r * r + 0 * 0) * (r * r + 0 * 0) - (r * r - 2 * r + 0 * 0) * 0 * 0 * 1 * 1)) with (1 - 2 / r) by (field; lra).
  match goal with |- ?A - ?B - 2 * 0 * r * ?l / ?D = _ => replace (2 * 0 * r * l / D) with 0 by (field; nra) end. rewrite Rminus_0_r. reflexivity.
Qed.
Lemma tp0_lnh x3 : 0 < lnh_at tp0 (row4 0 12 (PI / 2) x3).
Proof.
  unfold lnh_at, log_enthalpy. cbn [row4 tp_a tp_rin tp0]. rewrite sin_PI2, cos_PI2.
  rewrite (tp0_pot 12 (11 / 9)); [|lra | apply sqrt_lem_1; lra].
  rewrite (tp0_pot 8 (sqrt 2)); [|lra | f_equal; field].
  assert (Q2 : sqrt 2 * sqrt 2 = 2) by (apply sqrt_sqrt; lra). assert (Q0 : 0 <= sqrt 2) by apply sqrt_pos. set (s := sqrt 2) in *.
  assert (S1 : 141421 / 100000 < s) by nra. assert (S2 : s < 141422 / 100000) by nra.
  replace ((1 + 11 / 9) / (1 - 2 / 12)) with (8 / 3) by lra. replace ((1 + s) / (1 - 2 / 8)) with (4 / 3 * (1 + s)) by lra.
  assert (K : ln (4 / 3 * (1 + s)) < ln (8 / 3) + (s - 11 / 9)); [|lra].
  assert (X : 4 / 3 * (1 + s) < exp (ln (8 / 3) + (s - 11 / 9))).
  { rewrite exp_plus, exp_ln by lra.
    assert (E8 : (1 + 24 / 1000 - 1 / 100000) ^ 8 <= exp (s - 11 / 9)).
    { replace (s - 11 / 9) with (INR 8 * ((s - 11 / 9) / 8)) by (cbn; field). rewrite <- Rpower_1 with (x := exp (INR 8 * ((s - 11 / 9) / 8))) by apply exp_pos.
      rewrite Rpower_1 by apply exp_pos. assert (P8 : exp (INR 8 * ((s - 11 / 9) / 8)) = exp ((s - 11 / 9) / 8) ^ 8).
      { rewrite <- (Rpower_pow 8 (exp ((s - 11 / 9) / 8))) by apply exp_pos. unfold Rpower. rewrite ln_exp. reflexivity. }
      rewrite P8. apply pow_incr. assert (Q := exp_ineq1_le ((s - 11 / 9) / 8)). lra. }
    assert (N8 : 1208 / 1000 <= (1 + 24 / 1000 - 1 / 100000) ^ 8) by lra. nra. }
  rewrite <- (ln_exp (ln (8 / 3) + (s - 11 / 9))). apply ln_increasing; [nra | exact X].
Qed.
Example C49_nonvacuous : 2 < tp_rmax tp0 /\ 0 < tp_rmax tp0 * tp_rmax tp0 - 3 * tp_rmax tp0 + 2 * tp_a tp0 * sqrt (tp_rmax tp0) /\
  0 <= tp_l tp0 /\ 0 < sin (PI / 2) /\ 0 < lnh_at tp0 (row4 0 (tp_rmax tp0) (PI / 2) 0) /\ 1 < tp_gam tp0 /\ 0 < rho_rmax tp0.
Proof.
  assert (L := tp0_lnh 0). cbn [tp_rmax tp_a tp_gam tp0]. split; [lra|]. split; [lra|]. split; [left; apply tp0_l2|]. split; [rewrite sin_PI2; lra|].
  split; [exact L|]. split; [lra|]. unfold rho_rmax, fm_state. cbn [fst]. apply Rdiv_lt_0_compat; [apply exp_pos | lra].
Qed.
(** the hypotheses of C49_cell, on the default grid *)
Example C49_cell_nonvacuous : let X := row4 0 (ln 12) (1 / 2) 0 in let r := mgr_r default_mgr X.[1] in let th := mgr_th default_mgr X.[1] X.[2] in
  mgr_valid default_mgr /\ mgr_x0 default_mgr <= X.[1] /\ 0 <= X.[2] <= 1 /\ 2 < r /\ tp_rin tp0 < r /\ 0 < sin th /\ 0 < lnh_at tp0 (row4 0 r th 0).
Proof.
  intros X r th. assert (L := tp0_lnh 0). assert (P := PI_RGT_0). assert (L0 : 0 < ln 12) by (rewrite <- ln_1; apply ln_increasing; lra).
  assert (Er : r = 12). { unfold r, mgr_r, X. cbn [row4 mgr_hexp_br mgr_hexp_csq default_mgr]. cbn -[exp ln Rlt_bool pow]. rewrite Rlt_bool_false. { rewrite !Rmult_0_l, Rplus_0_r. apply exp_ln. lra. } assert (Q : ln 12 < 12); [|lra]. apply exp_lt_inv. rewrite exp_ln by lra. assert (Q := exp_ineq1 12 ltac:(lra)). lra. }
  assert (Et : th = PI / 2).
  { unfold th, mgr_th. assert (Raw : mgr_th_raw default_mgr X.[1] X.[2] = PI / 2).
    { unfold mgr_th_raw, mgr_thG, mgr_thJ, mgr_y, X, default_mgr. cbn [row4 mgr_derefine_poles mgr_h mgr_x0 mgr_smooth].
      replace (2 * PI * (1 / 2)) with PI by field. rewrite sin_PI. replace (2 * (1 / 2) - 1) with 0 by field. field; cbn; lra. }
    rewrite Raw. unfold mgr_fix. assert (S1 : SINGSMALL < 1) by (unfold SINGSMALL; rewrite <- Rinv_1; apply Rinv_lt_contravar; [|apply Rlt_pow_R1; [lra | lia]]; rewrite Rmult_1_l; apply pow_lt; lra).
    assert (P3 : 2 < PI) by (assert (Q := PI2_3_2); unfold Rdiv in Q; lra).
    rewrite (Rlt_bool_false (Rabs (PI / 2))) by (rewrite Rabs_right; lra). rewrite Rlt_bool_false; [reflexivity|]. rewrite Rabs_right; lra. }
  rewrite Er, Et. split; [apply C13_mgr_nonvacuous|]. split; [unfold X; cbn -[ln]; lra|]. split; [unfold X; cbn; lra|]. split; [lra|]. split; [cbn; lra|]. split; [rewrite sin_PI2; lra | exact L].
Qed.
