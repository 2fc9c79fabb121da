(** C52: the linear-wave test problems.  The initial data are, to the precision of the
    tabulated numbers, eigenmodes of the linearised equations of relativistic MHD, with the
    frequency the code uses to set the final time; in boosted and snake coordinates the data
    are the same four-velocity and comoving field. *)
From Coq Require Import Reals List Arith Lia Lra.
From Coquelicot Require Import Coquelicot.
From Verif.Spec Require Import Tensor GeomSpec Relativity GRMHD WaveSpec.
From Verif.Model Require Import Geometry LinearModes.
From Verif.Proofs Require Import WaveProofs.
Import ListNotations.
Local Open Scope R_scope.

(** the uniform gas and the direction of the perturbation *)
Definition at_rest (md : Mode) : Gas := mkGas 1 1 (row3 0 0 0) (row3 (m_B10 md) 0 0).
Definition direction (md : Mode) : Gas := mkGas (m_drho md) (m_dug md) (m_du md) (m_dB md).
(** what the zone at (x,y) is given before any change of coordinates *)
Definition written (gam amp : R) (md : Mode) (x y : R) : Gas :=
  let p := lm_flat gam amp md x y in mkGas (l_rho p) (l_u p) (l_vp p) (l_B p).
Definition same_gas (q q' : Gas) : Prop :=
  g_rho q = g_rho q' /\ g_u q = g_u q' /\ eq3 (g_vp q) (g_vp q') /\ eq3 (g_B q) (g_B q').

(** the tabulated modes and the covectors of their waves: frequency, then wave vector.  The
    two-dimensional sound wave runs the other way *)
Definition tabulated : list (Mode * vec) :=
  [ (sound_2d, row4 (- m_omega sound_2d) (2 * PI) (2 * PI) 0);
    (slow_mode, row4 (m_omega slow_mode) (2 * PI) (2 * PI) 0);
    (alfven_mode, row4 (m_omega alfven_mode) (2 * PI) (2 * PI) 0);
    (fast_mode, row4 (m_omega fast_mode) (2 * PI) (2 * PI) 0) ].

Lemma small (a b eps : R) : - eps <= b <= eps -> Rabs (- sin a * b) <= eps.
Proof.
  intros H. pose proof (SIN_bound a) as B. apply Rabs_le. split; nra.
Qed.
Ltac defects :=
  cbv [dcurrent dmass dT dF du4 u4 db4 b4 eta Nat.eqb Nat.sub sum4 row4 row3 sound_1d sound_2d slow_mode alfven_mode fast_mode
       m_omega m_drho m_dug m_du m_dB m_B10 dec];
  simpl pow; pose proof PI_bounds; split; lra.

(** for Gamma = 4/3 every tabulated mode satisfies every linearised conservation law at
    every event, up to the rounding of the table *)
Theorem C52_eigenmode (md : Mode) (k : vec) (n : nat) (X : vec) :
  In (md, k) tabulated -> (n < 9)%nat ->
  exists r, linear_defect (4 / 3) n (at_rest md) (direction md) k 0 X r /\ Rabs r <= / 10 ^ 10.
Proof.
  intros H Hn. eexists. split; [apply (rest_defect (4 / 3) 1 1 (m_B10 md)); auto|].
  apply small.
  destruct H as [H|[H|[H|[H|[]]]]]; inversion_clear H;
    destruct n as [|[|[|[|[|[|[|[|[|]]]]]]]]]; try lia; defects.
Qed.
Print Assumptions C52_eigenmode.
(** the one-dimensional sound wave, on the line y = y0 *)
Theorem C52_eigenmode_1d (y0 : R) (n : nat) (X : vec) : (n < 9)%nat ->
  exists r, linear_defect (4 / 3) n (at_rest sound_1d) (direction sound_1d)
              (row4 (m_omega sound_1d) (2 * PI) 0 0) (2 * PI * y0) X r /\ Rabs r <= / 10 ^ 10.
Proof.
  intros Hn. eexists. split; [apply (rest_defect (4 / 3) 1 1 0); auto|].
  apply small.
  destruct n as [|[|[|[|[|[|[|[|[|]]]]]]]]]; try lia; defects.
Qed.
Print Assumptions C52_eigenmode_1d.
(** the perturbations are not small: they are normalised *)
Theorem C52_normalised (md : Mode) : In md (sound_1d :: map fst tabulated) ->
  Rabs (m_drho md ^ 2 + m_dug md ^ 2 + (m_du md 0%nat ^ 2 + m_du md 1%nat ^ 2 + m_du md 2%nat ^ 2)
        + (m_dB md 0%nat ^ 2 + m_dB md 1%nat ^ 2 + m_dB md 2%nat ^ 2) - 1) <= / 10 ^ 10.
Proof.
  intros H. apply Rabs_le.
  destruct H as [<-|[<-|[<-|[<-|[<-|[]]]]]];
    cbv [fst row4 row3 sound_1d sound_2d slow_mode alfven_mode fast_mode m_omega m_drho m_dug m_du m_dB m_B10 dec];
    simpl pow; split; lra.
Qed.
Print Assumptions C52_normalised.

(** the data are the wave at t = 0, and the wave is the data again at the final time *)
Theorem C52_data (gam amp : R) (md : Mode) (k : vec) (x y z : R) : In (md, k) tabulated ->
  same_gas (written gam amp md x y) (plane_wave (at_rest md) (direction md) k 0 amp (row4 0 x y z)) /\
  same_gas (written gam amp md x y)
           (plane_wave (at_rest md) (direction md) k 0 amp (row4 (lm_tlim ch_minkowski md) x y z)) /\
  l_P (lm_flat gam amp md x y) = (gam - 1) * l_u (lm_flat gam amp md x y).
Proof.
  intros H.
  assert (E : exists sg : R, k = row4 (sg * m_omega md) (2 * PI) (2 * PI) 0 /\ (sg = 1 \/ sg = -1) /\ m_omega md <> 0).
  { assert (D : forall (n : Z) d, (0 < n)%Z -> dec n d <> 0).
    { intros n d Hn. unfold dec. apply Rgt_not_eq, Rdiv_lt_0_compat; [apply IZR_lt; lia|apply pow_lt; lra]. }
    assert (M1 : forall a, -1 * a = - a) by (intros; ring).
    destruct H as [H|[H|[H|[H|[]]]]]; inversion_clear H; [exists (-1)|exists 1|exists 1|exists 1];
      (split; [rewrite ?Rmult_1_l, ?M1; reflexivity|split; [auto|apply D; lia]]). }
  destruct E as (sg & -> & Hs & Ho).
  assert (A : forall s : R, cos s = cos (kk * x + kk * y) ->
     same_gas (written gam amp md x y) (along (at_rest md) (direction md) (amp * cos s))).
  { intros s Es. unfold same_gas, written, lm_flat, along, at_rest, direction.
    cbn [g_rho g_u g_vp g_B l_rho l_u l_vp l_B]. rewrite Es.
    split; [ring|]. split; [ring|].
    split; intros i Hi; destruct i as [|[|[|]]]; try lia; cbn [row3]; ring. }
  unfold plane_wave. split; [|split; [|reflexivity]]; apply A.
  - f_equal. unfold phase, sum4, row4, kk. ring.
  - destruct Hs as [-> | ->].
    + rewrite <- (cos_period (kk * x + kk * y) 1). f_equal.
      unfold phase, sum4, row4, kk, lm_tlim. cbn [INR]. field. exact Ho.
    + etransitivity; [symmetry; apply (cos_period _ 1)|]. f_equal.
      unfold phase, sum4, row4, kk, lm_tlim. cbn [INR].
      field. exact Ho.
Qed.
Print Assumptions C52_data.
Example tabulated_ex : In (fast_mode, row4 (m_omega fast_mode) (2 * PI) (2 * PI) 0) tabulated.
Proof. right. right. right. left. reflexivity. Qed.
Theorem C52_data_1d (gam amp x y0 z : R) :
  let k := row4 (m_omega sound_1d) (2 * PI) 0 0 in
  let w t := plane_wave (at_rest sound_1d) (direction sound_1d) k (2 * PI * y0) amp (row4 t x y0 z) in
  same_gas (written gam amp sound_1d x y0) (w 0) /\
  same_gas (written gam amp sound_1d x y0) (w (lm_tlim ch_minkowski sound_1d)).
Proof.
  intros k w.
  assert (A : forall s : R, cos s = cos (kk * x + kk * y0) ->
     same_gas (written gam amp sound_1d x y0) (along (at_rest sound_1d) (direction sound_1d) (amp * cos s))).
  { intros s Es. unfold same_gas, written, lm_flat, along, at_rest, direction.
    cbn [g_rho g_u g_vp g_B l_rho l_u l_vp l_B]. rewrite Es.
    split; [ring|]. split; [ring|].
    split; intros i Hi; destruct i as [|[|[|]]]; try lia; cbn [row3]; ring. }
  unfold w, plane_wave. split; apply A.
  - f_equal. unfold k, phase, sum4, row4, kk. ring.
  - rewrite <- (cos_period (kk * x + kk * y0) 1). f_equal.
    assert (Ho : m_omega sound_1d <> 0) by (cbv [m_omega sound_1d dec]; simpl pow; lra).
    unfold k, phase, sum4, row4, kk, lm_tlim. cbn [INR]. field. exact Ho.
Qed.
Print Assumptions C52_data_1d.

(** the entropy mode does not move: it solves the full equations, for every amplitude and
    every adiabatic index, and the run lasts ten time units *)
Theorem C52_entropy (gam amp : R) (n : nat) (X : vec) : (n < 9)%nat ->
  let k := row4 0 (2 * PI) (2 * PI) 0 in
  let w := plane_wave (at_rest entropy_mode) (direction entropy_mode) k 0 amp in
  divergence (fun Y => current gam n (w Y)) X = 0 /\
  (forall t x y z, same_gas (written gam amp entropy_mode x y) (w (row4 t x y z))) /\
  lm_tlim ch_minkowski entropy_mode = 10.
Proof.
  intros Hn k w. split; [|split].
  - assert (C : forall mu, (mu < 4)%nat -> partial (fun Y => current gam n (w Y) mu) mu X = 0).
    { intros mu Hm. unfold partial, w, plane_wave.
      assert (W : forall s : R, gas_W (along (at_rest entropy_mode) (direction entropy_mode) s) = 1).
      { intros s. unfold gas_W. cbn [along g_vp at_rest direction entropy_mode m_du row3].
        replace (1 + _) with 1 by ring. apply sqrt_1. }
      assert (B : forall (s : R) i, (i < 4)%nat ->
         gas_bcon (along (at_rest entropy_mode) (direction entropy_mode) s) i = 0).
      { intros s i Hi. unfold gas_bcon, comoving_field. rewrite W.
        assert (S3 : forall j, (j < 4)%nat -> spatial4 (g_B (along (at_rest entropy_mode) (direction entropy_mode) s)) j = 0).
        { intros j Hj. destruct j as [|[|[|[|]]]]; try lia; cbn [spatial4 along g_B at_rest direction entropy_mode m_dB m_B10 row3]; ring. }
        unfold dot4, sum4. rewrite !S3 by lia. field. }
      destruct mu as [|m].
      - etransitivity; [|apply (Derive_const (current gam n (along (at_rest entropy_mode) (direction entropy_mode) (amp * cos (phase k 0 X))) 0%nat) (X 0%nat))].
        apply Derive_ext. intros h. rewrite phase_moved by lia. unfold k at 2. cbn [row4].
        rewrite Rmult_0_l, Rplus_0_r. reflexivity.
      - etransitivity; [|apply (Derive_const (match n with 0%nat => 0 | 1%nat | 2%nat | 3%nat | 4%nat => (gam - 1) * eta (S m) (n - 1)%nat | _ => 0 end) (X (S m)))].
        apply Derive_ext. intros h. set (s := amp * cos _).
        assert (U : gas_ucon (along (at_rest entropy_mode) (direction entropy_mode) s) (S m) = 0).
        { cbn [gas_ucon along g_vp at_rest direction entropy_mode m_du]. unfold row3. destruct m as [|[|m]]; ring. }
        unfold current. destruct n as [|[|[|[|[|n]]]]];
          [rewrite U; ring | | | | |];
          try (unfold Tcon, bsquared, dot4, sum4; rewrite !B by (simpl; lia); rewrite U; simpl Nat.sub;
               cbn [along g_u at_rest direction entropy_mode m_dug]; field).
        unfold dualF. rewrite !B by (simpl; lia). ring. }
    unfold divergence, sum4. rewrite !C by lia. ring.
  - intros t x y z. unfold same_gas, written, lm_flat, w, plane_wave, along, at_rest, direction.
    cbn [g_rho g_u g_vp g_B l_rho l_u l_vp l_B].
    replace (phase k 0 (row4 t x y z)) with (kk * x + kk * y) by (unfold k, phase, sum4, row4, kk; ring).
    split; [ring|]. split; [ring|].
    split; intros i Hi; destruct i as [|[|[|]]]; try lia; cbn [row3]; ring.
  - unfold lm_tlim. cbn [entropy_mode m_omega]. field. apply PI_neq0.
Qed.
Print Assumptions C52_entropy.
(** ... and it is not uniform *)
Example C52_entropy_moves_density : l_rho (lm_flat (4 / 3) (/ 2) entropy_mode 0 0) = 3 / 2.
Proof.
  unfold lm_flat. cbn [l_rho entropy_mode m_drho]. replace (kk * 0 + kk * 0) with 0 by ring. rewrite cos_0. lra.
Qed.

(** the table was made for Gamma = 4/3, but the pressure written uses whatever Gamma the
    equation of state has: for 5/3 the data are no eigenmode *)
Theorem C52_gamma_refuted :
  exists X r, linear_defect (5 / 3) 2 (at_rest sound_1d) (direction sound_1d)
                (row4 (m_omega sound_1d) (2 * PI) 0 0) 0 X r /\ 1 < Rabs r.
Proof.
  exists (row4 0 (/ 4) 0 0). eexists. split; [apply (rest_defect (5 / 3) 1 1 0); lia|].
  assert (E : phase (row4 (m_omega sound_1d) (2 * PI) 0 0) 0 (row4 0 (/ 4) 0 0) = PI / 2)
    by (unfold phase, sum4, row4; field).
  rewrite E, sin_PI2.
  cbv [dcurrent dmass dT dF du4 u4 db4 b4 eta Nat.eqb Nat.sub sum4 row4 row3 sound_1d m_omega m_drho m_dug m_du m_dB m_B10 dec].
  simpl pow. pose proof PI_bounds. unfold Rabs. destruct (Rcase_abs _); lra.
Qed.
Print Assumptions C52_gamma_refuted.
