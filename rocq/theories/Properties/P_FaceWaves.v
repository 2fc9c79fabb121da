(** C20: the signal speeds of a face whatever density, energy and pressure the
    reconstruction gave. *)
From Coq Require Import Reals ZArith Arith Lia Lra.
From Flocq Require Import Core.
From Verif.Spec Require Import Tensor GeomSpec SystemSpec Relativity GRMHD.
From Verif.Model Require Import Num Robust Geometry Relativity Prim2Con Riemann.
From Verif.Proofs Require Import NumR GeomBase FlatWitness.
From Verif.Properties Require Import P_GRMHD P_Riemann P_FaceLimits.
Local Open Scope R_scope.

(** Every reconstructed density, energy and pressure (floors positive, velocity within its
    ceiling): the speeds bracket the fluid velocity and all fronts not faster than the fast
    speed of the limited state. *)
Theorem C20_limited_face_waves : forall alpha beta g ginv gamma gi sg sgg,
  adm_consistent alpha beta g ginv gamma gi sg sgg ->
  forall (q : FaceState) rf sf sm gm, 0 < rf -> 0 <= sf <= sm -> EPS <= rf -> GetLorentzFactor (q_vp q) gamma <= gm ->
  forall dir valencia, (dir < 3)%nat ->
  let l := limited_face q rf sf sm in
  let ucon := GetFourVelocity (q_vp q) gamma alpha beta in
  let b2 := bsquared g (comoving_field g (GetLorentzFactor (q_vp q) gamma) ucon (q_B q)) in
  let cf := fast2 (q_rho l) (q_eng l) (q_prs l) (q_gm1 q) b2 in
  let s := prim_to_flux valencia dir (mkFace alpha sgg sg g beta (gi dir dir)) q rf sf sm gm in
  (fo_vm s <= ucon (S dir) / ucon 0%nat <= fo_vp s) /\
  (forall c x, 0 <= c <= cf -> c <= 1 - EPS -> wave ginv ucon c dir x -> fo_vm s <= x <= fo_vp s).
Proof.
  intros alpha beta g ginv gamma gi sg sgg H q rf sf sm gm r0 [s0 S1] Re L dir val Hd l ucon b2 cf s.
  destruct (C17_face_limits val dir (mkFace alpha sgg sg g beta (gi dir dir)) q rf sf sm gm r0 S1) as (A & (B1 & (B2 & B3) & B4) & _).
  fold l in A, B1, B2, B3, B4.
  pose proof (A rf (sf - 1) sm ltac:(lra) ltac:(lra) ltac:(lra)) as A'. fold s in A'.
  assert (E0 : 0 <= q_eng l).
  { replace (q_eng l) with (q_rho l * (q_eng l / q_rho l)) by (field; lra). apply Rmult_le_pos; lra. }
  destruct (C20_face_waves alpha beta g ginv gamma gi sg sgg H l rf (sf - 1) sm gm) with (dir := dir) (valencia := val) as (K1 & K2 & _).
  - split; [exact B1|]. split; [exact L|]. split; [lra|]. split; [exact B3|exact B4].
  - exact Hd.
  - lra.
  - rewrite A'. split; [exact K1|exact K2].
Qed.
Print Assumptions C20_limited_face_waves.

(** the state of C17_face_limits_nonvacuous: density below the floor, energy above the
    ceiling, negative pressure, W = 5/4 *)
Example C20_limited_face_nonvacuous :
  let q := mkState (1/1000) (row3 (3/4) 0 0) 7 (-1) (4/3) (row3 1 0 0) (1/2) in
  adm_consistent 2 (fun _ => 0) gw gwi delta delta 1 2 /\ EPS <= 1/100 /\ GetLorentzFactor (q_vp q) delta <= 10 /\
  ~ within_limits delta q (1/100) (1/10) 1 10.
Proof.
  intros q. split; [exact gw_consistent|]. split; [|split].
  - unfold EPS. num_R. assert (K : (IZR 1000 <= IZR (2 ^ 52))) by (apply IZR_le; lia). apply (Rmult_le_reg_r (IZR (2 ^ 52))); [lra|]. unfold Rdiv. rewrite Rmult_assoc, Rinv_l by lra. lra.
  - change (q_vp q) with (q_vp qw). rewrite qw_W. lra.
  - intros (K & _). unfold q in K; cbn in K. lra.
Qed.
