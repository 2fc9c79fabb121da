(** Floors and ceilings: the clamp, and gas added at rest. *)
From Coq Require Import Reals Arith Lia Lra Psatz Bool.
From Flocq Require Import Core.
From Verif.Spec Require Import Tensor GeomSpec Relativity GRMHD.
From Verif.Model Require Import Num Robust Geometry Relativity Prim2Con Riemann Con2PrimRobust ApplyFloors.
From Verif.Proofs Require Import NumR RobustProofs TensorTac LinearAlgebraProofs GeomBase AdmProofs RelProofs
  RelativityProofs Prim2ConProofs FaceProofs.
Local Open Scope R_scope.

Section R.
Variables (alpha : R) (beta : vec) (g ginv gamma gi : mat) (sg sgg : R).
Hypothesis H : adm_consistent alpha beta g ginv gamma gi sg sgg.
Let T := adm_tpo _ _ _ _ _ _ _ _ H.
Let ap := tpo_lapse _ _ _ _ T.
Variables (gmax : R) (vp : vec).
Let W := GetLorentzFactor vp gamma.
Let W1 : 1 <= W := lorentz_ge1 _ _ _ _ vp T.
Let W2 : W * W = 1 + dot3 gamma vp vp := lorentz_sq _ _ _ _ vp T.
Lemma rescaled_sq : 1 <= gmax -> 1 < W ->
  let W' := GetLorentzFactor (rescaled gmax W vp) gamma in W' * W' = 1 + (gmax * gmax - 1) / (W * W - 1).
Proof.
  intros G L W'. unfold W'. rewrite (lorentz_sq _ _ _ _ _ T). unfold rescaled. rewrite scale_dot3.
  replace (dot3 gamma vp vp) with (W * W - 1) by lra. unfold rescale_fac.
  assert (S : sqrt (gmax * gmax - 1) * sqrt (gmax * gmax - 1) = gmax * gmax - 1) by (apply sqrt_sqrt; nra).
  set (s := sqrt (gmax * gmax - 1)) in *. assert (0 < W * W - 1) by nra.
  replace ((W * W - 1) * (s / (W * W - 1) * (s / (W * W - 1)))) with (s * s / (W * W - 1)) by (field; lra). rewrite S. reflexivity.
Qed.
Lemma clamp_inside : W <= gmax -> clamp_velocity gmax g vp = (vp, W).
Proof.
  intros K. unfold clamp_velocity. assert (E : GetLorentzFactor4 vp g = W) by exact (W_eq _ _ _ _ _ _ _ _ H vp). rewrite E.
  rewrite Rlt_bool_false by exact K. reflexivity.
Qed.
Lemma clamp_acts : gmax < W -> clamp_velocity gmax g vp = (rescaled gmax W vp, gmax).
Proof.
  intros K. unfold clamp_velocity. assert (E : GetLorentzFactor4 vp g = W) by exact (W_eq _ _ _ _ _ _ _ _ H vp). rewrite E.
  rewrite Rlt_bool_true by exact K. reflexivity.
Qed.
End R.

(** p2c of gas at rest with respect to the normal observer *)
Section Rest.
Variables (alpha : R) (beta : vec) (g ginv gamma gi : mat) (sg sgg : R).
Hypothesis H : adm_consistent alpha beta g ginv gamma gi sg sgg.
Let T := adm_tpo _ _ _ _ _ _ _ _ H.
Variables (rho : R) (B : vec) (u ye p gm1 : R).
Let z : vec := fun _ => 0.
Lemma rest_W : GetLorentzFactor z gamma = 1.
Proof. unfold GetLorentzFactor, z, sum3. replace (1 + _) with 1 by ring. apply sqrt_1. Qed.
Lemma rest_cons valencia : let C := p2c valencia rho z B u ye p gm1 g gi beta alpha sg in
  cD C = sg * rho /\ (forall i, (i < 3)%nat -> cS C i = 0) /\ cye C = sg * rho * ye /\
  (valencia = true -> ctau C = sg * (u + dot3 gamma B B / 2)).
Proof.
  intros C. assert (WE : GetLorentzFactor4 z g = 1) by (rewrite (W_eq _ _ _ _ _ _ _ _ H z); apply rest_W).
  assert (DB : sum3 (fun ii => sum3 (fun jj => g (ii + 1)%nat (jj + 1)%nat * B ii * (z jj * (1 / 1)))) = 0)
    by (unfold z, sum3; ring).
  unfold C, p2c; cbn [cD cS cye ctau]. rewrite WE, !DB. repeat split.
  - ring.
  - intros i Hi. unfold z, sum3. ring.
  - ring.
  - intros ->. rewrite (dot_block _ _ _ _ _ _ _ _ H). field.
Qed.
End Rest.
