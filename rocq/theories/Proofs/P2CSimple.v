(** three-dimensional form of the conserved variables *)
From Coq Require Import Reals Arith Lia Lra Psatz.
From Verif.Spec Require Import Tensor GeomSpec Relativity GRMHD.
From Verif.Model Require Import Num Robust Geometry Relativity Prim2Con Con2PrimRobust.
From Verif.Proofs Require Import NumR TensorTac LinearAlgebraProofs GeomBase AdmProofs RelProofs RelativityProofs Prim2ConProofs.
Local Open Scope R_scope.

Section P.
Variables (alpha : R) (beta : vec) (g ginv gamma gi : mat) (sg sgg : R).
Hypothesis H : adm_consistent alpha beta g ginv gamma gi sg sgg.
Let T := adm_tpo _ _ _ _ _ _ _ _ H.
Let ap := tpo_lapse _ _ _ _ T.
Let sp : 0 < sg := proj1 (adm_det3 _ _ _ _ _ _ _ _ H).
Variables (rho : R) (vp B : vec) (u ye p gam1 : R).
Let C val := p2c val rho vp B u ye p gam1 g gi beta alpha sg.
Let W := GetLorentzFactor vp gamma.
Let v : vec := fun i => vp i * (1 / W).
Let Bv := dot3 gamma B v.
Let B2 := dot3 gamma B B.
Let ucon := GetFourVelocity vp gamma alpha beta.
Let bcon := comoving_field g W ucon B.
Let W1 : 1 <= W := lorentz_ge1 _ _ _ _ vp T.

Lemma s_C_S val m : (m < 3)%nat -> cS (C val) m = sg * (((rho + u + p) * (W * W) + B2) * lower3 gamma v m - Bv * lower3 gamma B m).
Proof.
  intros Hm. unfold C. rewrite (C_S _ _ _ _ _ _ _ _ H) by exact Hm.
  pose proof (bcov_S _ _ _ _ _ _ _ _ H vp B m Hm) as K. pose proof (bsq_eq _ _ _ _ _ _ _ _ H vp B) as K2.
  fold W v ucon in K, K2 |- *. fold Bv B2 bcon in K, K2 |- *. rewrite K, K2. field. lra.
Qed.
Lemma s_C_tau : ctau (C true) = sg * ((rho + u + p) * (W * W) - p + B2 - B2 / (2 * (W * W)) - Bv * Bv / 2) - sg * rho * W.
Proof.
  unfold C. rewrite (C_tau_valencia _ _ _ _ _ _ _ _ H).
  pose proof (bsq_eq _ _ _ _ _ _ _ _ H vp B) as K2.
  fold W v ucon in K2 |- *. fold Bv B2 bcon in K2 |- *. rewrite K2. field. lra.
Qed.
(** con2prim's energy variable of a p2c state does not depend on the formulation *)
Lemma s_tau_p2c val : s_tau val (mkCell g gi beta sg alpha) (p2c val rho (vp) B u ye p gam1 g gi beta alpha sg) = ctau (C true) / sg.
Proof.
  fold (C val). unfold s_tau. destruct val; cbn [c_gdet c_lapse c_beta].
  - field. lra.
  - set (Q := fun mu : nat => match mu with O => (ctau (C false) - cD (C false)) * (1 / sg) | S m => cS (C false) m * (1 / sg) end).
    set (n := fun mu : nat => match mu with O => 1 / alpha | S m => - beta m / alpha end).
    set (w := rho + u + p + bsquared g bcon). set (pt := p + bsquared g bcon / 2).
    assert (EQ : forall mu, (mu < 4)%nat -> Q mu = alpha * (w * ucon 0%nat * lower4 g ucon mu + pt * delta mu 0 - bcon 0%nat * lower4 g bcon mu)).
    { intros mu Hm. destruct mu as [|m].
      - unfold Q, C. rewrite (C_tau_cov _ _ _ _ _ _ _ _ H), (C_D _ _ _ _ _ _ _ _ H). fold W ucon. fold bcon. fold w pt.
        unfold delta; cbn [Nat.eqb]. field. lra.
      - unfold Q, C. rewrite (C_S _ _ _ _ _ _ _ _ H) by lia. fold W ucon. fold v. fold Bv bcon. fold w.
        pose proof (ucov_S _ _ _ _ _ _ _ _ H vp m ltac:(lia)) as K. fold W v ucon in K. rewrite K.
        pose proof (ucon0 _ _ _ _ _ _ _ _ H vp) as U0. fold W ucon in U0.
        pose proof (bcon0 _ _ _ _ _ _ _ _ H vp B) as B0. fold W ucon in B0. fold bcon v in B0. fold Bv in B0.
        rewrite U0, B0. unfold delta; cbn [Nat.eqb]. field. split; lra. }
    assert (En : forall mu, n mu = normal_con alpha beta mu).
    { intros [|m]; unfold n, normal_con; [reflexivity|]. field. lra. }
    assert (E : sum4 (fun mu => Q mu * n mu) = alpha * (w * ucon 0%nat * - (alpha * ucon 0%nat) + pt * (1 / alpha) - bcon 0%nat * - (alpha * bcon 0%nat))).
    { rewrite <- (normal_lower _ _ _ _ _ _ _ _ H ucon), <- (normal_lower _ _ _ _ _ _ _ _ H bcon).
      unfold sum4. rewrite !EQ, !En by lia. unfold delta; cbn [Nat.eqb normal_con]. field. lra. }
    change (- sum4 (fun mu => Q mu * n mu) - s_D (mkCell g gi beta sg alpha) (C false) = ctau (C true) / sg). rewrite E. unfold s_D; cbn [c_gdet]. unfold C. rewrite (C_tau_valencia _ _ _ _ _ _ _ _ H), (C_D _ _ _ _ _ _ _ _ H).
    fold W ucon. fold v. fold Bv bcon. fold w pt.
    pose proof (ucon0 _ _ _ _ _ _ _ _ H vp) as U0. fold W ucon in U0.
    pose proof (bcon0 _ _ _ _ _ _ _ _ H vp B) as B0. fold W ucon in B0. fold bcon v in B0. fold Bv in B0.
    rewrite U0, B0. field. split; lra.
Qed.
End P.
