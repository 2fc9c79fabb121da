(** algebra of the classic inversion: residual, velocity, conserved state *)
From Coq Require Import Reals ZArith Arith Bool Lia Lra Psatz.
From Verif.Spec Require Import Tensor GeomSpec Relativity GRMHD.
From Verif.Model Require Import Num Robust Geometry Relativity Prim2Con Con2PrimClassic.
From Verif.Proofs Require Import NumR RobustProofs TensorTac LinearAlgebraProofs GeomBase AdmProofs RelProofs RelativityProofs Prim2ConProofs P2CSimple.
Local Open Scope R_scope.

Lemma residual_R P E D tau Bsq Ssq BS rho T :
  residual P E D tau Bsq Ssq BS rho T =
  let W := D / rho in let z := (rho * (1 + E rho T) + P rho T) * W * W in
  (((z + Bsq) * (z + Bsq) - Ssq - (2 * z + Bsq) * (BS * BS) / (z * z)) * W * W - (z + Bsq) * (z + Bsq),
   (tau + D - z - Bsq + BS * BS / (2 * z * z) + P rho T) * W * W + / 2 * Bsq).
Proof.
  unfold residual, sfunc, taufunc. cbn [nadd nmul nsub ndiv Num_R]. cbv zeta.
  replace (nlit 1 1 : R) with 1 by (cbn; field). replace (nlit 2 1 : R) with 2 by (cbn; field). replace (nlit 1 2 : R) with (/ 2) by (cbn; field).
  reflexivity.
Qed.

Section Inv.
Variables (alpha : R) (beta : vec) (g ginv gamma gi : mat) (sg sgg : R).
Hypothesis H : adm_consistent alpha beta g ginv gamma gi sg sgg.
Let Sy := adm_gamma_sym _ _ _ _ _ _ _ _ H.
Let I3 := adm_inv3 _ _ _ _ _ _ _ _ H.
Let sp : 0 < sg := proj1 (adm_det3 _ _ _ _ _ _ _ _ H).

Definition raise (Sv : vec) : vec := fun i => sum3 (fun j => gi i j * Sv j).
Lemma low_raise Sv i : (i < 3)%nat -> lower3 gamma (raise Sv) i = Sv i.
Proof.
  intros Hi.
  assert (E : lower3 gamma (raise Sv) i = Sv 0%nat * mul3 gamma gi i 0%nat + Sv 1%nat * mul3 gamma gi i 1%nat + Sv 2%nat * mul3 gamma gi i 2%nat)
    by (unfold lower3, raise, mul3, sum3; ring).
  rewrite E, !(fun j Hj => proj1 (I3 i j Hi Hj)) by lia.
  destruct i as [|[|[|i]]]; [| | |lia]; unfold delta; cbn; ring.
Qed.
Lemma dot_raise u Sv : dot3 gamma u (raise Sv) = sum3 (fun i => u i * Sv i).
Proof.
  assert (E : dot3 gamma u (raise Sv) = sum3 (fun i => u i * lower3 gamma (raise Sv) i)) by (unfold dot3, lower3, sum3; ring).
  rewrite E. unfold sum3. rewrite !low_raise by lia. reflexivity.
Qed.
Lemma raise_raise Sv : dot3 gamma (raise Sv) (raise Sv) = dot3 gi Sv Sv.
Proof. rewrite dot_raise. unfold dot3, raise, sum3. ring. Qed.

Variables (Sv B : vec).
Let BB := dot3 gamma B B.
Let BS := sum3 (fun i => B i * Sv i).
Let SS := dot3 gi Sv Sv.

(** the velocity of Finalize *)
Definition vfin (z : R) : vec := fun i => 1 / (z + BB) * (raise Sv i + BS * B i / z).
Lemma B_vfin z : z <> 0 -> z + BB <> 0 -> dot3 gamma B (vfin z) = BS / z.
Proof.
  intros Hz HzB. assert (E : dot3 gamma B (vfin z) = dot3 gamma B (fun i => 1 / (z + BB) * raise Sv i + BS / (z * (z + BB)) * B i)).
  { apply dot3_ext; intros i Hi; [reflexivity|]. unfold vfin. field. split; assumption. }
  rewrite E, dot3_linr, dot_raise. fold BS BB. field. split; assumption.
Qed.
Lemma v_vfin z : z <> 0 -> z + BB <> 0 ->
  dot3 gamma (vfin z) (vfin z) * ((z + BB) * (z + BB)) = SS + (2 * z + BB) * (BS * BS) / (z * z).
Proof.
  intros Hz HzB. assert (E : dot3 gamma (vfin z) (vfin z) = dot3 gamma (vfin z) (fun i => 1 / (z + BB) * raise Sv i + BS / (z * (z + BB)) * B i)).
  { apply dot3_ext; intros i Hi; [reflexivity|]. unfold vfin. field. split; assumption. }
  rewrite E, dot3_linr.
  rewrite (dot3_sym _ (vfin z) B) by exact Sy. rewrite B_vfin by assumption.
  assert (E2 : dot3 gamma (vfin z) (raise Sv) = 1 / (z + BB) * SS + BS / (z * (z + BB)) * BS).
  { rewrite (dot3_sym _ (vfin z)) by exact Sy.
    transitivity (dot3 gamma (raise Sv) (fun i => 1 / (z + BB) * raise Sv i + BS / (z * (z + BB)) * B i)).
    { apply dot3_ext; intros i Hi; [reflexivity|]. unfold vfin. field. split; assumption. }
    rewrite dot3_linr, raise_raise, (dot3_sym _ (raise Sv) B) by exact Sy. rewrite dot_raise. reflexivity. }
  rewrite E2. field. split; assumption.
Qed.
Lemma S_vfin z m : (m < 3)%nat -> z <> 0 -> z + BB <> 0 ->
  (z + BB) * lower3 gamma (vfin z) m - BS / z * lower3 gamma B m = Sv m.
Proof.
  intros Hm Hz HzB.
  assert (E : lower3 gamma (vfin z) m = 1 / (z + BB) * Sv m + BS / (z * (z + BB)) * lower3 gamma B m).
  { transitivity (lower3 gamma (fun i => 1 / (z + BB) * raise Sv i + BS / (z * (z + BB)) * B i) m).
    - apply lower3_ext. intros i Hi. unfold vfin. field. split; assumption.
    - rewrite lower3_lin, low_raise by exact Hm. reflexivity. }
  rewrite E. field. split; assumption.
Qed.
(** zero of the first residual: the velocity has Lorentz factor W *)
Lemma lorentz_vfin z W : 0 < z -> 0 < W ->
  ((z + BB) * (z + BB) - SS - (2 * z + BB) * (BS * BS) / (z * z)) * W * W - (z + BB) * (z + BB) = 0 ->
  GetLorentzFactor (fun i => W * vfin z i) gamma = W.
Proof.
  intros Hz HW R0. assert (Bn : 0 <= BB) by (apply pd_nonneg; exact (adm_gamma_pd _ _ _ _ _ _ _ _ H)).
  assert (zB : z + BB <> 0) by lra.
  pose proof (v_vfin z ltac:(lra) zB) as K. set (V := dot3 gamma (vfin z) (vfin z)) in *.
  assert (Q : (z + BB) * (z + BB) * ((1 - V) * (W * W) - 1) = 0).
  { replace ((z + BB) * (z + BB) * ((1 - V) * (W * W) - 1)) with (((z + BB) * (z + BB) - V * ((z + BB) * (z + BB))) * W * W - (z + BB) * (z + BB)) by ring.
    rewrite K, <- R0. ring. }
  apply Rmult_integral in Q. destruct Q as [Q|Q]; [exfalso; nra|].
  assert (E : GetLorentzFactor (fun i => W * vfin z i) gamma = sqrt (1 + W * W * V)).
  { unfold GetLorentzFactor. f_equal. f_equal. unfold V, dot3, sum3. ring. }
  rewrite E. replace (1 + W * W * V) with (W * W) by lra. apply sqrt_square. lra.
Qed.
End Inv.

Section Setup.
Variables (alpha : R) (beta : vec) (g ginv gamma gi : mat) (sg sgg : R).
Hypothesis H : adm_consistent alpha beta g ginv gamma gi sg sgg.
Let sp : 0 < sg := proj1 (adm_det3 _ _ _ _ _ _ _ _ H).
Variables (mhd hasye : bool) (c : Cons) (vel : vec) (ye : R).
Let cell := mkCGeom gamma gi beta sg alpha.
Let x := setup_classic mhd hasye cell c vel ye.
Let s : vec := fun i => cS c i / sg.

Lemma set_D : x_D x = cD c / sg. Proof. unfold x, setup_classic; cbn. field. lra. Qed.
Lemma set_tau : x_tau x = ctau c / sg. Proof. unfold x, setup_classic; cbn. field. lra. Qed.
Lemma set_B i : x_B x i = if mhd then cB c i / sg else 0. Proof. unfold x, setup_classic; destruct mhd; cbn; [field; lra|reflexivity]. Qed.
Lemma set_Bsq : x_Bsq x = dot3 gamma (x_B x) (x_B x).
Proof. unfold x, setup_classic; destruct mhd; cbn [x_Bsq x_B cg_gcov cell cg_gdet]; [reflexivity|unfold dot3, sum3; ring]. Qed.
Lemma set_BS : x_BdotS x = sum3 (fun i => x_B x i * s i).
Proof. unfold x, setup_classic, s; destruct mhd; cbn [x_BdotS x_B cg_gcov cell cg_gdet]; unfold sum3; [field; lra|ring]. Qed.
Lemma set_Ssq : x_Ssq x = dot3 gi s s.
Proof. unfold x, setup_classic, s; cbn [x_Ssq cg_gcon cell cg_gdet]; unfold dot3, sum3; field; lra. Qed.

Variables (eos : TEOS) (rho Te : R).
Let o := finalize_classic mhd hasye eos cell c x rho Te.
Let lam := if hasye then x_ye x else 0.
Let W := x_D x / rho.
Let z := (rho * (1 + t_E eos rho Te lam) + t_P eos rho Te lam) * W * W.
Lemma fin_prs : p_prs o = t_P eos rho Te lam. Proof. reflexivity. Qed.
Lemma fin_eng : p_eng o = rho * t_E eos rho Te lam. Proof. reflexivity. Qed.
Lemma fin_vel i : z <> 0 -> z + x_Bsq x <> 0 -> p_vel o i = W * vfin gamma gi s (x_B x) z i.
Proof.
  intros Hz HzB. rewrite set_Bsq in HzB. unfold o, finalize_classic. cbn [p_vel]. fold lam W.
  replace ((rho + rho * t_E eos rho Te lam + t_P eos rho Te lam) * (W * W)) with z by (unfold z; ring).
  unfold vfin, raise. rewrite <- set_BS. rewrite set_Bsq. cbn [cg_gcon cg_gdet cell]. unfold s.
  replace (sum3 (fun j => gi i j * (cS c j / sg))) with (sum3 (fun j => gi i j * cS c j) * (1 / sg)) by (unfold sum3; field; lra).
  pose proof (set_B i) as EB. destruct mhd; [reflexivity|].
  rewrite EB. field. repeat split; assumption || lra.
Qed.
End Setup.
