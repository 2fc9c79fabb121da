(** C51 continued: the Newton iteration of the classic inversion. *)
From Coq Require Import Reals Arith ZArith Lia Lra Psatz Bool.
From Flocq Require Import Core.
From Verif.Spec Require Import Tensor GeomSpec SystemSpec Relativity GRMHD.
From Verif.Model Require Import Num Robust Geometry Relativity Prim2Con Con2PrimClassic.
From Verif.Proofs Require Import NumR RobustProofs TensorTac LinearAlgebraProofs GeomBase AdmProofs RelProofs
  RelativityProofs Prim2ConProofs P2CSimple FlatWitness ClassicProofs ClassicInverse.
From Verif.Properties Require Import P_Con2PrimClassic.
Local Open Scope R_scope.

(** In any arithmetic (reals or IEEE doubles) and for any equation of state: the iteration
    makes at least one pass and at most max(1, max_iter), and failure is reported only
    after all of them. *)
Theorem C51_passes : forall (T : Type) (N : Num T) (P E : T -> T -> T) (D tau Bsq Ssq BdotS tol rho Temp : T) (mx : Z),
  let r := solve_classic P E D tau Bsq Ssq BdotS tol mx rho Temp in
  (1 <= it_n (snd r) <= Z.max 1 mx)%Z /\ (fst r = false -> it_n (snd r) = Z.max 1 mx).
Proof.
  intros T N P E D tau Bsq Ssq BdotS tol rho Temp mx r.
  set (s := mkIt rho Temp (residual P E D tau Bsq Ssq BdotS rho Temp) delta_fact_min 0 false).
  destruct (loop_pass P E D tau Bsq Ssq BdotS tol mx (Z.to_nat mx) s eq_refl) as (k & s0 & E0 & L & C & El & F & G).
  change (snd r) with (loop P E D tau Bsq Ssq BdotS tol mx (Z.to_nat mx) s).
  change (fst r) with (it_conv (loop P E D tau Bsq Ssq BdotS tol mx (Z.to_nat mx) s)).
  rewrite El, pass_n. rewrite E0, iter_n in G |- *. cbn [it_n s] in *. split.
  - destruct k as [|k]; [lia|]. specialize (G ltac:(lia)). lia.
  - intros Q. rewrite <- E0 in Q. destruct (F Q) as [K|K].
    + destruct k as [|k]; [lia|]. specialize (G ltac:(lia)). lia.
    + rewrite pass_n, E0, iter_n in K. cbn [it_n s] in K. destruct k as [|k]; [lia|]. specialize (G ltac:(lia)). lia.
Qed.
Print Assumptions C51_passes.

(** The iterates stay between vacuum and D = rho W, and at non-negative temperature, for
    every residual function. *)
Theorem C51_range : forall P E D tau Bsq Ssq BdotS tol rho Temp mx,
  0 <= rho <= D -> 0 <= Temp ->
  let s := snd (solve_classic P E D tau Bsq Ssq BdotS tol mx rho Temp) in
  0 <= it_rho s <= D /\ 0 <= it_T s.
Proof.
  intros P E D tau Bsq Ssq BdotS tol rho Temp mx Hr HT s0.
  set (s := mkIt rho Temp (residual P E D tau Bsq Ssq BdotS rho Temp) delta_fact_min 0 false).
  destruct (loop_pass P E D tau Bsq Ssq BdotS tol mx (Z.to_nat mx) s eq_refl) as (k & s1 & E1 & _ & _ & El & _).
  change s0 with (loop P E D tau Bsq Ssq BdotS tol mx (Z.to_nat mx) s). rewrite El, E1.
  apply (range_pass P E D tau Bsq Ssq BdotS tol).
  apply (iter_inv P E D tau Bsq Ssq BdotS tol (in_range D)); [apply range_pass|]. split; assumption.
Qed.
Print Assumptions C51_range.

(** [d] is the forward difference quotient of [f] at [x] with step [h], the step in the
    denominator being lengthened by at most SMALL *)
Definition secant (f : R -> R) (x h d : R) : Prop :=
  h <> 0 /\ exists e, Rabs e <= SMALL /\ 0 <= e * h /\ d * (h + e) = f (x + h) - f x.

Lemma ratio_secant f x h : h <> 0 -> secant f x h ((f (x + h) - f x) * ratio 1 h).
Proof.
  intros Hh. split; [exact Hh|]. pose proof SMALL_pos as Sp. rewrite ratio_R. destruct (Rle_dec 0 h) as [Q|Q].
  - exists SMALL. rewrite Rabs_pos_eq by lra. repeat split; [lra|nra|]. field. lra.
  - exists (- SMALL). rewrite Rabs_Ropp, Rabs_pos_eq by lra. repeat split; [lra|nra|]. field. lra.
Qed.

Lemma jac_secants P E D tau Bsq Ssq BdotS tol s :
  it_res s = residual P E D tau Bsq Ssq BdotS (it_rho s) (it_T s) ->
  let r := residual P E D tau Bsq Ssq BdotS in
  exists j00 j01 j10 j11 hr hT,
  jacobian P E D tau Bsq Ssq BdotS tol (it_fact s) (it_rho s) (it_T s) (it_res s) = ((j00, j01), (j10, j11)) /\
  secant (fun y => fst (r y (it_T s))) (it_rho s) hr j00 /\ secant (fun y => snd (r y (it_T s))) (it_rho s) hr j10 /\
  secant (fun y => fst (r (it_rho s) y)) (it_T s) hT j01 /\ secant (fun y => snd (r (it_rho s) y)) (it_T s) hT j11.
Proof.
  intros Hs r. unfold jacobian. rewrite Hs. fold r. replace (nlit 1 1 : R) with 1 by (cbn; field). cbn [nmul nsub nadd Num_R].
  set (hr := fd_delta tol (it_fact s) (it_rho s)). set (hT := fd_delta tol (it_fact s) (it_T s)).
  assert (H1 : hr <> 0) by apply fd_nonzero. assert (H2 : hT <> 0) by apply fd_nonzero.
  do 4 eexists. exists hr, hT. split; [reflexivity|].
  pose proof (fun f => ratio_secant f (it_rho s) hr H1) as K1. pose proof (fun f => ratio_secant f (it_T s) hT H2) as K2.
  split; [exact (K1 (fun y => fst (r y (it_T s))))|]. split; [exact (K1 (fun y => snd (r y (it_T s))))|].
  split; [exact (K2 (fun y => fst (r (it_rho s) y)))|exact (K2 (fun y => snd (r (it_rho s) y)))].
Qed.

(** What success means: the last Newton correction - the solution of the linear system
    with the finite-difference Jacobian at the last but one iterate - was within the
    relative tolerance in both unknowns, that system was regular, and the returned state
    differs from that iterate by at most the correction. *)
Theorem C51_success : forall P E D tau Bsq Ssq BdotS tol rho0 Temp0 mx,
  0 <= rho0 <= D -> 0 <= Temp0 ->
  let out := solve_classic P E D tau Bsq Ssq BdotS tol mx rho0 Temp0 in
  let r := residual P E D tau Bsq Ssq BdotS in
  fst out = true ->
  exists rho Temp j00 j01 j10 j11 hr hT dr dT,
    0 <= rho <= D /\ 0 <= Temp /\
    secant (fun y => fst (r y Temp)) rho hr j00 /\ secant (fun y => snd (r y Temp)) rho hr j10 /\
    secant (fun y => fst (r rho y)) Temp hT j01 /\ secant (fun y => snd (r rho y)) Temp hT j11 /\
    / 10000000000000000 <= Rabs (j00 * j11 - j01 * j10) /\
    j00 * dr + j01 * dT = - fst (r rho Temp) /\ j10 * dr + j11 * dT = - snd (r rho Temp) /\
    Rabs dr / rho < tol /\ Rabs dT / Temp < tol /\
    Rabs (it_rho (snd out) - rho) <= Rabs dr /\ Rabs (it_T (snd out) - Temp) <= Rabs dT.
Proof.
  intros P E D tau Bsq Ssq BdotS tol rho0 Temp0 mx Hr HT out r Hok.
  set (s := mkIt rho0 Temp0 (residual P E D tau Bsq Ssq BdotS rho0 Temp0) delta_fact_min 0 false).
  destruct (loop_pass P E D tau Bsq Ssq BdotS tol mx (Z.to_nat mx) s eq_refl) as (k & s1 & E1 & _ & Cf & El & _).
  change (snd out) with (loop P E D tau Bsq Ssq BdotS tol mx (Z.to_nat mx) s).
  change (it_conv (loop P E D tau Bsq Ssq BdotS tol mx (Z.to_nat mx) s) = true) in Hok.
  rewrite El in *.
  assert (Rg : in_range D s1) by (rewrite E1; apply (iter_inv P E D tau Bsq Ssq BdotS tol (in_range D)); [apply range_pass|split; assumption]).
  assert (Td : tied P E D tau Bsq Ssq BdotS s1) by (rewrite E1; apply (iter_inv P E D tau Bsq Ssq BdotS tol (tied P E D tau Bsq Ssq BdotS)); [apply tied_pass|reflexivity]).
  clear E1 El. destruct (Rlt_or_le (Rabs (det_of P E D tau Bsq Ssq BdotS tol s1)) (/ 10000000000000000)) as [Q|Q].
  { rewrite (pass_singular _ _ _ _ _ _ _ _ _ Q) in Hok. cbn [it_conv] in Hok. congruence. }
  destruct (pass_newton _ _ _ _ _ _ _ _ _ Q) as (a & Ha & _ & _ & E1 & E2 & _ & Ec).
  destruct (jac_secants P E D tau Bsq Ssq BdotS tol s1 Td) as (j00 & j01 & j10 & j11 & hr & hT & EJ & S1 & S2 & S3 & S4).
  assert (Nz : det_of P E D tau Bsq Ssq BdotS tol s1 <> 0). { intros Z. rewrite Z, Rabs_R0 in Q. lra. }
  destruct (newton_solves _ _ _ _ _ _ _ _ _ _ _ _ _ EJ Nz) as [L1 L2].
  set (d := newton P E D tau Bsq Ssq BdotS tol s1) in *.
  exists (it_rho s1), (it_T s1), j00, j01, j10, j11, hr, hT, (fst d), (snd d).
  destruct Rg as [R1 R2]. unfold tied in Td. rewrite Td in L1, L2.
  assert (ED : det_of P E D tau Bsq Ssq BdotS tol s1 = j00 * j11 - j01 * j10) by (unfold det_of; rewrite EJ; reflexivity).
  rewrite ED in Q.
  rewrite Cf in Ec. rewrite Hok in Ec.
  destruct (Rlt_bool_spec (Rabs (fst d) / it_rho s1) tol) as [T1|T1]; [|cbn in Ec; discriminate].
  destruct (Rlt_bool_spec (Rabs (snd d) / it_T s1) tol) as [T2|T2]; [|cbn in Ec; discriminate].
  assert (B1 : Rabs (a * limit_rho D (it_rho s1) (fst d)) <= Rabs (fst d)).
  { rewrite Rabs_mult, (Rabs_pos_eq a) by lra. pose proof (proj2 (proj2 (limit_rho_range D (it_rho s1) (fst d) a R1 Ha))).
    pose proof (Rabs_pos (limit_rho D (it_rho s1) (fst d))). nra. }
  assert (B2 : Rabs (a * limit_T (it_T s1) (snd d)) <= Rabs (snd d)).
  { rewrite Rabs_mult, (Rabs_pos_eq a) by lra. pose proof (proj2 (proj2 (limit_T_range (it_T s1) (snd d) a R2 Ha))).
    pose proof (Rabs_pos (limit_T (it_T s1) (snd d))). nra. }
  rewrite E1, E2.
  replace (it_rho s1 + a * limit_rho D (it_rho s1) (fst d) - it_rho s1) with (a * limit_rho D (it_rho s1) (fst d)) by ring.
  replace (it_T s1 + a * limit_T (it_T s1) (snd d) - it_T s1) with (a * limit_T (it_T s1) (snd d)) by ring.
  exact (conj R1 (conj R2 (conj S1 (conj S2 (conj S3 (conj S4 (conj Q (conj L1 (conj L2 (conj T1 (conj T2 (conj B1 B2)))))))))))).
Qed.
Print Assumptions C51_success.

(** the state after one pass of the loop, started from the iterate s *)
Notation one_pass := Con2PrimClassic.pass.

(** A pass either leaves the iterate alone (singular Jacobian), or reduces the squared
    residual, or moves by 1/32 of the limited Newton step; and an accepted step never
    leaves the linear-system solution's direction: each unknown moves by at most its
    correction, towards it. *)
Theorem C51_descent : forall P E D tau Bsq Ssq BdotS tol s,
  let r := residual P E D tau Bsq Ssq BdotS in
  let n2 (v : R * R) := fst v * fst v + snd v * snd v in
  it_res s = r (it_rho s) (it_T s) -> 0 <= it_rho s <= D -> 0 <= it_T s ->
  let s' := one_pass P E D tau Bsq Ssq BdotS tol s in
  it_res s' = r (it_rho s') (it_T s') /\
  ((it_rho s' = it_rho s /\ it_T s' = it_T s /\ it_conv s' = it_conv s /\ it_fact s' = it_fact s * (12 / 10)) \/
   n2 (r (it_rho s') (it_T s')) < n2 (r (it_rho s) (it_T s)) \/
   exists dr dT, it_rho s' = it_rho s + dr / 32 /\ it_T s' = it_T s + dT / 32 /\
     0 <= it_rho s + dr <= D /\ 0 <= it_T s + dT /\
     n2 (r (it_rho s) (it_T s)) <= n2 (r (it_rho s + dr) (it_T s + dT))).
Proof.
  intros P E D tau Bsq Ssq BdotS tol s r n2 Td Hr HT s'.
  destruct (Rlt_or_le (Rabs (det_of P E D tau Bsq Ssq BdotS tol s)) (/ 10000000000000000)) as [Q|Q].
  { unfold s'. rewrite (pass_singular _ _ _ _ _ _ _ _ _ Q). cbn [it_res it_rho it_T it_conv it_fact]. split; [exact Td|]. left. repeat split. }
  destruct (pass_newton _ _ _ _ _ _ _ _ _ Q) as (a & Ha & Hd & Hf & E1 & E2 & Et & _). fold s' in E1, E2, Et.
  set (d := newton P E D tau Bsq Ssq BdotS tol s) in *. split; [exact Et|]. right.
  destruct (Rlt_or_le (n2 (r (it_rho s') (it_T s'))) (n2 (r (it_rho s) (it_T s)))) as [L|L]; [left; exact L|right].
  set (dr := limit_rho D (it_rho s) (fst d)) in *. set (dT := limit_T (it_T s) (snd d)) in *.
  exists dr, dT.
  destruct Hd as [Hd|Hd].
  { exfalso. rewrite E1, E2 in L. rewrite Td in Hd. exact (Rlt_not_le _ _ Hd L). }
  rewrite E1, E2, Hd. split; [field|]. split; [field|].
  pose proof (proj1 (limit_rho_range D (it_rho s) (fst d) 1 Hr ltac:(lra))) as K1. fold dr in K1.
  pose proof (proj1 (limit_T_range (it_T s) (snd d) 1 HT ltac:(lra))) as K2. fold dT in K2.
  rewrite Rmult_1_l in K1, K2. split; [exact K1|]. split; [exact K2|].
  destruct Hf as [Hf|Hf]; [lra|]. rewrite Td in Hf. exact Hf.
Qed.
Print Assumptions C51_descent.

(** Started at an exact zero of the residual the solver never moves, and it reports success
    after one pass if the first Jacobian is not below the singularity threshold. *)
Lemma exact_pass P E D tau Bsq Ssq BdotS tol s rho Temp :
  0 < rho <= D -> 0 < Temp -> 0 < tol -> residual P E D tau Bsq Ssq BdotS rho Temp = (0, 0) ->
  it_rho s = rho -> it_T s = Temp -> it_res s = (0, 0) ->
  let s' := one_pass P E D tau Bsq Ssq BdotS tol s in
  it_rho s' = rho /\ it_T s' = Temp /\ it_res s' = (0, 0) /\
  (/ 10000000000000000 <= Rabs (det_of P E D tau Bsq Ssq BdotS tol s) -> it_conv s' = true) /\
  (Rabs (det_of P E D tau Bsq Ssq BdotS tol s) < / 10000000000000000 -> it_conv s' = it_conv s).
Proof.
  intros Hr HT Ht R0 E1 E2 E3 s'.
  destruct (Rlt_or_le (Rabs (det_of P E D tau Bsq Ssq BdotS tol s)) (/ 10000000000000000)) as [Q|Q].
  { unfold s'. rewrite (pass_singular _ _ _ _ _ _ _ _ _ Q). cbn [it_res it_rho it_T it_conv].
    split; [exact E1|]. split; [exact E2|]. split; [exact E3|]. split; [intros; lra|reflexivity]. }
  destruct (pass_newton _ _ _ _ _ _ _ _ _ Q) as (a & Ha & _ & _ & F1 & F2 & Et & Ec). fold s' in F1, F2, Et, Ec.
  assert (En : newton P E D tau Bsq Ssq BdotS tol s = (0, 0)).
  { unfold newton. destruct (jacobian P E D tau Bsq Ssq BdotS tol (it_fact s) (it_rho s) (it_T s) (it_res s)) as [[j00 j01] [j10 j11]].
    rewrite E3. cbn [fst snd]. f_equal; ring. }
  rewrite En in F1, F2, Ec. cbn [fst snd] in F1, F2, Ec.
  assert (L1 : limit_rho D (it_rho s) 0 = 0) by (apply (limit_rho_range D (it_rho s) 0 1); lra).
  assert (L2 : limit_T (it_T s) 0 = 0) by (apply (limit_T_range (it_T s) 0 1); lra).
  rewrite L1 in F1. rewrite L2 in F2. rewrite Rmult_0_r, Rplus_0_r in F1, F2.
  assert (G1 : it_rho s' = rho) by congruence. assert (G2 : it_T s' = Temp) by congruence.
  split; [exact G1|]. split; [exact G2|]. split; [unfold tied in Et; rewrite G1, G2, R0 in Et; exact Et|]. split; [|lra].
  intros _. rewrite Ec. rewrite Rabs_R0. unfold Rdiv. rewrite !Rmult_0_l. rewrite Rlt_bool_true by exact Ht. reflexivity.
Qed.

Theorem C51_exact_guess : forall P E D tau Bsq Ssq BdotS tol rho Temp mx,
  0 < rho <= D -> 0 < Temp -> 0 < tol -> residual P E D tau Bsq Ssq BdotS rho Temp = (0, 0) ->
  let out := solve_classic P E D tau Bsq Ssq BdotS tol mx rho Temp in
  it_rho (snd out) = rho /\ it_T (snd out) = Temp /\
  (/ 10000000000000000 <= Rabs (jdet (jacobian P E D tau Bsq Ssq BdotS tol (/ 1000000) rho Temp (0, 0))) ->
   fst out = true /\ it_n (snd out) = 1%Z).
Proof.
  intros P E D tau Bsq Ssq BdotS tol rho Temp mx Hr HT Ht R0 out.
  set (s := mkIt rho Temp (residual P E D tau Bsq Ssq BdotS rho Temp) delta_fact_min 0 false).
  set (Q := fun s : It => it_rho s = rho /\ it_T s = Temp /\ it_res s = (0, 0)).
  assert (Qs : Q s) by (repeat split; exact R0).
  assert (Qp : forall s, Q s -> Q (one_pass P E D tau Bsq Ssq BdotS tol s)).
  { intros t (T1 & T2 & T3). destruct (exact_pass P E D tau Bsq Ssq BdotS tol t rho Temp Hr HT Ht R0 T1 T2 T3) as (A & B & C & _). repeat split; assumption. }
  change (snd out) with (loop P E D tau Bsq Ssq BdotS tol mx (Z.to_nat mx) s).
  change (fst out) with (it_conv (loop P E D tau Bsq Ssq BdotS tol mx (Z.to_nat mx) s)).
  destruct (loop_pass P E D tau Bsq Ssq BdotS tol mx (Z.to_nat mx) s eq_refl) as (k & s1 & E1 & _ & Cf & El & _).
  assert (Q1 : Q (one_pass P E D tau Bsq Ssq BdotS tol s1)) by (apply Qp; rewrite E1; apply iter_inv; assumption).
  split; [rewrite El; apply Q1|]. split; [rewrite El; apply Q1|].
  intros Hd. destruct (exact_pass P E D tau Bsq Ssq BdotS tol s rho Temp Hr HT Ht R0 eq_refl eq_refl R0) as (_ & _ & _ & Cv & _).
  assert (C1 : it_conv (one_pass P E D tau Bsq Ssq BdotS tol s) = true).
  { apply Cv. unfold det_of. cbn [it_fact it_rho it_T it_res s]. rewrite R0.
    replace (delta_fact_min : R) with (/ 1000000) by (unfold delta_fact_min; cbn; field). exact Hd. }
  assert (El2 : loop P E D tau Bsq Ssq BdotS tol mx (Z.to_nat mx) s = one_pass P E D tau Bsq Ssq BdotS tol s).
  { destruct (Z.to_nat mx); cbn [loop]; [reflexivity|]. rewrite C1. reflexivity. }
  rewrite El2. split; [exact C1|]. rewrite pass_n. reflexivity.
Qed.
Print Assumptions C51_exact_guess.

(** ** gas at rest: an ideal gas with Gamma = 2 *)
Definition gasT : TEOS := mkTEOS (fun rho T _ => rho * T) (fun _ T _ => T) (fun rho T _ => 2 * rho * T).
Definition flatC : CGeom := mkCGeom delta delta zero3 1 1.
Lemma gasT_blind : ye_blind gasT. Proof. intros r t y. split; reflexivity. Qed.
(** the conserved state of gas at rest in flat space, without field *)
Definition rest_cons (rho u p : R) : Cons := p2c true rho zero3 zero3 u (1/2) p 2 eta4 delta zero3 1 1.
Definition rest_setup (rho u p : R) : Scratch := setup_classic false false flatC (rest_cons rho u p) zero3 (1/2).

Lemma lorentz_rest : GetLorentzFactor4 zero3 eta4 = 1.
Proof. rewrite (W_eq _ _ _ _ _ _ _ _ eta4_consistent). unfold GetLorentzFactor, zero3, sum3. transitivity (sqrt 1); [f_equal; ring|apply sqrt_1]. Qed.
Lemma rest_values rho u p :
  x_D (rest_setup rho u p) = rho /\ x_tau (rest_setup rho u p) = u /\ x_Bsq (rest_setup rho u p) = 0 /\
  x_Ssq (rest_setup rho u p) = 0 /\ x_BdotS (rest_setup rho u p) = 0 /\ x_rho (rest_setup rho u p) = rho.
Proof.
  assert (ED : x_D (rest_setup rho u p) = rho).
  { unfold rest_setup, rest_cons, setup_classic, p2c. cbn [x_D cD cg_gdet flatC]. rewrite lorentz_rest. field. }
  split; [exact ED|]. split.
  { unfold rest_setup, rest_cons, setup_classic, p2c. cbn [x_tau ctau cg_gdet flatC]. cbv zeta. rewrite lorentz_rest. unfold zero3, sum3. field. }
  split; [reflexivity|]. split.
  { unfold rest_setup, rest_cons, setup_classic, p2c. cbn [x_Ssq cS cg_gdet cg_gcon flatC]. cbv zeta. rewrite lorentz_rest.
    unfold zero3, sum3, sum4, delta. cbn [Nat.eqb]. field. }
  split; [reflexivity|].
  change (x_rho (rest_setup rho u p)) with (initial_rho (x_D (rest_setup rho u p)) (sum3 (fun i => sum3 (fun j => delta i j * zero3 i * zero3 j)))).
  rewrite ED. unfold initial_rho. cbn [nsqrt ndiv nsub Num_R]. replace (nlit 1 1 : R) with 1 by (cbn; field).
  replace (sum3 (fun i => sum3 (fun j => delta i j * zero3 i * zero3 j))) with 0 by (unfold zero3, sum3; ring).
  replace (1 / (1 - 0)) with 1 by field. rewrite sqrt_1. field.
Qed.

Lemma ratio_abs1 h : h <> 0 -> Rabs h * Rabs (ratio 1 h) <= 1 /\ (Rabs (SMALL : R) <= Rabs h -> / 2 <= Rabs h * Rabs (ratio 1 h)).
Proof.
  intros Hh. pose proof SMALL_pos as Sp. rewrite ratio_R. rewrite (Rabs_pos_eq SMALL) by lra.
  destruct (Rle_dec 0 h) as [Q|Q].
  - rewrite (Rabs_pos_eq h) by lra. assert (0 < / (h + SMALL)) by (apply Rinv_0_lt_compat; lra).
    rewrite Rabs_pos_eq by (unfold Rdiv; lra).
    replace (h * (1 / (h + SMALL))) with (1 - SMALL * / (h + SMALL)) by (field; lra).
    assert (K : (h + SMALL) * / (h + SMALL) = 1) by (field; lra). split; [nra|]. intros L. nra.
  - rewrite (Rabs_left h) by lra. assert (0 < / (- h + SMALL)) by (apply Rinv_0_lt_compat; lra).
    replace (1 / (h - SMALL)) with (- / (- h + SMALL)) by (field; lra). rewrite Rabs_Ropp, Rabs_pos_eq by lra.
    assert (K : (- h + SMALL) * / (- h + SMALL) = 1) by (field; lra). split; [nra|]. intros L. nra.
Qed.

(** the Jacobian of gas at rest *)
Lemma rest_jac rho Temp tol fact :
  rho <> 0 -> 
  let hr := fd_delta tol fact rho in let hT := fd_delta tol fact Temp in
  rho + hr <> 0 ->
  let w := rho / (rho + hr) in
  jdet (jacobian (fun r t => t_P gasT r t 0) (fun r t => t_E gasT r t 0) rho (rho * Temp) 0 0 0 tol fact rho Temp (0, 0)) =
  (rho * (1 + 2 * Temp) * w) ^ 2 * (w ^ 2 - 1) * ratio 1 hr * (- rho * hT * ratio 1 hT).
Proof.
  intros Hr hr hT Hh w. unfold jdet, jacobian. fold hr hT. rewrite !residual_R. cbv zeta. cbn [fst snd nmul nsub nadd Num_R t_P t_E gasT].
  replace (nlit 1 1 : R) with 1 by (cbn; field).
  replace (rho / rho) with 1 by (field; exact Hr). fold w.
  assert (Z : forall a, 0 / a = 0) by (intros; unfold Rdiv; ring).
  set (q1 := ratio 1 hr). set (q2 := ratio 1 hT). rewrite !Rmult_0_r, !Z.
  replace ((rho + hr) * (1 + Temp) + (rho + hr) * Temp) with ((rho + hr) * (1 + 2 * Temp)) by ring.
  replace ((rho + hr) * (1 + 2 * Temp) * w * w) with (rho * (1 + 2 * Temp) * w) by (unfold w; field; exact Hh).
  ring.
Qed.

Lemma fd_pos tol fact x : 0 < fact -> 0 < x -> 0 < fd_delta tol fact x.
Proof.
  intros Hf Hx. unfold fd_delta. pose proof (dmin_pos tol) as K. cbn [nlt nmul nabs Num_R].
  assert (0 < fact * x) by (apply Rmult_lt_0_compat; assumption).
  destruct (Rlt_bool_spec (Rabs (fact * x)) (delta_min tol)) as [Q|Q]; [|assumption].
  unfold sgn. cbn [nle nlt Num_R]. replace (nzero : R) with 0 by (unfold nzero; cbn; field).
  rewrite Rle_bool_true by lra. rewrite Rlt_bool_false by lra. cbn. lra.
Qed.
Lemma rest_det_small rho Temp tol fact : 0 < rho -> 0 < Temp -> 0 < fact ->
  Rabs (jdet (jacobian (fun r t => t_P gasT r t 0) (fun r t => t_E gasT r t 0) rho (rho * Temp) 0 0 0 tol fact rho Temp (0, 0)))
  <= 2 * (rho * rho) * ((1 + 2 * Temp) * (1 + 2 * Temp)).
Proof.
  intros Hr HT Hf. pose proof (fd_pos tol fact rho Hf Hr) as H1. pose proof (fd_pos tol fact Temp Hf HT) as H2.
  rewrite rest_jac by lra. cbv zeta. set (hr := fd_delta tol fact rho) in *. set (hT := fd_delta tol fact Temp) in *.
  set (w := rho / (rho + hr)).
  destruct (ratio_abs1 hr ltac:(lra)) as [A1 _]. destruct (ratio_abs1 hT ltac:(lra)) as [A2 _].
  rewrite (Rabs_pos_eq hr) in A1 by lra. rewrite (Rabs_pos_eq hT) in A2 by lra.
  assert (Ww : 0 < w <= 1).
  { unfold w. split; [apply Rdiv_lt_0_compat; lra|]. apply (Rmult_le_reg_r (rho + hr)); [lra|]. unfold Rdiv. rewrite Rmult_assoc, Rinv_l by lra. lra. }
  assert (W2 : 1 - w = hr * / (rho + hr)) by (unfold w; field; lra).
  assert (W3 : rho * (1 - w) <= hr).
  { rewrite W2. assert (rho * / (rho + hr) <= 1) by (fold (rho / (rho + hr)); fold w; lra). nra. }
  rewrite !Rabs_mult. rewrite Rabs_Ropp, (Rabs_pos_eq rho) by lra. rewrite (Rabs_pos_eq hT) by lra.
  rewrite (Rabs_left1 (w ^ 2 - 1)) by nra. rewrite (Rabs_pos_eq ((rho * (1 + 2 * Temp) * w) ^ 2)) by apply pow2_ge_0.
  set (q1 := Rabs (ratio 1 hr)) in *. set (q2 := Rabs (ratio 1 hT)) in *.
  assert (Q1 : 0 <= q1) by apply Rabs_pos. assert (Q2 : 0 <= q2) by apply Rabs_pos.
  set (c := (1 + 2 * Temp) * (1 + 2 * Temp)). assert (Cp : 0 < c) by (unfold c; nra).
  replace ((rho * (1 + 2 * Temp) * w) ^ 2 * - (w ^ 2 - 1) * q1 * (rho * hT * q2)) with
    (rho * c * (w * w * (1 + w)) * (rho * (1 - w) * q1) * (rho * (hT * q2))) by (unfold c; ring).
  clearbody c w q1 q2 hr hT.
  assert (F1 : 0 <= rho * (1 - w) * q1 <= 1) by (split; [repeat apply Rmult_le_pos; lra|nra]).
  assert (F2 : 0 <= w * w * (1 + w) <= 2) by (split; [repeat apply Rmult_le_pos; lra|nra]).
  assert (F3 : 0 <= hT * q2 <= 1) by (split; [apply Rmult_le_pos; lra|lra]).
  replace (2 * (rho * rho) * c) with (rho * c * 2 * 1 * (rho * 1)) by ring.
  apply Rmult_le_compat; try lra; repeat apply Rmult_le_pos; try lra.
  - apply Rmult_le_compat; try lra; repeat apply Rmult_le_pos; try lra.
    apply Rmult_le_compat; try lra; repeat apply Rmult_le_pos; lra.
  - apply Rmult_le_compat_l; lra.
Qed.

(** The threshold 1e-16 on the determinant is absolute: gas at rest whose density is below
    about 7e-9 / (1 + 2T) in code units always counts as singular, so even when the
    guess is the exact solution every inversion of it is reported as failed. *)
Theorem C51_low_density_refuted : forall rho Temp tol mx,
  0 < rho -> 0 < Temp -> 0 < tol -> 2 * (rho * rho) * ((1 + 2 * Temp) * (1 + 2 * Temp)) < / 10000000000000000 ->
  let x := rest_setup rho (rho * Temp) (rho * Temp) in
  let out := call_classic gasT tol mx x Temp in
  classic_residual gasT x (x_rho x) Temp = (0, 0) /\ x_rho x = rho /\ fst out = false.
Proof.
  intros rho Temp tol mx Hr HT Ht Hs x out.
  destruct (rest_values rho (rho * Temp) (rho * Temp)) as (V1 & V2 & V3 & V4 & V5 & V6). fold x in V1, V2, V3, V4, V5, V6.
  assert (R0 : residual (fun r t => t_P gasT r t 0) (fun r t => t_E gasT r t 0) rho (rho * Temp) 0 0 0 rho Temp = (0, 0)).
  { rewrite residual_R. cbv zeta. cbn [t_P t_E gasT]. assert (rho * (1 + Temp) + rho * Temp <> 0) by nra. f_equal; field; split; lra. }
  split; [|split; [exact V6|]].
  { unfold classic_residual. rewrite V1, V2, V3, V4, V5, V6. exact R0. }
  unfold out, call_classic. rewrite V1, V2, V3, V4, V5, V6. clear x out V1 V2 V3 V4 V5 V6.
  set (P := fun r t => t_P gasT r t 0) in *. set (E := fun r t => t_E gasT r t 0) in *.
  set (s := mkIt rho Temp (residual P E rho (rho * Temp) 0 0 0 rho Temp) delta_fact_min 0 false).
  set (Q := fun s : It => it_rho s = rho /\ it_T s = Temp /\ it_res s = (0, 0) /\ 0 < it_fact s /\ it_conv s = false).
  assert (Qp : forall t, Q t -> Q (one_pass P E rho (rho * Temp) 0 0 0 tol t)).
  { intros t (T1 & T2 & T3 & T4 & T5).
    assert (Dt : Rabs (det_of P E rho (rho * Temp) 0 0 0 tol t) < / 10000000000000000).
    { unfold det_of. rewrite T1, T2, T3. eapply Rle_lt_trans; [|exact Hs]. apply rest_det_small; assumption. }
    rewrite (pass_singular _ _ _ _ _ _ _ _ _ Dt). unfold Q. cbn [it_rho it_T it_res it_fact it_conv].
    repeat split; try assumption. lra. }
  assert (Qs : Q s). { unfold Q. cbn [it_rho it_T it_res it_fact it_conv s]. repeat split; [exact R0|]. unfold delta_fact_min; cbn. lra. }
  destruct (loop_pass P E rho (rho * Temp) 0 0 0 tol mx (Z.to_nat mx) s eq_refl) as (k & s1 & E1 & _ & _ & El & _).
  change (it_conv (loop P E rho (rho * Temp) 0 0 0 tol mx (Z.to_nat mx) s) = false). rewrite El.
  assert (Q1 : Q (one_pass P E rho (rho * Temp) 0 0 0 tol s1)) by (apply Qp; rewrite E1; apply iter_inv; assumption).
  apply Q1.
Qed.
Print Assumptions C51_low_density_refuted.
Example C51_low_density_nonvacuous : 2 * (/ 1000000000 * / 1000000000) * ((1 + 2 * 1) * (1 + 2 * 1)) < / 10000000000000000.
Proof. lra. Qed.
(** ... whereas at unit density the same exact guess is accepted in one pass *)
Example C51_exact_nonvacuous : forall mx,
  let out := call_classic gasT (/ 1000) mx (rest_setup 1 1 1) 1 in fst out = true /\ it_n (snd out) = 1%Z /\ it_rho (snd out) = 1 /\ it_T (snd out) = 1.
Proof.
  intros mx out. destruct (rest_values 1 1 1) as (V1 & V2 & V3 & V4 & V5 & V6).
  unfold out, call_classic. rewrite V1, V2, V3, V4, V5, V6.
  set (P := fun r t => t_P gasT r t 0) in *. set (E := fun r t => t_E gasT r t 0) in *.
  assert (R0 : residual P E 1 1 0 0 0 1 1 = (0, 0)).
  { rewrite residual_R. cbv zeta. unfold P, E. cbn [t_P t_E gasT]. f_equal; field. }
  destruct (C51_exact_guess P E 1 1 0 0 0 (/ 1000) 1 1 mx ltac:(lra) ltac:(lra) ltac:(lra) R0) as (A & B & C).
  assert (Hf : fd_delta (/ 1000) (/ 1000000) 1 = / 1000000).
  { unfold fd_delta. cbn [nlt nmul nabs Num_R]. rewrite Rmult_1_r, Rabs_pos_eq by lra.
    rewrite Rlt_bool_false; [reflexivity|]. unfold delta_min. rewrite make_positive_R. rewrite EPS_R. unfold delta_fact_min. cbn [nmul nlit Num_R]. apply Rmax_lub; lra. }
  destruct C as [C1 C2]; [|split; [exact C1|split; [exact C2|split; assumption]]].
  pose proof (rest_jac 1 1 (/ 1000) (/ 1000000) ltac:(lra)) as J. cbv zeta in J. rewrite Hf in J. specialize (J ltac:(lra)).
  fold P E in J. rewrite Rmult_1_l in J. rewrite J.
  destruct (ratio_abs1 (/ 1000000) ltac:(lra)) as [_ A1].
  assert (Sm : Rabs (SMALL : R) <= Rabs (/ 1000000)).
  { rewrite !Rabs_pos_eq by (pose proof SMALL_pos; lra). rewrite SMALL_R.
    assert (K : bpow radix2 (-1022) <= bpow radix2 (-30)) by (apply bpow_le; lia).
    replace (bpow radix2 (-30)) with (/ 1073741824) in K by reflexivity. lra. }
  specialize (A1 Sm). rewrite !Rabs_mult. rewrite !(Rabs_pos_eq (/ 1000000)) in * by lra. set (q := Rabs (ratio 1 (/ 1000000))) in *.
  replace (Rabs ((1 / (1 + / 1000000)) ^ 2 - 1)) with (1 - (1 / (1 + / 1000000)) ^ 2) by (rewrite Rabs_left by lra; ring).
  rewrite Rabs_pos_eq by apply pow2_ge_0. rewrite Rabs_Ropp, Rabs_R1. nra.
Qed.

(** The solver's residual is built without the electron fraction (lambda = 0) while
    Finalize uses it.  For an equation of state whose energy depends on Ye the zero the
    solver converges to is not a preimage: the energy written is off by the factor 1 + Ye. *)
Definition gasY : TEOS := mkTEOS (fun rho T _ => rho * T) (fun _ T y => T * (1 + y)) (fun rho T _ => 2 * rho * T).
Theorem C51_ye_refuted : forall rho u ye Temp, 0 < rho -> 0 < u -> 0 < ye ->
  let C := p2c true rho zero3 zero3 u ye u 2 eta4 delta zero3 1 1 in
  let x := setup_classic false true flatC C zero3 0 in
  x_ye x = ye /\
  (classic_residual gasY x rho Temp = (0, 0) <-> rho * t_E gasY rho Temp 0 = u) /\
  (classic_residual gasY x rho Temp = (0, 0) ->
   p_eng (finalize_classic false true gasY flatC C x rho Temp) = (1 + ye) * u /\
   p_eng (finalize_classic false true gasY flatC C x rho Temp) <> u).
Proof.
  intros rho u ye Temp Hr Hu Hy C x.
  assert (V1 : x_D x = rho). { unfold x, C, setup_classic, p2c. cbn [x_D cD cg_gdet flatC]. rewrite lorentz_rest. field. }
  assert (V2 : x_tau x = u). { unfold x, C, setup_classic, p2c. cbn [x_tau ctau cg_gdet flatC]. cbv zeta. rewrite lorentz_rest. unfold zero3, sum3. field. }
  assert (V4 : x_Ssq x = 0).
  { unfold x, C, setup_classic, p2c. cbn [x_Ssq cS cg_gdet cg_gcon flatC]. cbv zeta. rewrite lorentz_rest. unfold zero3, sum3, sum4, delta. cbn [Nat.eqb]. field. }
  assert (Vy : x_ye x = ye). { unfold x, C, setup_classic, p2c. cbn [x_ye cye cD]. rewrite lorentz_rest. field. lra. }
  split; [exact Vy|].
  assert (I : classic_residual gasY x rho Temp = (0, 0) <-> rho * t_E gasY rho Temp 0 = u).
  { unfold classic_residual. rewrite residual_R. rewrite V1, V2, V4. change (x_Bsq x) with 0. change (x_BdotS x) with 0. cbv zeta. cbn [t_P t_E gasY].
    replace (rho / rho) with 1 by (field; lra). assert (Z : forall a, 0 / a = 0) by (intros; unfold Rdiv; ring). rewrite !Rmult_0_r, !Z.
    split.
    - intros K. assert (K2 := f_equal snd K). cbn [snd] in K2. lra.
    - intros K. f_equal; [ring|]. lra. }
  split; [exact I|]. intros K. apply I in K.
  assert (E1 : p_eng (finalize_classic false true gasY flatC C x rho Temp) = (1 + ye) * u).
  { change (rho * t_E gasY rho Temp (x_ye x) = (1 + ye) * u). rewrite Vy. cbn [t_E gasY] in *. rewrite <- K. ring. }
  split; [exact E1|]. rewrite E1. nra.
Qed.
Print Assumptions C51_ye_refuted.

(** The energy equation is the Valencia one: with USE_VALENCIA off the conserved energy has
    another meaning, and already for gas at rest in flat space the true state misses the
    residual's zero by -2u. *)
Theorem C51_covariant_refuted : forall rho Temp, 0 < rho -> 0 < Temp ->
  let u := rho * Temp in
  let C := p2c false rho zero3 zero3 u (1/2) u 2 eta4 delta zero3 1 1 in
  let x := setup_classic false false flatC C zero3 (1/2) in
  snd (classic_residual gasT x rho Temp) = - (2 * u) /\ classic_residual gasT x rho Temp <> (0, 0).
Proof.
  intros rho Temp Hr HT u C x.
  assert (V1 : x_D x = rho). { unfold x, C, setup_classic, p2c. cbn [x_D cD cg_gdet flatC]. rewrite lorentz_rest. field. }
  assert (V2 : x_tau x = - u).
  { unfold x, C, setup_classic, p2c. cbn [x_tau ctau cg_gdet flatC]. cbv zeta. rewrite lorentz_rest. unfold zero3, sum3, sum4, eta4. cbn [Nat.eqb]. field. }
  assert (U0 : 0 < u) by (apply Rmult_lt_0_compat; assumption).
  assert (E1 : snd (classic_residual gasT x rho Temp) = - (2 * u)).
  { unfold classic_residual. rewrite residual_R. cbv zeta. cbn [snd]. rewrite V1, V2. change (x_Bsq x) with 0. change (x_BdotS x) with 0. cbn [t_P t_E gasT].
    replace (rho / rho) with 1 by (field; lra). assert (Z : forall a, 0 / a = 0) by (intros; unfold Rdiv; ring). rewrite !Rmult_0_r, !Z. unfold u. ring. }
  split; [exact E1|]. intros K. rewrite K in E1. cbn [snd] in E1. lra.
Qed.
Print Assumptions C51_covariant_refuted.

(** The density guess for a state whose velocity is still the stored one, where it exists
    ((W v)^2 < 1): rho W sqrt(2 - W^2), positive, never above rho, and exact only at rest. *)
Theorem C51_guess : forall alpha beta g ginv gamma gi sg sgg,
  adm_consistent alpha beta g ginv gamma gi sg sgg ->
  forall (mhd hasye : bool) rho vp B u ye p gam1 ye0, 0 < rho -> dot3 gamma vp vp < 1 ->
  let W := GetLorentzFactor vp gamma in
  let C := p2c true rho vp B u ye p gam1 g gi beta alpha sg in
  let x := setup_classic mhd hasye (mkCGeom gamma gi beta sg alpha) C vp ye0 in
  x_rho x = rho * (W * sqrt (2 - W * W)) /\ 0 < x_rho x <= rho /\
  (x_rho x = rho -> forall i, (i < 3)%nat -> vp i = 0).
Proof.
  intros alpha beta g ginv gamma gi sg sgg H mhd hasye rho vp B u ye p gam1 ye0 Hr Hv W C x.
  pose proof (proj1 (adm_det3 _ _ _ _ _ _ _ _ H)) as sp.
  pose proof (lorentz_ge1 _ _ _ _ vp (adm_tpo _ _ _ _ _ _ _ _ H)) as W1. fold W in W1.
  pose proof (W_sq _ _ _ _ _ _ _ _ H vp) as Ws. fold W in Ws.
  pose proof (pd_nonneg _ (adm_gamma_pd _ _ _ _ _ _ _ _ H) vp) as V0. set (vv := dot3 gamma vp vp) in *.
  assert (ED : x_D x = rho * W). { unfold x. rewrite (set_D _ _ _ _ _ _ _ _ H). unfold C. rewrite (C_D _ _ _ _ _ _ _ _ H). fold W. field. lra. }
  assert (S1 : 0 < sqrt (1 - vv)) by (apply sqrt_lt_R0; lra).
  assert (Ex : x_rho x = rho * (W * sqrt (2 - W * W))).
  { change (x_rho x) with (initial_rho (x_D x) vv). rewrite ED. unfold initial_rho. cbn [nsqrt ndiv nsub Num_R]. replace (nlit 1 1 : R) with 1 by (cbn; field).
    replace (2 - W * W) with (1 - vv) by lra.
    replace (1 / (1 - vv)) with (/ (1 - vv)) by (field; lra). rewrite sqrt_inv. field. lra. }
  assert (Wr : (W * sqrt (2 - W * W)) * (W * sqrt (2 - W * W)) = 1 - vv * vv).
  { replace ((W * sqrt (2 - W * W)) * (W * sqrt (2 - W * W))) with (W * W * (sqrt (2 - W * W) * sqrt (2 - W * W))) by ring.
    rewrite sqrt_sqrt by lra. rewrite Ws. ring. }
  assert (Wp : 0 < W * sqrt (2 - W * W)). { apply Rmult_lt_0_compat; [lra|]. replace (2 - W * W) with (1 - vv) by lra. exact S1. }
  split; [exact Ex|]. rewrite Ex. set (k := W * sqrt (2 - W * W)) in *. split; [split; nra|].
  intros K. assert (k = 1) by (apply Rmult_eq_reg_l with rho; lra). assert (vv * vv = 0) by nra.
  apply (pd_zero gamma (adm_gamma_pd _ _ _ _ _ _ _ _ H) vp). fold vv. nra.
Qed.
Print Assumptions C51_guess.
Example C51_guess_concrete : dot3 delta (v3 (1/2) 0 0) (v3 (1/2) 0 0) < 1.
Proof. unfold dot3, sum3, delta, v3. cbn. lra. Qed.
(** the hypotheses of C51_round_trip and C51_inverse: a moving magnetised gas *)
Example C51_nonvacuous :
  let B := v3 1 2 0 in let vp := v3 (3/4) 0 0 in
  ye_blind gasT /\ 0 < 1 + 1/2 + 1/2 /\ 1/2 = t_P gasT 1 (1/2) 0 /\ 1/2 = 1 * t_E gasT 1 (1/2) 0 /\
  let C := p2c true 1 vp B (1/2) (1/2) (1/2) 2 eta4 delta zero3 1 1 in
  0 < cD C /\ classic_residual gasT (setup_classic true true flatC C vp 0) 1 (1/2) = (0, 0).
Proof.
  intros B vp. split; [exact gasT_blind|]. split; [lra|]. split; [cbn; field|]. split; [cbn; field|]. intros C. split.
  - unfold C. rewrite (C_D _ _ _ _ _ _ _ _ eta4_consistent). pose proof (lorentz_ge1 _ _ _ _ vp (adm_tpo _ _ _ _ _ _ _ _ eta4_consistent)). lra.
  - apply (C51_round_trip _ _ _ _ _ _ _ _ eta4_consistent true true gasT 1 (1/2) vp B (1/2) (1/2) (1/2) 2 vp 0 (or_introl gasT_blind)); try lra; try (cbn; field); left; reflexivity.
Qed.
