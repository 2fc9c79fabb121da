From Coq Require Import Reals Arith Lia Lra Psatz.
From Verif.Spec Require Import Tensor GeomSpec Relativity.
From Verif.Model Require Import Num Robust Geometry Relativity.
From Verif.Proofs Require Import NumR TensorTac GeomBase RelProofs.
Local Open Scope R_scope.

Section L.
Variables (alpha : R) (beta : vec) (gamma g : mat) (v : vec).
Hypothesis H : three_plus_one alpha beta gamma g.
Let ap := tpo_lapse _ _ _ _ H.
Let Gs := tpo_gsym _ _ _ _ H.
Let Gp := tpo_gpd _ _ _ _ H.

Lemma lorentz_sq : GetLorentzFactor v gamma * GetLorentzFactor v gamma = 1 + dot3 gamma v v.
Proof.
  pose proof (pd_nonneg gamma Gp v). unfold GetLorentzFactor. rewrite sqrt_sqrt; [reflexivity|].
  change (0 <= 1 + dot3 gamma v v). lra.
Qed.
Lemma lorentz_ge1 : 1 <= GetLorentzFactor v gamma.
Proof.
  pose proof (pd_nonneg gamma Gp v). unfold GetLorentzFactor. rewrite <- sqrt_1 at 1. apply sqrt_le_1_alt.
  change (1 <= 1 + dot3 gamma v v). lra.
Qed.

Let u := GetFourVelocity v gamma alpha beta.
Let W := GetLorentzFactor v gamma.

Lemma u0_val : u 0%nat = W / alpha.
Proof.
  unfold u, GetFourVelocity. rewrite Rabs_pos_eq by lra. rewrite gratio_nz by lra. reflexivity.
Qed.
Lemma hat_u i : (i < 3)%nat -> hat beta u i = v i.
Proof. intros Hi. unfold hat, u, GetFourVelocity. ring. Qed.

Lemma u_norm : dot4 g u u = -1.
Proof.
  rewrite (dot4_split _ _ _ _ H). rewrite (dot3_ext gamma _ v _ v) by (intros i Hi; apply hat_u, Hi).
  rewrite u0_val. pose proof lorentz_sq as L. fold W in L.
  replace (- (alpha * alpha) * (W / alpha * (W / alpha))) with (- (W * W)) by (field; lra). lra.
Qed.

Lemma spatial_dot a b : dot4 g (spatial4 a) b = dot3 gamma a (hat beta b).
Proof.
  rewrite (dot4_split _ _ _ _ H). cbn [spatial4].
  rewrite (dot3_ext gamma (hat beta (spatial4 a)) a (hat beta b) (hat beta b)).
  - ring.
  - intros i Hi. unfold hat. cbn. ring.
  - intros i Hi. reflexivity.
Qed.
Lemma spatial_u a : dot4 g (spatial4 a) u = dot3 gamma a v.
Proof. rewrite spatial_dot. apply dot3_ext; intros i Hi; [reflexivity|apply hat_u, Hi]. Qed.
Lemma spatial_spatial a b : dot4 g (spatial4 a) (spatial4 b) = dot3 gamma a b.
Proof. rewrite spatial_dot. apply dot3_ext; intros i Hi; [reflexivity|]. unfold hat; cbn; ring. Qed.

Variable B : vec.
Let b := comoving_field g W u B.

Lemma b_eq mu : b mu = / W * spatial4 B mu + (dot3 gamma B v / W) * u mu.
Proof. unfold b, comoving_field. rewrite spatial_u. unfold Rdiv. ring. Qed.
Lemma b_u : dot4 g b u = 0.
Proof.
  rewrite (dot4_ext g b (fun mu => / W * spatial4 B mu + (dot3 gamma B v / W) * u mu) u u); [|intros mu _; apply b_eq|intros mu _; reflexivity].
  rewrite dot4_lin, spatial_u, u_norm. unfold Rdiv. ring.
Qed.
Lemma b_b : dot4 g b b = dot3 gamma B B / (W * W) + (dot3 gamma B v / W) * (dot3 gamma B v / W).
Proof.
  assert (1 <= W) by apply lorentz_ge1.
  rewrite (dot4_ext g b b b (fun mu => / W * spatial4 B mu + (dot3 gamma B v / W) * u mu)); [|intros mu _; reflexivity|intros mu _; apply b_eq].
  rewrite dot4_linr, b_u, Rmult_0_r, Rplus_0_r.
  rewrite (dot4_ext g b (fun mu => / W * spatial4 B mu + (dot3 gamma B v / W) * u mu) (spatial4 B) (spatial4 B)); [|intros mu _; apply b_eq|intros mu _; reflexivity].
  rewrite dot4_lin, spatial_spatial, (dot4_sym g u _ (tpo_sym _ _ _ _ H)), spatial_u. field. lra.
Qed.

Lemma bsq_val : GetMagneticFieldSquared gamma v B W = dot4 g b b.
Proof.
  assert (1 <= W) by apply lorentz_ge1. rewrite b_b.
  unfold GetMagneticFieldSquared.
  rewrite (gratio_nz _ (W * W)) by (apply Rmult_integral_contrapositive_currified; lra).
  assert (E : sum3 (fun m => sum3 (fun n => gamma m n * gratio (v m) W * B n)) = dot3 gamma B v / W).
  { rewrite (dot3_sym gamma B v Gs). unfold dot3, sum3. rewrite !gratio_nz by lra. field. lra. }
  rewrite E. reflexivity.
Qed.
End L.
