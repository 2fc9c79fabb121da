(** C29: comoving moments to conserved moments and back. *)
From Coq Require Import Reals Lra Lia Arith Bool Psatz.
From Flocq Require Import Core.
From Verif.Spec Require Import Tensor GeomSpec Relativity RadSpec.
From Verif.Model Require Import Geometry LinearAlgebra RadClosure.
From Verif.Proofs Require Import TensorTac LinearAlgebraProofs GeomBase AdmProofs RelProofs RadProofs FlatWitness.
Local Open Scope R_scope.

Section Transform.
Variables (alpha : R) (beta : vec) (g ginv gamma gi : mat) (sg sgg : R).
Hypothesis A : adm_consistent alpha beta g ginv gamma gi sg sgg.
Variables (v : vec) (W : R).
Hypothesis HW : lorentz_of gamma v W.
Hypothesis Hv : dot3 gamma v v <= 9999 / 10000.
Variable rs : Strategy.
Let c := mkClosure v gamma alpha rs.
Let v2 := dot3 gamma v v.
Variable Pi : mat.
Let p := vvTilPi c Pi.
Lemma tW : cW c = W. Proof. exact (W_val alpha gamma v W HW Hv rs). Qed.
Lemma tW2 : cW2 c = W * W. Proof. exact (W2_val alpha gamma v W HW Hv rs). Qed.
Lemma tv2 : v2 = 1 - 1 / (W * W). Proof. exact (v2_W gamma v W HW). Qed.
Lemma tvv : sum3 (fun i => v i * cov_v c i) = v2. Proof. exact (v_cov_v alpha gamma v rs). Qed.
Lemma tvp : sum3 (fun i => v i * cov_vTilPi c Pi i) = p. Proof. exact (v_cov_vPi _ _ _ _ _ _ _ _ A v rs Pi). Qed.
Lemma tWp : 0 < W. Proof. destruct HW; assumption. Qed.
Lemma lam_val : c2p_lam c Pi = (2 * (W * W) + 1) / 3 + (2 * (W * W) - 3) * (W * W) * p.
Proof. unfold c2p_lam. rewrite tW2. reflexivity. Qed.
(** v . F for the conserved flux *)
Lemma vF_val J (H : vec) eq : sum3 (fun i => v i * snd (Prim2Con c eq J H Pi) i) =
  ((4 * (W * W) - 4) / 3 + p) * J + (2 * W - 1 / W) * sum3 (fun i => v i * H i).
Proof.
  unfold Prim2Con; cbn [snd]. rewrite tW, tW2. change (con_v c) with v. set (z := sum3 (fun i => v i * H i)).
  transitivity (4 * (W * W) / 3 * J * sum3 (fun i => v i * cov_v c i) + W * z * sum3 (fun i => v i * cov_v c i) + W * z + J * sum3 (fun i => v i * cov_vTilPi c Pi i)).
  - unfold z, sum3. field.
  - rewrite tvv, tvp, tv2. pose proof tWp. field. lra.
Qed.
Lemma p2c_energy J (H : vec) : fst (Prim2Con c energy_conserve J H Pi) = ((4 * (W * W) - 1) / 3 + W * W * p) * J + 2 * W * sum3 (fun i => v i * H i).
Proof. unfold Prim2Con; cbn [fst]. rewrite tW, tW2. change (con_v c) with v. fold p. field. Qed.
Lemma gratio_ne a b : b <> 0 -> gratio a b = a / b.
Proof. intros N. unfold gratio. rewrite Req_bool_false by exact N. reflexivity. Qed.

(** exact inverse: raw formulas *)
Lemma raw_inverse eq J (H : vec) : c2p_lam c Pi <> 0 ->
  c2p_energy c eq (fst (Prim2Con c eq J H Pi)) (snd (Prim2Con c eq J H Pi)) = ((4 * (W * W) - 1) / 3 + W * W * p) * J + 2 * W * sum3 (fun i => v i * H i) ->
  fst (c2p_raw c eq (fst (Prim2Con c eq J H Pi)) (snd (Prim2Con c eq J H Pi)) Pi) = J /\
  forall i, (i < 3)%nat -> snd (c2p_raw c eq (fst (Prim2Con c eq J H Pi)) (snd (Prim2Con c eq J H Pi)) Pi) i = H i.
Proof.
  intros L E0. pose proof tWp as Wp. unfold c2p_raw. rewrite E0. cbn [fst snd]. change (con_v c) with v. rewrite vF_val, tW2. fold p.
  set (z := sum3 (fun i => v i * H i)). rewrite !gratio_ne by exact L.
  assert (K1 : ((2 * (W * W) - 1) * (((4 * (W * W) - 1) / 3 + W * W * p) * J + 2 * W * z) - 2 * (W * W) * (((4 * (W * W) - 4) / 3 + p) * J + (2 * W - 1 / W) * z)) / c2p_lam c Pi = J).
  { rewrite lam_val in *. set (l := _ + _) in L |- *. replace (_ - _) with (l * J); [field; exact L|]. unfold l. field. lra. }
  rewrite K1. split; [reflexivity|]. intros i Hi. cbn [snd Prim2Con].
  assert (K2 : W * W / c2p_lam c Pi * ((4 * (W * W) / 3 - p) * (((4 * (W * W) - 1) / 3 + W * W * p) * J + 2 * W * z)
      - ((4 * (W * W) + 1) / 3 - W * W * p) * (((4 * (W * W) - 4) / 3 + p) * J + (2 * W - 1 / W) * z)) = 4 * (W * W) / 3 * J + W * z).
  { rewrite lam_val in *. set (l := _ + _) in L |- *.
    replace (_ - _) with (l * (4 / 3 * J + z / W)); [field; split; [lra|exact L]|]. unfold l. field. lra. }
  rewrite K2, tW, tW2. change (con_v c) with v. fold z. field. lra.
Qed.
Lemma raw_inverse2 E (F : vec) : c2p_lam c Pi <> 0 ->
  let r := c2p_raw c energy_conserve E F Pi in
  fst (Prim2Con c energy_conserve (fst r) (snd r) Pi) = E /\ forall i, (i < 3)%nat -> snd (Prim2Con c energy_conserve (fst r) (snd r) Pi) i = F i.
Proof.
  intros L r. pose proof tWp as Wp. pose proof tv2 as V2.
  set (y := sum3 (fun i => v i * F i)).
  set (l := c2p_lam c Pi) in *.
  set (J := fst r). assert (JE : J = ((2 * (W * W) - 1) * E - 2 * (W * W) * y) / l).
  { unfold J, r, c2p_raw. cbn [fst]. rewrite gratio_ne by exact L. rewrite tW2. reflexivity. }
  set (a := (W * W) / l * ((4 * (W * W) / 3 - p) * E - ((4 * (W * W) + 1) / 3 - W * W * p) * y)).
  assert (HE : forall i, snd r i = (F i - J * cov_vTilPi c Pi i - cov_v c i * a) / W).
  { intros i. unfold J, r, c2p_raw. cbn [fst snd]. rewrite tW, tW2. fold p. fold l. rewrite !gratio_ne by exact L. reflexivity. }
  assert (lE : l = (2 * (W * W) + 1) / 3 + (2 * (W * W) - 3) * (W * W) * p) by exact lam_val.
  assert (zE : sum3 (fun i => v i * snd r i) = (y - J * p - v2 * a) / W).
  { unfold sum3. rewrite !HE. rewrite <- tvp, <- tvv. unfold y, sum3. field. lra. }
  set (z := sum3 (fun i => v i * snd r i)) in *.
  assert (zE2 : z = (a - 4 * (W * W) / 3 * J) / W).
  { rewrite zE. apply (Rmult_eq_reg_r (W * l)); [|apply Rmult_integral_contrapositive; split; [lra|exact L]].
    replace ((y - J * p - v2 * a) / W * (W * l)) with (l * y - (l * J) * p - v2 * (l * a)) by (field; lra).
    replace ((a - 4 * (W * W) / 3 * J) / W * (W * l)) with (l * a - 4 * (W * W) / 3 * (l * J)) by (field; lra).
    assert (lJ : l * J = (2 * (W * W) - 1) * E - 2 * (W * W) * y) by (rewrite JE; field; exact L).
    assert (la : l * a = (W * W) * ((4 * (W * W) / 3 - p) * E - ((4 * (W * W) + 1) / 3 - W * W * p) * y)) by (unfold a; field; exact L).
    rewrite lJ, la, lE, V2. field. lra. }
  assert (zE3 : 2 * W * z = E - ((4 * (W * W) - 1) / 3 + W * W * p) * J).
  { rewrite zE2. apply (Rmult_eq_reg_r l); [|exact L].
    replace (2 * W * ((a - 4 * (W * W) / 3 * J) / W) * l) with (2 * (l * a) - 8 * (W * W) / 3 * (l * J)) by (field; lra).
    replace ((E - ((4 * (W * W) - 1) / 3 + W * W * p) * J) * l) with (E * l - ((4 * (W * W) - 1) / 3 + W * W * p) * (l * J)) by ring.
    assert (lJ : l * J = (2 * (W * W) - 1) * E - 2 * (W * W) * y) by (rewrite JE; field; exact L).
    assert (la : l * a = (W * W) * ((4 * (W * W) / 3 - p) * E - ((4 * (W * W) + 1) / 3 - W * W * p) * y)) by (unfold a; field; exact L).
    rewrite lJ, la, lE. field. }
  split.
  - rewrite p2c_energy. fold z. rewrite zE3. fold J. ring.
  - intros i Hi. unfold Prim2Con; cbn [snd]. rewrite tW, tW2. change (con_v c) with v. fold z. rewrite HE, zE2. fold J. field. lra.
Qed.
End Transform.

(** Every metric, fluid velocity (below the cap v^2 = 0.9999), comoving moments and closure
    tensor whose 2x2 system is not singular: conserved moments and back are the identity. *)
Theorem C29_prim_con_prim : forall alpha beta g ginv gamma gi sg sgg v W rs Pi J H,
  adm_consistent alpha beta g ginv gamma gi sg sgg -> lorentz_of gamma v W -> dot3 gamma v v <= 9999 / 10000 ->
  let c := mkClosure v gamma alpha rs in c2p_lam c Pi <> 0 ->
  let '(E, F) := Prim2Con c energy_conserve J H Pi in
  let '(J', H') := c2p_raw c energy_conserve E F Pi in
  J' = J /\ forall i, (i < 3)%nat -> H' i = H i.
Proof.
  intros alpha beta g ginv gamma gi sg sgg v W rs Pi J H A HW Hv c L.
  destruct (Prim2Con c energy_conserve J H Pi) as [E F] eqn:P. destruct (c2p_raw c energy_conserve E F Pi) as [J' H'] eqn:R.
  pose proof (raw_inverse _ _ _ _ _ _ _ _ A v W HW Hv rs Pi energy_conserve J H L) as K. fold c in K. rewrite P in K. cbn [fst snd] in K. rewrite R in K. cbn [fst snd] in K.
  apply K. cbn [c2p_energy]. pose proof (p2c_energy alpha gamma v W HW Hv rs Pi J H) as Q. fold c in Q. rewrite P in Q. exact Q.
Qed.
Print Assumptions C29_prim_con_prim.

(** and the other way round, for every pair of conserved moments *)
Theorem C29_con_prim_con : forall alpha beta g ginv gamma gi sg sgg v W rs Pi E F,
  adm_consistent alpha beta g ginv gamma gi sg sgg -> lorentz_of gamma v W -> dot3 gamma v v <= 9999 / 10000 ->
  let c := mkClosure v gamma alpha rs in c2p_lam c Pi <> 0 ->
  let '(J, H) := c2p_raw c energy_conserve E F Pi in
  let '(E', F') := Prim2Con c energy_conserve J H Pi in
  E' = E /\ forall i, (i < 3)%nat -> F' i = F i.
Proof.
  intros alpha beta g ginv gamma gi sg sgg v W rs Pi E F A HW Hv c L.
  pose proof (raw_inverse2 _ _ _ _ _ _ _ _ A v W HW Hv rs Pi E F L) as K. fold c in K.
  destruct (c2p_raw c energy_conserve E F Pi) as [J H]. cbn [fst snd] in K. destruct (Prim2Con c energy_conserve J H Pi) as [E' F']. exact K.
Qed.
Print Assumptions C29_con_prim_con.

(** *** with the checks: a physical state (positive energy, flux factor below one) is
    returned unchanged with status success.  The flux factor is stated four-dimensionally
    through H_i = gamma_ij h^j:  h.h - (v.h)^2 < J^2. *)
Lemma flux_sq_val : forall alpha beta g ginv gamma gi sg sgg v W rs (H h : vec),
  adm_consistent alpha beta g ginv gamma gi sg sgg -> lorentz_of gamma v W -> dot3 gamma v v <= 9999 / 10000 ->
  (forall i, (i < 3)%nat -> H i = lower3 gamma h i) ->
  flux_sq (mkClosure v gamma alpha rs) H = dot3 gamma h h - dot3 gamma v h * dot3 gamma v h.
Proof.
  intros alpha beta g ginv gamma gi sg sgg v W rs H h A HW Hv HH. unfold flux_sq.
  set (c := mkClosure v gamma alpha rs).
  assert (R1 : contractCov3Vectors (con_gamma c) H H = sum3 (fun i => lower3 gamma h i * sum3 (fun j => lower3 gamma h j * gi i j))).
  { unfold contractCov3Vectors, sum3. rewrite !(con_gamma_c _ _ _ _ _ _ _ _ A v rs) by lia. rewrite !HH by lia. ring. }
  assert (R2 : contractConCov3Vectors (con_v c) H = sum3 (fun i => v i * lower3 gamma h i)).
  { unfold contractConCov3Vectors, sum3. rewrite !HH by lia. reflexivity. }
  rewrite R1, R2, low_pair. f_equal. unfold sum3 at 1. rewrite !(raise_low _ _ _ _ _ _ _ _ A h) by lia.
  transitivity (sum3 (fun i => h i * lower3 gamma h i)); [unfold sum3; ring|apply low_pair].
Qed.
Lemma flux_sq_nonneg : forall alpha beta g ginv gamma gi sg sgg v W rs (H h : vec),
  adm_consistent alpha beta g ginv gamma gi sg sgg -> lorentz_of gamma v W -> dot3 gamma v v <= 9999 / 10000 ->
  (forall i, (i < 3)%nat -> H i = lower3 gamma h i) -> 0 <= flux_sq (mkClosure v gamma alpha rs) H.
Proof.
  intros alpha beta g ginv gamma gi sg sgg v W rs H h A HW Hv HH. rewrite (flux_sq_val _ _ _ _ _ _ _ _ v W rs H h A HW Hv HH).
  pose proof (adm_gamma_sym _ _ _ _ _ _ _ _ A) as Gs. pose proof (adm_gamma_pd _ _ _ _ _ _ _ _ A) as Gp.
  pose proof (cauchy_schwarz gamma Gs Gp v h) as CS. pose proof (pd_nonneg gamma Gp h). nra.
Qed.
Theorem C29_success : forall alpha beta g ginv gamma gi sg sgg v W rs Pi J (H h : vec),
  adm_consistent alpha beta g ginv gamma gi sg sgg -> lorentz_of gamma v W -> dot3 gamma v v <= 9999 / 10000 ->
  let c := mkClosure v gamma alpha rs in c2p_lam c Pi <> 0 ->
  (forall i, (i < 3)%nat -> H i = lower3 gamma h i) -> 0 < J -> dot3 gamma h h - dot3 gamma v h * dot3 gamma v h < J * J ->
  let '(E, F) := Prim2Con c energy_conserve J H Pi in
  let '(J', H', st) := Con2Prim c energy_conserve E F Pi in
  st = Csuccess /\ J' = J /\ forall i, (i < 3)%nat -> H' i = H i.
Proof.
  intros alpha beta g ginv gamma gi sg sgg v W rs Pi J H h A HW Hv c L HH Jp X.
  pose proof (C29_prim_con_prim _ _ _ _ _ _ _ _ v W rs Pi J H A HW Hv L) as K. fold c in K.
  destruct (Prim2Con c energy_conserve J H Pi) as [E F]. unfold Con2Prim. destruct (c2p_raw c energy_conserve E F Pi) as [J' H']. destruct K as [-> KH].
  assert (HH' : forall i, (i < 3)%nat -> H' i = lower3 gamma h i) by (intros i Hi; rewrite KH, HH by exact Hi; reflexivity).
  pose proof (flux_sq_val _ _ _ _ _ _ _ _ v W rs H' h A HW Hv HH') as FV. pose proof (flux_sq_nonneg _ _ _ _ _ _ _ _ v W rs H' h A HW Hv HH') as FN.
  fold c in FV, FN. unfold xi_defined. rewrite (Rle_bool_true 0 _ FN), (Req_bool_false J 0) by lra. cbn [negb andb].
  rewrite (Rlt_bool_false J 0) by lra. cbn [orb].
  rewrite (Rle_bool_false 1 (flux_xi c J H')).
  { split; [reflexivity|]. split; [reflexivity|exact KH]. }
  unfold flux_xi. apply (Rmult_lt_reg_r J); [exact Jp|]. unfold Rdiv. rewrite Rmult_assoc, Rinv_l, Rmult_1_r, Rmult_1_l by lra.
  rewrite <- (sqrt_square J) by lra. apply sqrt_lt_1; [exact FN|nra|]. rewrite FV. exact X.
Qed.
Print Assumptions C29_success.

(** the conserved system is never singular without anisotropic pressure... *)
Theorem C29_eddington_regular : forall alpha gamma v rs Pi, (forall i j, (i < 3)%nat -> (j < 3)%nat -> Pi i j = 0) ->
  0 < c2p_lam (mkClosure v gamma alpha rs) Pi.
Proof.
  intros alpha gamma v rs Pi Z. set (c := mkClosure v gamma alpha rs).
  assert (p0 : vvTilPi c Pi = 0) by (unfold vvTilPi, con_vTilPi, sum3; rewrite !Z by lia; ring).
  unfold c2p_lam. rewrite p0. assert (0 <= cW2 c) by (change (cW2 c) with (cW c * cW c); nra). lra.
Qed.
Print Assumptions C29_eddington_regular.

(** ... nor with the M1 tensor when the fluid is slow enough, W^2 <= 2.3 (v < 0.75): for every
    flux, so that there the transforms of C29_prim_con_prim are inverse without conditions. *)
Lemma m1_vv : forall alpha beta g ginv gamma gi sg sgg v W rs J (H h : vec),
  adm_consistent alpha beta g ginv gamma gi sg sgg -> lorentz_of gamma v W -> dot3 gamma v v <= 9999 / 10000 ->
  (forall i, (i < 3)%nat -> H i = lower3 gamma h i) ->
  let c := mkClosure v gamma alpha rs in
  exists s, 0 <= s <= W * W - 1 /\ vvTilPi c (GetConTilPiFromPrim c J H) = athin_of (m1_xi c J H) * (s - (W * W - 1) / 3) /\
    m1_flux c H = sqrt (dot3 gamma h h - dot3 gamma v h * dot3 gamma v h) /\
    (0 < m1_flux c H -> s = (dot3 gamma v h / m1_flux c H) * (dot3 gamma v h / m1_flux c H)).
Proof.
  intros alpha beta g ginv gamma gi sg sgg v W rs J H h A HW Hv HH c.
  pose proof (adm_gamma_sym _ _ _ _ _ _ _ _ A) as Gs. pose proof (adm_gamma_pd _ _ _ _ _ _ _ _ A) as Gp.
  pose proof (v2_W gamma v W HW) as V2. destruct HW as [Wp WE].
  assert (Ra : forall i, (i < 3)%nat -> raise3Vector (con_gamma c) H i = h i).
  { intros i Hi. pose proof (raise_c _ _ _ _ _ _ _ _ A v rs H i Hi) as K. fold c in K. rewrite K.
    rewrite <- (raise_low _ _ _ _ _ _ _ _ A h i Hi). unfold sum3. rewrite !HH by lia. reflexivity. }
  assert (Fl : m1_flux c H = sqrt (dot3 gamma h h - dot3 gamma v h * dot3 gamma v h)).
  { unfold m1_flux. f_equal. change (con_v c) with v. f_equal.
    - transitivity (sum3 (fun i => h i * lower3 gamma h i)); [unfold sum3; rewrite !Ra, !HH by lia; ring|apply low_pair].
    - assert (E : sum3 (fun i => H i * v i) = dot3 gamma v h); [|rewrite E; reflexivity].
      rewrite <- low_pair. unfold sum3. rewrite !HH by lia. ring. }
  set (fl := m1_flux c H) in *. set (f := m1_dir c H). set (cs := sum3 (fun i => cov_v c i * f i)).
  assert (cov : forall i, cov_v c i = lower3 gamma v i) by (intros i; exact (cov_v_low alpha gamma v rs i)).
  exists (cs * cs).
  pose proof (cauchy_schwarz gamma Gs Gp v h) as CS. pose proof (pd_nonneg gamma Gp h) as Hn. pose proof (pd_nonneg gamma Gp v) as Vn.
  assert (cs1 : cs = gratio 1 fl * dot3 gamma v h).
  { unfold cs, f, m1_dir. fold fl. rewrite (dot3_sym gamma v h Gs). rewrite <- low_pair. unfold sum3. rewrite !Ra, !cov by lia.
    unfold gratio. destruct (Req_bool fl 0); unfold Rdiv; ring. }
  assert (D : 0 <= dot3 gamma h h - dot3 gamma v h * dot3 gamma v h) by nra.
  assert (Sq : fl * fl = dot3 gamma h h - dot3 gamma v h * dot3 gamma v h) by (rewrite Fl; apply sqrt_sqrt; exact D).
  assert (WV : W * W * dot3 gamma v v = W * W - 1) by nra.
  split.
  { split; [nra|]. destruct (Req_dec fl 0) as [Z|NZ].
    - assert (h0 : dot3 gamma h h = 0) by (rewrite Z in Sq; nra).
      assert (hv0 : dot3 gamma v h = 0) by nra. rewrite cs1, hv0. nra.
    - rewrite cs1. unfold gratio. rewrite Req_bool_false by exact NZ.
      assert (K : dot3 gamma v h * dot3 gamma v h <= (W * W - 1) * (fl * fl)).
      { rewrite Sq. set (x := dot3 gamma v h) in *. set (y := dot3 gamma h h) in *. set (V := dot3 gamma v v) in *.
        assert (W * W * (x * x) <= W * W * (V * y)) by (apply Rmult_le_compat_l; [nra|exact CS]). nra. }
      apply (Rmult_le_reg_r (fl * fl)); [nra|]. replace (1 / fl * dot3 gamma v h * (1 / fl * dot3 gamma v h) * (fl * fl)) with (dot3 gamma v h * dot3 gamma v h) by (field; exact NZ). exact K. }
  split; [|split; [exact Fl|]].
  - unfold vvTilPi, con_vTilPi, GetConTilPiFromPrim, M1Pi. fold f.
    assert (W2 : cW2 c = W * W) by exact (W2_val alpha gamma v W (conj Wp WE) Hv rs). rewrite W2. set (at_ := athin_of _).
    transitivity (at_ * (cs * cs - (W * W * (sum3 (fun i => v i * cov_v c i) * sum3 (fun i => v i * cov_v c i)) + sum3 (fun i => cov_v c i * sum3 (fun j => cov_v c j * con_gamma c i j))) / 3)).
    { unfold cs. change (con_v c) with v. unfold sum3. field. }
    assert (T1 : sum3 (fun i => v i * cov_v c i) = dot3 gamma v v) by exact (v_cov_v alpha gamma v rs). rewrite T1.
    assert (T2 : sum3 (fun i => cov_v c i * sum3 (fun j => cov_v c j * con_gamma c i j)) = dot3 gamma v v).
    { rewrite <- T1. unfold sum3 at 1.
      assert (Q : forall i, (i < 3)%nat -> sum3 (fun j => cov_v c j * con_gamma c i j) = v i).
      { intros i Hi. rewrite <- (raise_low _ _ _ _ _ _ _ _ A v i Hi). unfold sum3. rewrite !(con_gamma_c _ _ _ _ _ _ _ _ A v rs) by lia. rewrite !cov. reflexivity. }
      rewrite !Q by lia. unfold sum3. ring. }
    rewrite T2. f_equal. f_equal. f_equal. replace (W * W * (dot3 gamma v v * dot3 gamma v v)) with (W * W * dot3 gamma v v * dot3 gamma v v) by ring. rewrite WV. lra.
  - intros P. rewrite cs1. unfold gratio. rewrite Req_bool_false by lra. field. lra.
Qed.
Lemma athin_range xi : 0 <= xi <= 1 -> -1 / 27 <= athin_of xi <= 1.
Proof.
  intros [L U]. unfold athin_of, closure.
  assert (0 <= (3 * xi - 1) * (3 * xi - 1) * (6 * xi + 1)) by (apply Rmult_le_pos; [apply Rle_0_sqr|lra]).
  assert (xi * xi * xi <= xi * xi) by nra. split; nra.
Qed.
Lemma m1_xi_range c J H : 0 <= m1_xi c J H <= 1.
Proof. unfold m1_xi. split; [apply Rmax_r|]. apply Rmax_lub; [apply Rmin_l|lra]. Qed.
Theorem C29_m1_regular : forall alpha beta g ginv gamma gi sg sgg v W rs J (H h : vec),
  adm_consistent alpha beta g ginv gamma gi sg sgg -> lorentz_of gamma v W -> dot3 gamma v v <= 9999 / 10000 ->
  (forall i, (i < 3)%nat -> H i = lower3 gamma h i) -> W * W <= 23 / 10 ->
  let c := mkClosure v gamma alpha rs in 0 < c2p_lam c (GetConTilPiFromPrim c J H).
Proof.
  intros alpha beta g ginv gamma gi sg sgg v W rs J H h A HW Hv HH Hw c.
  destruct (m1_vv _ _ _ _ _ _ _ _ v W rs J H h A HW Hv HH) as (s & [S0 S1] & P & _). fold c in P.
  pose proof (athin_range _ (m1_xi_range c J H)) as [A0 A1].
  pose proof (lam_val alpha gamma v W HW Hv rs (GetConTilPiFromPrim c J H)) as L. fold c in L. rewrite L, P.
  set (w := W * W) in *. set (a := athin_of (m1_xi c J H)) in *.
  pose proof (W_ge1 _ _ _ _ _ _ _ _ A v W HW) as W1. assert (w1 : 1 <= w) by (unfold w; nra).
  assert (pl : - ((w - 1) / 3) <= a * (s - (w - 1) / 3)) by nra.
  assert (pu : a * (s - (w - 1) / 3) <= 2 * (w - 1) / 3) by nra.
  set (p := a * (s - (w - 1) / 3)) in *. clearbody p a. clear L P.
  destruct (Rle_or_lt (3 / 2) w) as [B|B].
  - assert (K : (2 * w - 3) * w * - ((w - 1) / 3) <= (2 * w - 3) * w * p) by (apply Rmult_le_compat_l; nra).
    assert (0 < 2 * w + 1 - (2 * w - 3) * w * (w - 1)).
    { assert (0 <= (23 / 10 - w) * (w - 3 / 2)) by nra. nra. }
    lra.
  - assert (K : (2 * w - 3) * w * (2 * (w - 1) / 3) <= (2 * w - 3) * w * p).
    { assert (0 <= (3 - 2 * w) * w) by nra. assert ((3 - 2 * w) * w * p <= (3 - 2 * w) * w * (2 * (w - 1) / 3)) by (apply Rmult_le_compat_l; assumption). lra. }
    assert ((3 - 2 * w) * (w - 1) <= 1 / 8) by (pose proof (Rle_0_sqr (w - 5 / 4)) as Q; unfold Rsqr in Q; lra).
    assert ((3 - 2 * w) * (w - 1) * w <= 1 / 8 * w) by (apply Rmult_le_compat_r; lra). lra.
Qed.
Print Assumptions C29_m1_regular.

(** *** a faster fluid has fluxes for which the system is singular: two different comoving
    states then have the same conserved moments, whatever Con2Prim returns. *)
Theorem C29_singular : forall alpha beta g ginv gamma gi sg sgg v W rs Pi,
  adm_consistent alpha beta g ginv gamma gi sg sgg -> lorentz_of gamma v W -> dot3 gamma v v <= 9999 / 10000 ->
  let c := mkClosure v gamma alpha rs in c2p_lam c Pi = 0 ->
  exists H, forall J0 H0, fst (Prim2Con c energy_conserve (J0 + 1) (fun i => H0 i + H i) Pi) = fst (Prim2Con c energy_conserve J0 H0 Pi) /\
    forall i, (i < 3)%nat -> snd (Prim2Con c energy_conserve (J0 + 1) (fun i => H0 i + H i) Pi) i = snd (Prim2Con c energy_conserve J0 H0 Pi) i.
Proof.
  intros alpha beta g ginv gamma gi sg sgg v W rs Pi A HW Hv c L.
  pose proof (lam_val alpha gamma v W HW Hv rs Pi) as LV. fold c in LV. rewrite L in LV.
  pose proof (v2_W gamma v W HW) as V2. assert (Wp : 0 < W) by (destruct HW; assumption).
  set (p := vvTilPi c Pi) in *.
  set (z := - ((4 * (W * W) - 1) / 3 + W * W * p) / (2 * W)).
  set (a := 4 * (W * W) / 3 + W * z).
  exists (fun i => - (a * cov_v c i + cov_vTilPi c Pi i) / W).
  assert (T1 : sum3 (fun i => v i * cov_v c i) = dot3 gamma v v) by exact (v_cov_v alpha gamma v rs).
  assert (T2 : sum3 (fun i => v i * cov_vTilPi c Pi i) = p) by exact (v_cov_vPi _ _ _ _ _ _ _ _ A v rs Pi).
  assert (Z : sum3 (fun i => v i * (- (a * cov_v c i + cov_vTilPi c Pi i) / W)) = z).
  { transitivity (- (a * sum3 (fun i => v i * cov_v c i) + sum3 (fun i => v i * cov_vTilPi c Pi i)) / W); [unfold sum3; field; lra|].
    rewrite T1, T2, V2. unfold a, z. apply (Rmult_eq_reg_r (2 * W * (W * W))); [|apply Rgt_not_eq; repeat apply Rmult_lt_0_compat; lra].
    replace (- ((4 * (W * W) / 3 + W * (- ((4 * (W * W) - 1) / 3 + W * W * p) / (2 * W))) * (1 - 1 / (W * W)) + p) / W * (2 * W * (W * W)))
      with (- ((4 * (W * W) / 3 * 2 - ((4 * (W * W) - 1) / 3 + W * W * p)) * (W * W - 1) + 2 * (W * W) * p)) by (field; lra).
    replace (- ((4 * (W * W) - 1) / 3 + W * W * p) / (2 * W) * (2 * W * (W * W))) with (- ((4 * (W * W) - 1) / 3 + W * W * p) * (W * W)) by (field; lra).
    apply Rminus_diag_uniq. rewrite LV. field. }
  intros J0 H0.
  assert (cw : cW c = W) by exact (W_val alpha gamma v W HW Hv rs). assert (cw2 : cW2 c = W * W) by exact (W2_val alpha gamma v W HW Hv rs).
  assert (S : sum3 (fun i => con_v c i * (H0 i + - (a * cov_v c i + cov_vTilPi c Pi i) / W)) = sum3 (fun i => v i * H0 i) + z).
  { rewrite <- Z. change (con_v c) with v. unfold sum3. ring. }
  split.
  - unfold Prim2Con; cbn [fst]. rewrite S, cw, cw2. change (con_v c) with v. fold p. unfold z. field. lra.
  - intros i Hi. unfold Prim2Con; cbn [snd]. rewrite S, cw, cw2. change (con_v c) with v. unfold a. field. lra.
Qed.
Print Assumptions C29_singular.

(** flat space, v = 4/5: a free-streaming (flux factor one) M1 state that is singular *)
Definition v45 : vec := v3 (4 / 5) 0 0.
Definition Hsing : vec := v3 (sqrt (4421 / 15525) * (5 / 4)) (sqrt (1 + 4421 / 15525 - 4421 / 15525 * (25 / 16))) 0.
Lemma v45_lorentz : lorentz_of delta v45 (5 / 3).
Proof. split; [lra|]. unfold dot3, sum3, v45, v3, delta. cbn. field. Qed.
Theorem C29_singular_refuted : forall rs, let c := mkClosure v45 delta 1 rs in
  m1_xi c 1 Hsing = 1 /\ c2p_lam c (GetConTilPiFromPrim c 1 Hsing) = 0.
Proof.
  intros rs c. pose proof eta4_consistent as A.
  assert (Hv : dot3 delta v45 v45 <= 9999 / 10000) by (unfold dot3, sum3, v45, v3, delta; cbn; lra).
  assert (HH : forall i, (i < 3)%nat -> Hsing i = lower3 delta Hsing i).
  { intros i Hi. unfold lower3, sum3, delta. idx; cbn; ring. }
  destruct (m1_vv _ _ _ _ _ _ _ _ v45 (5/3) rs 1 Hsing Hsing A v45_lorentz Hv HH) as (s & _ & P & FE & S). fold c in P, FE, S.
  set (r := sqrt (4421 / 15525)). assert (r2 : r * r = 4421 / 15525) by (apply sqrt_sqrt; lra).
  set (q := sqrt (1 + 4421 / 15525 - 4421 / 15525 * (25 / 16))). assert (q2 : q * q = 1 + 4421 / 15525 - 4421 / 15525 * (25 / 16)) by (apply sqrt_sqrt; lra).
  assert (hv : dot3 delta v45 Hsing = r).
  { unfold Hsing. fold r q. unfold dot3, sum3, v45, v3, delta. cbn. field. }
  assert (hh : dot3 delta Hsing Hsing = r * r * (25 / 16) + q * q).
  { unfold Hsing. fold r q. unfold dot3, sum3, v3, delta. cbn. field. }
  assert (F1 : m1_flux c Hsing = 1).
  { rewrite FE. replace (_ - _) with 1; [apply sqrt_1|]. rewrite hv, hh, q2, r2. field. }
  assert (X : m1_xi c 1 Hsing = 1).
  { unfold m1_xi. rewrite F1. unfold gratio. rewrite Req_bool_false by lra. rewrite Rmin_left by lra. apply Rmax_left. lra. }
  split; [exact X|].
  pose proof (lam_val 1 delta v45 (5/3) v45_lorentz Hv rs (GetConTilPiFromPrim c 1 Hsing)) as L. fold c in L. rewrite L, P, X.
  rewrite S by (rewrite F1; lra). rewrite F1, hv. replace (r / 1 * (r / 1)) with (r * r) by field. rewrite r2. unfold athin_of, closure. field.
Qed.
Print Assumptions C29_singular_refuted.

(** *** the robust strategy.  A negative comoving energy is not repaired: whenever the formula
    gives J < 0 (and is not NaN), the robust branch returns that same negative J, with status
    "modified" and not "failure" (std::min where std::max is meant). *)
Theorem C29_negative_energy_refuted : forall c eq E F Pi, robust_c2p c = true ->
  let '(J, H) := c2p_raw c eq E F Pi in J < 0 -> 0 <= flux_sq c H ->
  let '(J', _, st) := Con2Prim c eq E F Pi in J' = J /\ st = Cmodified.
Proof.
  intros c eq E F Pi R. unfold Con2Prim. destruct (c2p_raw c eq E F Pi) as [J H]. intros N P.
  unfold xi_defined. rewrite (Rle_bool_true _ _ P), (Req_bool_false J 0) by lra. cbn [negb andb]. rewrite R, (Rlt_bool_true J 0 N). cbn [orb].
  split; [|reflexivity]. apply Rmin_left. apply Rle_trans with 0; [lra|]. unfold SMALL10. apply Rlt_le, Rdiv_lt_0_compat; [lra|apply IZR_lt; reflexivity].
Qed.
Print Assumptions C29_negative_energy_refuted.

(** A superluminal flux is repaired: with J > 0 and flux factor at least one, J is kept and
    the flux is shortened, in its direction, to flux factor 0.999; without the robust
    strategy the moments are left alone and the failure is reported. *)
Theorem C29_superluminal_flux : forall c eq E F Pi,
  let '(J, H) := c2p_raw c eq E F Pi in 0 < J -> J <= sqrt (flux_sq c H) -> 0 <= flux_sq c H ->
  let '(J', H', st) := Con2Prim c eq E F Pi in
  J' = J /\ if robust_c2p c then st = Cmodified /\ sqrt (flux_sq c H') = 999 / 1000 * J /\ exists k, 0 < k /\ forall i, H' i = k * H i
            else st = Cfailure /\ H' = H.
Proof.
  intros c eq E F Pi. unfold Con2Prim. destruct (c2p_raw c eq E F Pi) as [J H]. intros P S N.
  unfold xi_defined. rewrite (Rle_bool_true _ _ N), (Req_bool_false J 0) by lra. cbn [negb andb]. rewrite (Rlt_bool_false J 0) by lra. cbn [orb].
  set (x := flux_xi c J H). assert (X1 : 1 <= x).
  { unfold x, flux_xi. apply (Rmult_le_reg_r J); [exact P|]. unfold Rdiv. rewrite Rmult_assoc, Rinv_l, Rmult_1_l, Rmult_1_r by lra. exact S. }
  rewrite (Rle_bool_true 1 x X1). destruct (robust_c2p c); [|split; [reflexivity|split; reflexivity]].
  split; [reflexivity|]. split; [reflexivity|].
  assert (K : flux_sq c (fun i => H i * (999 / 1000 / x)) = (999 / 1000 / x) * (999 / 1000 / x) * flux_sq c H).
  { unfold flux_sq, contractCov3Vectors, contractConCov3Vectors, sum3. ring. }
  split.
  - rewrite K. rewrite sqrt_mult; [|apply Rle_0_sqr|exact N]. rewrite sqrt_square by (apply Rlt_le, Rdiv_lt_0_compat; lra).
    assert (Sx : sqrt (flux_sq c H) = x * J) by (unfold x, flux_xi; field; lra). rewrite Sx. field. lra.
  - exists (999 / 1000 / x). split; [apply Rdiv_lt_0_compat; lra|]. intros i. ring.
Qed.
Print Assumptions C29_superluminal_flux.

(** *** the variant that evolves the number density: inverse when the tensor has no component
    along the velocity; otherwise the energy it reconstructs is not the one the formula wants *)
Theorem C29_number : forall alpha beta g ginv gamma gi sg sgg v W rs Pi J H,
  adm_consistent alpha beta g ginv gamma gi sg sgg -> lorentz_of gamma v W -> dot3 gamma v v <= 9999 / 10000 ->
  let c := mkClosure v gamma alpha rs in c2p_lam c Pi <> 0 -> vvTilPi c Pi = 0 ->
  let '(E, F) := Prim2Con c number_conserve J H Pi in
  let '(J', H') := c2p_raw c number_conserve E F Pi in
  J' = J /\ forall i, (i < 3)%nat -> H' i = H i.
Proof.
  intros alpha beta g ginv gamma gi sg sgg v W rs Pi J H A HW Hv c L Z.
  destruct (Prim2Con c number_conserve J H Pi) as [E F] eqn:P. destruct (c2p_raw c number_conserve E F Pi) as [J' H'] eqn:R.
  pose proof (raw_inverse _ _ _ _ _ _ _ _ A v W HW Hv rs Pi number_conserve J H L) as K. fold c in K. rewrite P in K. cbn [fst snd] in K. rewrite R in K. cbn [fst snd] in K.
  apply K. unfold c2p_energy. pose proof (vF_val _ _ _ _ _ _ _ _ A v W HW Hv rs Pi J H number_conserve) as Q. fold c in Q. rewrite P in Q. cbn [snd] in Q.
  assert (cw : cW c = W) by exact (W_val alpha gamma v W HW Hv rs). assert (Wp : 0 < W) by (destruct HW; assumption).
  change (con_v c) with v. rewrite Q, Z. assert (EE : E = W * J + sum3 (fun i => v i * H i)).
  { transitivity (fst (Prim2Con c number_conserve J H Pi)); [rewrite P; reflexivity|]. unfold Prim2Con; cbn [fst]. rewrite cw. reflexivity. }
  rewrite EE, cw. field. lra.
Qed.
Print Assumptions C29_number.
Theorem C29_number_refuted : forall alpha beta g ginv gamma gi sg sgg v W rs Pi J H,
  adm_consistent alpha beta g ginv gamma gi sg sgg -> lorentz_of gamma v W -> dot3 gamma v v <= 9999 / 10000 ->
  let c := mkClosure v gamma alpha rs in c2p_lam c Pi <> 0 -> vvTilPi c Pi <> 0 -> W <> 1 -> J <> 0 ->
  let '(E, F) := Prim2Con c number_conserve J H Pi in
  fst (c2p_raw c number_conserve E F Pi) <> J.
Proof.
  intros alpha beta g ginv gamma gi sg sgg v W rs Pi J H A HW Hv c L Z W1 JN.
  destruct (Prim2Con c number_conserve J H Pi) as [E F] eqn:P.
  pose proof (vF_val _ _ _ _ _ _ _ _ A v W HW Hv rs Pi J H number_conserve) as Q. fold c in Q. rewrite P in Q. cbn [snd] in Q.
  assert (cw : cW c = W) by exact (W_val alpha gamma v W HW Hv rs). assert (cw2 : cW2 c = W * W) by exact (W2_val alpha gamma v W HW Hv rs).
  assert (Wp : 0 < W) by (destruct HW; assumption). pose proof (W_ge1 _ _ _ _ _ _ _ _ A v W HW) as Wg.
  assert (EE : E = W * J + sum3 (fun i => v i * H i)).
  { transitivity (fst (Prim2Con c number_conserve J H Pi)); [rewrite P; reflexivity|]. unfold Prim2Con; cbn [fst]. rewrite cw. reflexivity. }
  pose proof (lam_val alpha gamma v W HW Hv rs Pi) as LV. fold c in LV.
  unfold c2p_raw, c2p_energy. cbn [fst]. change (con_v c) with v. rewrite Q, EE, cw, cw2. rewrite gratio_ne by exact L.
  set (l := c2p_lam c Pi) in *. set (p := vvTilPi c Pi) in *. set (z := sum3 (fun i => v i * H i)).
  intro K. assert (K2 : (2 * (W * W) - 1) * (W * W - 1) * p * J = 0).
  { apply (f_equal (fun t => t * l)) in K. unfold Rdiv at 1 in K. rewrite Rmult_assoc, Rinv_l, Rmult_1_r in K by exact L. rewrite LV in K.
    apply (Rmult_eq_reg_l (-1)); [|lra]. rewrite Rmult_0_r. apply Rminus_diag_eq in K. rewrite <- K. field. lra. }
  assert (0 < W - 1) by lra. assert ((2 * (W * W) - 1) * (W * W - 1) <> 0) by (apply Rgt_not_eq, Rmult_lt_0_compat; nra).
  apply Rmult_integral in K2. destruct K2 as [K2|K2]; [|contradiction]. apply Rmult_integral in K2. tauto.
Qed.
Print Assumptions C29_number_refuted.

(** *** above the cap v^2 = 0.9999 the closure uses a Lorentz factor that does not belong to
    the velocity it contracts with: already isotropic radiation is not recovered *)
Theorem C29_speed_cap_refuted : forall alpha gamma v rs Pi J, symmetric3 gamma -> 9999 / 10000 < dot3 gamma v v -> J <> 0 ->
  (forall i j, Pi i j = 0) ->
  let c := mkClosure v gamma alpha rs in
  let '(E, F) := Prim2Con c energy_conserve J (fun _ => 0) Pi in
  fst (c2p_raw c energy_conserve E F Pi) <> J.
Proof.
  intros alpha gamma v rs Pi J Gs V JN Z c.
  assert (cov : forall i, cov_v c i = lower3 gamma v i) by (intros i; exact (cov_v_low alpha gamma v rs i)).
  assert (vv : sum3 (fun i => v i * cov_v c i) = dot3 gamma v v) by exact (v_cov_v alpha gamma v rs).
  assert (w : cW2 c = 10000).
  { unfold c, mkClosure. cbn [cW2]. rewrite Rmin_right.
    - replace (1 - 9999 / 10000) with ((1 / 100) * (1 / 100)) by field. rewrite sqrt_square by lra. field.
    - apply Rlt_le. rewrite <- vv in V. exact V. }
  assert (p0 : vvTilPi c Pi = 0) by (unfold vvTilPi, con_vTilPi, sum3; rewrite !Z; ring).
  assert (c0 : forall i, cov_vTilPi c Pi i = 0) by (intros i; unfold cov_vTilPi, lower3Vector, con_vTilPi, sum3; rewrite !Z; ring).
  unfold Prim2Con. unfold c2p_raw. cbn [fst c2p_energy]. rewrite w, p0.
  assert (vF : sum3 (fun i => con_v c i * (4 * 10000 / 3 * cov_v c i * J + cW c * cov_v c i * sum3 (fun i0 => con_v c i0 * 0) + cW c * 0 + J * cov_vTilPi c Pi i)) = 4 * 10000 / 3 * J * dot3 gamma v v).
  { rewrite <- vv. change (con_v c) with v. unfold sum3. rewrite !c0. field. }
  rewrite vF. replace (sum3 (fun i => con_v c i * 0)) with 0 by (unfold sum3; ring).
  assert (lE : c2p_lam c Pi = 20001 / 3) by (unfold c2p_lam; rewrite w, p0; field). rewrite gratio_ne by (rewrite lE; lra). rewrite lE.
  intro K. assert (K2 : J * (dot3 gamma v v - 9999 / 10000) = 0).
  { apply (f_equal (fun t => t * (20001 / 3))) in K. field_simplify in K. lra. }
  apply Rmult_integral in K2. destruct K2; lra.
Qed.
Print Assumptions C29_speed_cap_refuted.

(** *** the hypotheses are met: a moving fluid in flat space, a flux with factor 1/2 across
    the motion, the M1 tensor of that state *)
Definition h12 : vec := v3 0 (1 / 2) 0.
Example C29_nonvacuous : forall rs, let c := mkClosure (v3 (3 / 5) 0 0) delta 1 rs in
  adm_consistent 1 zero3 eta4 eta4 delta delta 1 1 /\ lorentz_of delta (v3 (3 / 5) 0 0) (5 / 4) /\ dot3 delta (v3 (3 / 5) 0 0) (v3 (3 / 5) 0 0) <= 9999 / 10000 /\
  5 / 4 * (5 / 4) <= 23 / 10 /\ (forall i, (i < 3)%nat -> h12 i = lower3 delta h12 i) /\
  dot3 delta h12 h12 - dot3 delta (v3 (3 / 5) 0 0) h12 * dot3 delta (v3 (3 / 5) 0 0) h12 < 1 * 1 /\
  c2p_lam c (GetConTilPiFromPrim c 1 h12) <> 0.
Proof.
  intros rs c. assert (L : lorentz_of delta (v3 (3 / 5) 0 0) (5 / 4)) by (split; [lra|]; unfold dot3, sum3, v3, delta; cbn; field).
  assert (V : dot3 delta (v3 (3 / 5) 0 0) (v3 (3 / 5) 0 0) <= 9999 / 10000) by (unfold dot3, sum3, v3, delta; cbn; lra).
  assert (HH : forall i, (i < 3)%nat -> h12 i = lower3 delta h12 i) by (intros i Hi; unfold lower3, sum3, delta; idx; cbn; ring).
  split; [apply eta4_consistent|]. split; [exact L|]. split; [exact V|]. split; [lra|]. split; [exact HH|].
  split; [unfold dot3, sum3, h12, v3, delta; cbn; lra|].
  apply Rgt_not_eq. exact (C29_m1_regular _ _ _ _ _ _ _ _ (v3 (3/5) 0 0) (5/4) rs 1 h12 h12 eta4_consistent L V HH ltac:(lra)).
Qed.
(** a negative comoving energy and a superluminal flux do occur: fluid at rest, E = -1, and E = 1, F = 2 *)
Example C29_nonvacuous_negative : let c := mkClosure (fun _ => 0) delta 1 true in
  let '(J, H) := c2p_raw c energy_conserve (-1) (fun _ => 0) (fun _ _ => 0) in J < 0 /\ 0 <= flux_sq c H.
Proof.
  intros c. assert (cw : cW c = 1).
  { unfold c, mkClosure. cbn [cW]. rewrite Rmin_left by (unfold lower3Vector, sum3; lra). replace (1 - _) with 1 by (unfold lower3Vector, sum3; ring). rewrite sqrt_1. field. }
  assert (cw2 : cW2 c = 1) by (change (cW2 c) with (cW c * cW c); rewrite cw; ring).
  assert (p0 : vvTilPi c (fun _ _ => 0) = 0) by (unfold vvTilPi, con_vTilPi, sum3; ring).
  unfold c2p_raw, c2p_energy, c2p_lam. rewrite cw, cw2, p0. rewrite !gratio_ne by lra. split; [unfold sum3; lra|].
  unfold flux_sq, contractCov3Vectors, contractConCov3Vectors, cov_vTilPi, con_vTilPi, lower3Vector, sum3.
  change (cov_v c) with (lower3Vector delta (fun _ => 0)). unfold lower3Vector, sum3. change (con_v c) with (fun _ : nat => 0). apply Req_le. field.
Qed.
