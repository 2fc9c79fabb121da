(** C48: the Bondi accretion setup. *)
From Coq Require Import Reals Lra Lia Psatz Arith.
From Coquelicot Require Import Coquelicot.
From Flocq Require Import Core.
From Verif.Spec Require Import Tensor GeomSpec SystemSpec Relativity.
From Verif.Model Require Import Num Robust LinearAlgebra Geometry Modified BoyerLindquist Relativity Bondi.
From Verif.Proofs Require Import NumR TensorTac GeomBase ModifiedProofs.
From Verif.Proofs Require Import TransformProofs FmksVelocity.
From Verif.Properties Require Import P_Geometry P_Relativity.
From Verif.Spec Require Import Relativity.
Local Open Scope R_scope.

(** ** the time component of a four-velocity *)
Lemma norm_dot4 g u w : symmetric4 g ->
  dot4 g (set_u0 u w) (set_u0 u w) = ucon_AA g * w * w + ucon_BB u g * w + ucon_CC u g - 1.
Proof.
  intros Sy. unfold dot4, sum4, set_u0, ucon_AA, ucon_BB, ucon_CC.
  rewrite (Sy 1 0)%nat, (Sy 2 0)%nat, (Sy 3 0)%nat, (Sy 2 1)%nat, (Sy 3 1)%nat, (Sy 3 2)%nat by lia. ring.
Qed.
Lemma norm_lower g u w : lower4 g (set_u0 u w) 0%nat = ucon_AA g * w + ucon_BB u g / 2.
Proof. unfold lower4, sum4, set_u0, ucon_AA, ucon_BB. field. Qed.
Lemma norm_exists_discr g u w : symmetric4 g -> dot4 g (set_u0 u w) (set_u0 u w) = -1 ->
  ucon_discr u g = (2 * lower4 g (set_u0 u w) 0%nat) ^ 2.
Proof.
  intros Sy H. rewrite norm_dot4 in H by exact Sy. rewrite norm_lower. unfold ucon_discr.
  replace (ucon_CC u g) with (- (ucon_AA g * w * w + ucon_BB u g * w)) by lra. field.
Qed.
Lemma norm_root g u : symmetric4 g -> g 0%nat 0%nat <> 0 -> 0 <= ucon_discr u g ->
  dot4 g (set_u0 u (ucon_norm u g)) (set_u0 u (ucon_norm u g)) = -1 /\
  lower4 g (set_u0 u (ucon_norm u g)) 0%nat = - (sqrt (ucon_discr u g) / 2).
Proof.
  intros Sy H0 Hd. rewrite norm_dot4, norm_lower by exact Sy. unfold ucon_norm.
  assert (S := sqrt_sqrt _ Hd). set (s := sqrt (ucon_discr u g)) in *. unfold ucon_discr in S. unfold ucon_AA in *.
  set (A := g 0%nat 0%nat) in *. set (B := ucon_BB u g) in *. set (C := ucon_CC u g) in *. clearbody s A B C.
  split; [|field; auto].
  replace (A * ((- B - s) / (2 * A)) * ((- B - s) / (2 * A)) + B * ((- B - s) / (2 * A)) + C - 1)
    with ((s * s - B * B + 4 * A * C) / (4 * A) - 1) by (field; auto).
  rewrite S. replace (B * B - 4 * A * C - B * B + 4 * A * C) with 0 by ring. unfold Rdiv. rewrite Rmult_0_l. ring.
Qed.

(** The returned u^0 completes the spatial components to a four-velocity of norm -1 with u_0 <= 0 (the conserved
    energy -u_0 is not negative), whenever any completion exists, and it is the only one.  Where d/dt is timelike
    (g_00 < 0) a completion exists for all spatial components, and u^0 > 0. *)
Theorem C48_norm : forall g u, symmetric4 g -> g 0%nat 0%nat <> 0 ->
  let u4 := set_u0 u (ucon_norm u g) in
  ((exists w, dot4 g (set_u0 u w) (set_u0 u w) = -1) ->
    dot4 g u4 u4 = -1 /\ lower4 g u4 0%nat <= 0 /\
    forall w, dot4 g (set_u0 u w) (set_u0 u w) = -1 -> lower4 g (set_u0 u w) 0%nat <= 0 -> w = ucon_norm u g) /\
  (lorentzian g -> g 0%nat 0%nat < 0 -> dot4 g u4 u4 = -1 /\ lower4 g u4 0%nat < 0 /\ 0 < u4 0%nat).
Proof.
  intros g u Sy H0 u4. split.
  - intros (w & Hw). assert (D := norm_exists_discr g u w Sy Hw).
    assert (Hd : 0 <= ucon_discr u g) by (rewrite D; apply pow2_ge_0).
    destruct (norm_root g u Sy H0 Hd) as (N & L). fold u4 in N, L.
    assert (Sp := sqrt_pos (ucon_discr u g)). repeat split; [exact N | rewrite L; lra |].
    intros w' Hw' Lw'. assert (D' := norm_exists_discr g u w' Sy Hw'). rewrite D' in L.
    replace ((2 * lower4 g (set_u0 u w') 0%nat) ^ 2) with (Rsqr (- (2 * lower4 g (set_u0 u w') 0%nat))) in L by (unfold Rsqr; ring).
    rewrite sqrt_Rsqr in L by lra. unfold u4 in L. rewrite !norm_lower in L. unfold ucon_AA in L.
    apply (Rmult_eq_reg_l (g 0%nat 0%nat)); [lra | exact H0].
  - intros (al & be & ga & Tp) Hn.
    assert (P : 0 <= ucon_CC u g - 1).
    { assert (Q : ucon_CC u g - 1 = dot3 ga (fun i => u (S i)) (fun i => u (S i))).
      { unfold ucon_CC, dot3, sum3. rewrite !(tpo_ij _ _ _ _ Tp) by lia.
        rewrite (tpo_gsym _ _ _ _ Tp 1 0)%nat, (tpo_gsym _ _ _ _ Tp 2 0)%nat, (tpo_gsym _ _ _ _ Tp 2 1)%nat by lia. ring. }
      rewrite Q. destruct (Req_dec (u 1%nat) 0) as [E1|E1]; [destruct (Req_dec (u 2%nat) 0) as [E2|E2]; [destruct (Req_dec (u 3%nat) 0) as [E3|E3]|]|].
      - unfold dot3, sum3. rewrite E1, E2, E3. lra.
      - left. apply (tpo_gpd _ _ _ _ Tp). exists 2%nat. split; [lia | exact E3].
      - left. apply (tpo_gpd _ _ _ _ Tp). exists 1%nat. split; [lia | exact E2].
      - left. apply (tpo_gpd _ _ _ _ Tp). exists 0%nat. split; [lia | exact E1]. }
    assert (Hd : ucon_BB u g ^ 2 < ucon_discr u g) by (unfold ucon_discr, ucon_AA; nra).
    assert (B2 := pow2_ge_0 (ucon_BB u g)).
    destruct (norm_root g u Sy H0 ltac:(lra)) as (N & L). fold u4 in N, L.
    assert (Sp : Rabs (ucon_BB u g) < sqrt (ucon_discr u g)).
    { rewrite <- sqrt_Rsqr_abs. apply sqrt_lt_1; unfold Rsqr; lra. }
    assert (Ab := Rle_abs (ucon_BB u g)). assert (Ab' := Rabs_pos (ucon_BB u g)). assert (Ab2 := Rle_abs (- ucon_BB u g)). rewrite Rabs_Ropp in Ab2.
    repeat split; [exact N | rewrite L; lra |].
    unfold u4. cbn [set_u0]. unfold ucon_norm, ucon_AA.
    replace ((- ucon_BB u g - sqrt (ucon_discr u g)) / (2 * g 0%nat 0%nat))
      with ((ucon_BB u g + sqrt (ucon_discr u g)) / (- (2 * g 0%nat 0%nat))) by (field; auto).
    apply Rdiv_lt_0_compat; lra.
Qed.
Print Assumptions C48_norm.

(** ** the solution constants *)
Lemma uc_pos rs : 0 < rs -> 0 < bondi_uc rs.
Proof. intros H. apply sqrt_lt_R0. apply Rdiv_lt_0_compat; lra. Qed.
Lemma uc_sq rs : 0 < rs -> bondi_uc rs ^ 2 = / (2 * rs).
Proof. intros H. unfold bondi_uc. rewrite <- Rsqr_pow2, Rsqr_sqrt; [field; lra | left; apply Rdiv_lt_0_compat; lra]. Qed.
Lemma s_bound n rs : 0 <= n -> 3 + n < 2 * rs -> 0 < / (2 * rs) /\ (3 + n) * / (2 * rs) < 1.
Proof. intros Hn H. split; [apply Rinv_0_lt_compat; lra|]. apply (Rmult_lt_reg_r (2 * rs)); [lra|]. rewrite Rmult_assoc, Rinv_l; lra. Qed.
Lemma Vc_sq rs : 3 < 2 * rs -> bondi_Vc rs ^ 2 = / (2 * rs) / (1 - 3 * / (2 * rs)).
Proof.
  intros H. destruct (s_bound 0 rs) as (A & B); try lra. unfold bondi_Vc. rewrite uc_sq by lra.
  replace ((- sqrt (/ (2 * rs) / (1 - 3 * / (2 * rs)))) ^ 2) with (sqrt (/ (2 * rs) / (1 - 3 * / (2 * rs))) * sqrt (/ (2 * rs) / (1 - 3 * / (2 * rs)))) by ring.
  apply sqrt_sqrt. left. apply Rdiv_lt_0_compat; lra.
Qed.
Lemma Tc_val n rs : 0 < n -> 3 + n < 2 * rs -> bondi_Tc n rs = n * / (2 * rs) / ((n + 1) * (1 - (3 + n) * / (2 * rs))).
Proof.
  intros Hn H. destruct (s_bound n rs) as (A & B); try lra. unfold bondi_Tc. rewrite Vc_sq by lra.
  set (s := / (2 * rs)) in *. assert (0 < n * s) by (apply Rmult_lt_0_compat; lra). assert (s <> 0) by lra. field. repeat split; lra.
Qed.
Lemma Tc_pos n rs : 0 < n -> 3 + n < 2 * rs -> 0 < bondi_Tc n rs.
Proof.
  intros Hn H. destruct (s_bound n rs) as (A & B); try lra. rewrite Tc_val by lra.
  apply Rdiv_lt_0_compat; apply Rmult_lt_0_compat; lra.
Qed.
Lemma Rpower_double T n : Rpower T (2 * n) = Rpower T n ^ 2.
Proof. unfold Rpower. rewrite <- Rsqr_pow2. unfold Rsqr. rewrite <- exp_plus. f_equal. ring. Qed.
Lemma Rpower_pos x y : 0 < Rpower x y. Proof. apply exp_pos. Qed.
Lemma C1_pos n rs : 0 < rs -> 0 < bondi_C1 n rs.
Proof. intros H. unfold bondi_C1. apply Rmult_lt_0_compat; [apply Rmult_lt_0_compat; [apply uc_pos; lra | apply pow_lt; lra] | apply Rpower_pos]. Qed.
Lemma two_over_rs rs : 0 < rs -> 2 / rs = 4 * / (2 * rs).
Proof. intros. field. lra. Qed.
Lemma C2_val n rs : 0 < rs -> bondi_C2 n rs = (1 + (1 + n) * bondi_Tc n rs) ^ 2 * (1 - 3 * / (2 * rs)).
Proof.
  intros H. unfold bondi_C2. f_equal. rewrite Rpower_double, two_over_rs by lra. unfold bondi_C1.
  replace ((bondi_uc rs * rs ^ 2 * Rpower (bondi_Tc n rs) n) ^ 2) with (bondi_uc rs ^ 2 * (rs ^ 4 * Rpower (bondi_Tc n rs) n ^ 2)) by ring.
  rewrite uc_sq by lra. assert (P := Rpower_pos (bondi_Tc n rs) n). field. split; lra.
Qed.

(** At the critical radius the residual vanishes together with both partial derivatives, and the infall speed seen
    by static observers equals the speed of sound sqrt(Gamma P / (rho h)) = sqrt((1 + 1/n) T / (1 + (n+1) T)):
    the constants are those of the transonic solution. *)
Theorem C48_critical : forall n rs, 0 < n -> 3 + n < 2 * rs ->
  let Tc := bondi_Tc n rs in let C1 := bondi_C1 n rs in let C2 := bondi_C2 n rs in
  let u := C1 / (rs ^ 2 * Rpower Tc n) in
  0 < Tc /\ 0 < u /\
  get_Tfunc rs n C1 C2 Tc = 0 /\
  is_derive (fun T => get_Tfunc rs n C1 C2 T) Tc 0 /\
  is_derive (fun r => get_Tfunc r n C1 C2 Tc) rs 0 /\
  (u / sqrt (1 - 2 / rs + u ^ 2)) ^ 2 = (1 + / n) * Tc / (1 + (n + 1) * Tc) /\
  (u / sqrt (1 - 2 / rs + u ^ 2)) ^ 2 = bondi_Vc rs ^ 2.
Proof.
  intros n rs Hn H Tc C1 C2 u.
  assert (HT : 0 < Tc) by (apply Tc_pos; lra).
  assert (Hu : u = bondi_uc rs). { unfold u, C1, bondi_C1. fold Tc. assert (P := Rpower_pos Tc n). field. split; lra. }
  assert (Hu2 : u ^ 2 = / (2 * rs)) by (rewrite Hu; apply uc_sq; lra).
  destruct (s_bound n rs) as (A & B); try lra.
  assert (E : (n + 1) * Tc * (1 - 3 * / (2 * rs)) = n * (1 + (n + 1) * Tc) * / (2 * rs)).
  { unfold Tc. rewrite Tc_val by lra. set (s := / (2 * rs)) in *. field. split; lra. }
  assert (S0 : 1 - 2 / rs + u ^ 2 = 1 - 3 * / (2 * rs)) by (rewrite Hu2, two_over_rs by lra; ring).
  assert (V : (u / sqrt (1 - 2 / rs + u ^ 2)) ^ 2 = / (2 * rs) / (1 - 3 * / (2 * rs))).
  { rewrite S0. assert (Q : 0 < 1 - 3 * / (2 * rs)) by nra. assert (Q' := sqrt_lt_R0 _ Q).
    replace ((u / sqrt (1 - 3 * / (2 * rs))) ^ 2) with (u ^ 2 / (sqrt (1 - 3 * / (2 * rs)) * sqrt (1 - 3 * / (2 * rs)))) by (field; lra).
    rewrite sqrt_sqrt, Hu2 by lra. reflexivity. }
  assert (P := Rpower_pos Tc n).
  assert (U : C1 / (rs * rs * Rpower Tc n) = u) by (unfold u; field; split; lra).
  split; [exact HT|]. split; [rewrite Hu; apply uc_pos; lra|]. split.
  - unfold get_Tfunc. rewrite U, S0. unfold C2. rewrite C2_val by lra. fold Tc. ring.
  - split.
    + unfold get_Tfunc, Rpower. auto_derive.
      * repeat split; try lra. assert (Q := exp_pos (n * ln Tc)). apply Rgt_not_eq. repeat apply Rmult_lt_0_compat; lra.
      * fold (Rpower Tc n).
        match goal with |- @eq _ ?x ?y => change (@eq R x y) end.
        assert (Fz : 2 * (1 + (1 + n) * Tc) / Tc * ((n + 1) * Tc * (1 - 2 / rs + u ^ 2) - n * (1 + (n + 1) * Tc) * u ^ 2) = 0).
        { rewrite S0, Hu2, E. ring. }
        rewrite <- Fz, <- U. field. repeat split; lra.
    + split.
      * unfold get_Tfunc. auto_derive.
        { repeat split; try lra. apply Rgt_not_eq. repeat apply Rmult_lt_0_compat; lra. }
        match goal with |- @eq _ ?x ?y => change (@eq R x y) end.
        assert (Fz : (1 + (1 + n) * Tc) ^ 2 * (2 / rs ^ 2 - 4 * u ^ 2 / rs) = 0).
        { rewrite Hu2. field. lra. }
        rewrite <- Fz, <- U. field. repeat split; lra.
      * split.
        { rewrite V. apply (Rmult_eq_reg_r ((1 - 3 * / (2 * rs)) * n * (1 + (n + 1) * Tc))); [|apply Rgt_not_eq; repeat apply Rmult_lt_0_compat; nra].
          transitivity (n * (1 + (n + 1) * Tc) * / (2 * rs)).
          - set (s := / (2 * rs)) in *. field. nra.
          - rewrite <- E. field. split; nra. }
        { rewrite V, Vc_sq by lra. reflexivity. }
Qed.
Print Assumptions C48_critical.

(** ** the initial bracket, Gamma = 1.4 *)
Lemma Rpower_pow_r y (k : nat) a : 0 < y -> Rpower y a ^ k = Rpower y (a * INR k).
Proof. intros Hy. rewrite <- Rpower_pow by apply Rpower_pos. apply Rpower_mult. Qed.
Lemma fifth_root y : 0 < y -> let z := Rpower y (1 / 5) in 0 < z /\ z ^ 5 = y /\ z ^ 4 = Rpower y (8 / 10).
Proof.
  intros Hy z. repeat split; [apply Rpower_pos | |].
  - unfold z. rewrite Rpower_pow_r by exact Hy. replace (1 / 5 * INR 5) with 1 by (cbn; field). now apply Rpower_1.
  - unfold z. rewrite Rpower_pow_r by exact Hy. f_equal. cbn; field.
Qed.
Lemma half5_sq x : 0 < x -> Rpower x (5 / 2) ^ 2 = x ^ 5.
Proof.
  intros Hx. rewrite Rpower_pow_r by exact Hx. rewrite <- Rpower_pow by exact Hx. f_equal. cbn; field.
Qed.
Lemma guess_value c r rs : 0 < c -> 0 < r -> 11 / 4 < rs ->
  let s := / (2 * rs) in let z := Rpower (rs / r) (1 / 5) in let d := 1 - 11 / 2 * s in
  get_Tfunc r (5 / 2) (bondi_C1 (5 / 2) rs) (bondi_C2 (5 / 2) rs) (c * temp_guess r (bondi_Tc (5 / 2) rs) rs) * d ^ 2
  = (d + c * (5 / 2) * s * z ^ 4) ^ 2 * (1 - 4 * s * z ^ 5 + s / c ^ 5) - (1 - 3 * s) ^ 3.
Proof.
  intros Hc Hr Hrs s z d.
  assert (Hy : 0 < rs / r) by (apply Rdiv_lt_0_compat; lra).
  destruct (fifth_root (rs / r) Hy) as (Hz & Z5 & Z4). fold z in Hz, Z5, Z4.
  destruct (s_bound (5 / 2) rs) as (A & B); try lra. fold s in A, B.
  assert (Hd : 0 < d) by (unfold d; lra).
  assert (HT := Tc_pos (5 / 2) rs ltac:(lra) ltac:(lra)).
  unfold get_Tfunc. rewrite C2_val by lra. fold s.
  assert (HTg : 0 < c * temp_guess r (bondi_Tc (5 / 2) rs) rs).
  { apply Rmult_lt_0_compat; [exact Hc|]. apply Rmult_lt_0_compat; [exact HT | apply Rpower_pos]. }
  assert (U : (bondi_C1 (5 / 2) rs / (r * r * Rpower (c * temp_guess r (bondi_Tc (5 / 2) rs) rs) (5 / 2))) ^ 2 = s / c ^ 5).
  { assert (P := Rpower_pos (c * temp_guess r (bondi_Tc (5 / 2) rs) rs) (5 / 2)).
    replace ((bondi_C1 (5 / 2) rs / (r * r * Rpower (c * temp_guess r (bondi_Tc (5 / 2) rs) rs) (5 / 2))) ^ 2)
      with (bondi_C1 (5 / 2) rs ^ 2 / (r ^ 4 * Rpower (c * temp_guess r (bondi_Tc (5 / 2) rs) rs) (5 / 2) ^ 2)) by (field; lra).
    rewrite half5_sq by exact HTg. unfold bondi_C1, temp_guess. rewrite <- Z4.
    replace ((bondi_uc rs * rs ^ 2 * Rpower (bondi_Tc (5 / 2) rs) (5 / 2)) ^ 2)
      with (bondi_uc rs ^ 2 * rs ^ 4 * Rpower (bondi_Tc (5 / 2) rs) (5 / 2) ^ 2) by ring.
    rewrite half5_sq, uc_sq by lra. fold s.
    replace ((c * (bondi_Tc (5 / 2) rs * z ^ 4)) ^ 5) with (c ^ 5 * bondi_Tc (5 / 2) rs ^ 5 * (z ^ 5) ^ 4) by ring.
    rewrite Z5. field. repeat split; lra. }
  rewrite U. unfold temp_guess. rewrite <- Z4, Z5.
  replace (2 / r) with (4 * s * (rs / r)) by (unfold s; field; lra).
  rewrite Tc_val by lra. fold s. replace (1 - (3 + 5 / 2) * s) with d by (unfold d; lra).
  transitivity ((d + c * (5 / 2) * s * z ^ 4) ^ 2 * (1 - 4 * s * (rs / r) + s / c ^ 5) - (d + 5 / 2 * s) ^ 2 * (1 - 3 * s)).
  - assert (C5 : c ^ 5 <> 0) by (apply pow_nonzero; lra). field. repeat split; lra.
  - replace (d + 5 / 2 * s) with (1 - 3 * s) by (unfold d; lra). f_equal. clear. clearbody s. ring.
Qed.
(** 5 z^4 - 4 z^5 <= 1 *)
Lemma quintic z : 0 < z -> z <> 1 -> 5 * z ^ 4 - 4 * z ^ 5 < 1.
Proof.
  intros Hz H1. assert (Q : 1 - (5 * z ^ 4 - 4 * z ^ 5) = (z - 1) ^ 2 * (4 * z ^ 3 + 3 * z ^ 2 + 2 * z + 1)) by ring.
  assert (0 < (z - 1) ^ 2) by (apply pow2_gt_0; lra).
  assert (0 < 4 * z ^ 3 + 3 * z ^ 2 + 2 * z + 1) by (assert (0 < z ^ 3) by (apply pow_lt; lra); assert (0 < z ^ 2) by (apply pow_lt; lra); lra).
  assert (0 < (z - 1) ^ 2 * (4 * z ^ 3 + 3 * z ^ 2 + 2 * z + 1)) by (apply Rmult_lt_0_compat; assumption). lra.
Qed.
(** A A B <= ((2 A + B) / 3)^3 *)
Lemma amgm3 A B : 0 <= A -> 0 <= B -> A ^ 2 * B <= ((2 * A + B) / 3) ^ 3.
Proof.
  intros HA HB. assert (E : ((2 * A + B) / 3) ^ 3 - A ^ 2 * B = (A - B) ^ 2 * (8 * A + B) / 27) by field.
  assert (Q := pow2_ge_0 (A - B)). assert (0 <= (A - B) ^ 2 * (8 * A + B)) by (apply Rmult_le_pos; lra). lra.
Qed.
Lemma cube_lt a b : 0 <= b -> a < b -> a ^ 3 < b ^ 3.
Proof.
  intros Hb H. assert (E : b ^ 3 - a ^ 3 = (b - a) * (b ^ 2 + b * a + a ^ 2)) by ring.
  assert (0 < b ^ 2 + b * a + a ^ 2). { destruct (Req_dec b 0) as [->|N]; [assert (0 < a ^ 2) by (apply pow2_gt_0; lra); lra|]. assert (0 < b ^ 2) by (apply pow2_gt_0; lra). assert (Q := pow2_ge_0 (b / 2 + a)). nra. }
  assert (0 < (b - a) * (b ^ 2 + b * a + a ^ 2)) by (apply Rmult_lt_0_compat; lra). lra.
Qed.
Lemma z_ne_1 rs r : 0 < r -> 0 < rs -> r <> rs -> Rpower (rs / r) (1 / 5) <> 1.
Proof.
  intros Hr Hrs Hne E. assert (Hy : 0 < rs / r) by (apply Rdiv_lt_0_compat; lra).
  destruct (fifth_root _ Hy) as (_ & Z5 & _). rewrite E, pow1 in Z5. apply Hne.
  apply (Rmult_eq_compat_r r) in Z5. unfold Rdiv in Z5. rewrite Rmult_assoc, Rinv_l, Rmult_1_r, Rmult_1_l in Z5 by lra. exact Z5.
Qed.

(** the temperature guess lies strictly between the two roots of the residual at every radius but the sonic one *)
Theorem C48_guess : forall r rs, 0 < r -> 11 / 4 < rs -> r <> rs ->
  get_Tfunc r (5 / 2) (bondi_C1 (5 / 2) rs) (bondi_C2 (5 / 2) rs) (temp_guess r (bondi_Tc (5 / 2) rs) rs) < 0.
Proof.
  intros r rs Hr Hrs Hne. assert (G := guess_value 1 r rs ltac:(lra) Hr Hrs). cbv zeta in G. rewrite !Rmult_1_l in G.
  destruct (s_bound (5 / 2) rs) as (A & B); try lra.
  assert (Hz1 := z_ne_1 rs r Hr ltac:(lra) Hne). set (z := Rpower (rs / r) (1 / 5)) in *. assert (Hz : 0 < z) by apply Rpower_pos.
  set (s := / (2 * rs)) in *. set (f := get_Tfunc _ _ _ _ _) in *. clearbody z s f.
  assert (D : 0 < (1 - 11 / 2 * s) ^ 2) by (apply pow2_gt_0; lra).
  assert (Neg : (1 - 11 / 2 * s + 5 / 2 * s * z ^ 4) ^ 2 * (1 - 4 * s * z ^ 5 + s / 1 ^ 5) - (1 - 3 * s) ^ 3 < 0).
  { assert (Z4 : 0 < z ^ 4) by (apply pow_lt; lra). assert (Q := quintic z Hz Hz1). replace (s / 1 ^ 5) with s by field.
    set (a := 1 - 11 / 2 * s + 5 / 2 * s * z ^ 4). set (b := 1 - 4 * s * z ^ 5 + s).
    assert (Ha : 0 < a) by (unfold a; nra).
    assert (C3 : 0 < (1 - 3 * s) ^ 3) by (apply pow_lt; lra).
    destruct (Rle_or_lt b 0) as [Hb|Hb].
    - assert (a ^ 2 * b <= 0) by (assert (P := pow2_ge_0 a); nra). lra.
    - assert (M := amgm3 a b ltac:(lra) ltac:(lra)).
      assert (C := cube_lt ((2 * a + b) / 3) (1 - 3 * s) ltac:(lra) ltac:(unfold a, b; nra)). lra. }
  rewrite <- G in Neg. nra.
Qed.
Print Assumptions C48_guess.

Lemma sign_of_product f d P : f * d ^ 2 = P -> 0 < d -> (P < 0 -> f < 0) /\ (0 < P -> 0 < f).
Proof. intros E Hd. assert (0 < d ^ 2) by (apply pow_lt; exact Hd). split; intros; nra. Qed.

Lemma pow_le_1 z k : 0 < z -> z <= 1 -> z ^ k <= 1.
Proof. intros Hz H1. rewrite <- (pow1 k). apply pow_incr. lra. Qed.
Lemma bracket_inside r rs : 2 <= r < rs -> 11 / 4 < rs <= 40000 ->
  0 < get_Tfunc r (5 / 2) (bondi_C1 (5 / 2) rs) (bondi_C2 (5 / 2) rs) (1 / 10 * temp_guess r (bondi_Tc (5 / 2) rs) rs).
Proof.
  intros (Hr & Hr2) (Hrs & Hrs2). assert (G := guess_value (1 / 10) r rs ltac:(lra) ltac:(lra) Hrs). cbv zeta in G.
  destruct (s_bound (5 / 2) rs) as (A & B); try lra.
  assert (L : 1 / 80000 <= / (2 * rs)). { unfold Rdiv. rewrite Rmult_1_l. apply Rinv_le_contravar; lra. }
  assert (Hy : 0 < rs / r) by (apply Rdiv_lt_0_compat; lra).
  assert (Hy1 : 1 < rs / r). { apply (Rmult_lt_reg_r r); [lra|]. unfold Rdiv. rewrite Rmult_assoc, Rinv_l; lra. }
  destruct (fifth_root _ Hy) as (Hz & Z5 & _). set (z := Rpower (rs / r) (1 / 5)) in *.
  assert (Z1 : 1 < z). { destruct (Rle_or_lt z 1) as [Q|Q]; [|exact Q]. assert (C := pow_le_1 z 5 Hz Q). lra. }
  assert (Y : 4 * / (2 * rs) * z ^ 5 <= 1).
  { rewrite Z5. replace (4 * / (2 * rs) * (rs / r)) with (2 * / r) by (field; lra).
    apply (Rmult_le_reg_r r); [lra|]. rewrite Rmult_assoc, Rinv_l; lra. }
  set (s := / (2 * rs)) in *. apply (sign_of_product _ (1 - 11 / 2 * s) _ G); [lra|].
  assert (Z4 : 1 < z ^ 4) by (apply Rlt_pow_R1; [exact Z1 | lia]). set (w := z ^ 4) in *. set (q := z ^ 5) in *.
  replace (s / (1 / 10) ^ 5) with (100000 * s) by field. clearbody z s w q. clear G Hrs Hrs2 Z5 Hy Hr.
  set (a := 1 - 11 / 2 * s + 1 / 10 * (5 / 2) * s * w).
  assert (Ha : 1 - 21 / 4 * s < a) by (unfold a; nra).
  assert (a2 : (1 - 21 / 4 * s) ^ 2 < a ^ 2) by nra.
  assert (C3 : (1 - 3 * s) ^ 3 < 1) by (rewrite <- (pow1 3); apply cube_lt; lra).
  assert (K : 1 < (1 - 21 / 4 * s) ^ 2 * (100000 * s)).
  { destruct (Rle_or_lt s (1 / 1000)) as [S1|S1]; [|destruct (Rle_or_lt s (1 / 10)) as [S2|S2]].
    - assert (98 / 100 <= (1 - 21 / 4 * s) ^ 2) by nra. apply Rlt_le_trans with (98 / 100 * (100000 * s)); [lra | apply Rmult_le_compat_r; lra].
    - assert (1 / 5 <= (1 - 21 / 4 * s) ^ 2) by nra. apply Rlt_le_trans with (1 / 5 * (100000 * s)); [lra | apply Rmult_le_compat_r; lra].
    - assert (1 / 500 <= (1 - 21 / 4 * s) ^ 2) by nra. apply Rlt_le_trans with (1 / 500 * (100000 * s)); [lra | apply Rmult_le_compat_r; lra]. }
  assert (a ^ 2 * (100000 * s) <= a ^ 2 * (1 - 4 * s * q + 100000 * s)) by (apply Rmult_le_compat_l; [apply pow2_ge_0 | lra]).
  nra.
Qed.
Lemma bracket_outside r rs : 0 < r -> rs < r <= 25 * rs -> 11 / 4 < rs ->
  0 < get_Tfunc r (5 / 2) (bondi_C1 (5 / 2) rs) (bondi_C2 (5 / 2) rs) (10 * temp_guess r (bondi_Tc (5 / 2) rs) rs).
Proof.
  intros Hr (Hr1 & Hr2) Hrs. assert (G := guess_value 10 r rs ltac:(lra) ltac:(lra) Hrs). cbv zeta in G.
  destruct (s_bound (5 / 2) rs) as (A & B); try lra.
  assert (Hy : 0 < rs / r) by (apply Rdiv_lt_0_compat; lra).
  assert (Hy1 : rs / r < 1). { apply (Rmult_lt_reg_r r); [lra|]. unfold Rdiv. rewrite Rmult_assoc, Rinv_l; lra. }
  assert (Hy2 : 1 / 25 <= rs / r). { apply (Rmult_le_reg_r r); [lra|]. unfold Rdiv at 2. rewrite Rmult_assoc, Rinv_l; lra. }
  destruct (fifth_root _ Hy) as (Hz & Z5 & _). set (z := Rpower (rs / r) (1 / 5)) in *.
  assert (Z1 : z < 1). { destruct (Rle_or_lt 1 z) as [Q|Q]; [|exact Q]. assert (C := pow_R1_Rle z 5 Q). lra. }
  assert (W : 761 / 10000 <= z ^ 4).
  { destruct (Rle_or_lt (761 / 10000) (z ^ 4)) as [Q|Q]; [exact Q|exfalso].
    assert (C : (z ^ 4) ^ 5 <= (761 / 10000) ^ 5) by (apply pow_incr; split; [left; apply pow_lt; exact Hz | lra]).
    replace ((z ^ 4) ^ 5) with ((z ^ 5) ^ 4) in C by ring. rewrite Z5 in C.
    assert (C2 : (1 / 25) ^ 4 <= (rs / r) ^ 4) by (apply pow_incr; lra). lra. }
  assert (W1 : z ^ 5 <= z ^ 4) by (assert (0 < z ^ 4) by (apply pow_lt; lra); change (z ^ 5) with (z * z ^ 4); nra).
  assert (W2 : z ^ 4 <= 1) by (apply pow_le_1; lra).
  set (s := / (2 * rs)) in *. apply (sign_of_product _ (1 - 11 / 2 * s) _ G); [lra|].
  set (w := z ^ 4) in *. set (q := z ^ 5) in *.
  replace (s / 10 ^ 5) with (s / 100000) by field. clearbody z s w q. clear G Hrs Z5 Hy Hr Hr1 Hr2 Hy1 Hy2 Hz Z1.
  assert (T0 : 761 / 10000 * s <= s * w <= s) by nra.
  assert (B1 : 1 - 4 * (s * w) <= 1 - 4 * s * q + s / 100000) by nra.
  replace (10 * (5 / 2) * s * w) with (25 * (s * w)) by field. set (t := s * w) in *.
  assert (C3 : (1 - 3 * s) ^ 3 < 1) by (rewrite <- (pow1 3); apply cube_lt; lra).
  assert (M : (1 - 11 / 2 * s + 25 * t) ^ 2 * (1 - 4 * t) <= (1 - 11 / 2 * s + 25 * t) ^ 2 * (1 - 4 * s * q + s / 100000)) by (apply Rmult_le_compat_l; [apply pow2_ge_0 | lra]).
  destruct (Rle_or_lt t (15 / 100)) as [Ht|Ht].
  - set (t0 := 761 / 10000 * s) in *.
    assert (I : (1 - 11 / 2 * s + 25 * t0) ^ 2 * (1 - 4 * t0) <= (1 - 11 / 2 * s + 25 * t) ^ 2 * (1 - 4 * t)).
    { assert (P0 : 0 < 1 - 11 / 2 * s + 25 * t0) by (unfold t0; lra).
      set (e := 1 - 11 / 2 * s) in *. assert (He : 0 < e <= 1) by (unfold e; lra). assert (Ht0 : 0 <= t0) by (unfold t0; lra). clearbody e t0.
      replace ((e + 25 * t) ^ 2 * (1 - 4 * t)) with ((e + 25 * t0) ^ 2 * (1 - 4 * t0) + (t - t0) * (50 * e - 4 * e ^ 2 + (625 - 200 * e) * (t + t0) - 2500 * (t ^ 2 + t * t0 + t0 ^ 2))) by ring.
      assert (0 <= 50 * e - 4 * e ^ 2 + (625 - 200 * e) * (t + t0) - 2500 * (t ^ 2 + t * t0 + t0 ^ 2)).
      { assert (t0 <= t) by lra. assert (t ^ 2 <= 15 / 100 * t) by nra. assert (t * t0 <= 15 / 100 * t0) by nra. assert (t0 ^ 2 <= 15 / 100 * t0) by nra.
        assert (e ^ 2 <= e) by nra. assert (0 <= (t - t0) * (250 - 200 * e)) by (apply Rmult_le_pos; lra).
        assert (0 <= 46 * e - 400 * (t0 * e) + 125 * t0) by nra. nra. }
      nra. }
    assert (E : 0 < (1 - 11 / 2 * s + 25 * t0) ^ 2 * (1 - 4 * t0) - (1 - 3 * s) ^ 3).
    { unfold t0. replace ((1 - 11 / 2 * s + 25 * (761 / 10000 * s)) ^ 2 * (1 - 4 * (761 / 10000 * s)) - (1 - 3 * s) ^ 3)
        with (s * (7503 / 5000 - 47471343 / 4000000 * s + 9224181319 / 400000000 * s ^ 2)) by field.
      apply Rmult_lt_0_compat; [lra | nra]. }
    lra.
  - assert (3 < 1 - 11 / 2 * s + 25 * t) by lra. assert (1 / 4 < 1 - 4 * t) by lra.
    assert (9 < (1 - 11 / 2 * s + 25 * t) ^ 2) by nra. nra.
Qed.
Lemma bracket_signs r rs : 2 <= r <= 25 * rs -> 11 / 4 < rs <= 40000 -> r <> rs ->
  let f := get_Tfunc r (5 / 2) (bondi_C1 (5 / 2) rs) (bondi_C2 (5 / 2) rs) in
  f (temp_min r (bondi_Tc (5 / 2) rs) rs) * f (temp_max r (bondi_Tc (5 / 2) rs) rs) < 0.
Proof.
  intros Hr Hrs Hne f. assert (G := C48_guess r rs ltac:(lra) ltac:(lra) Hne). fold f in G.
  unfold temp_min, temp_max. destruct (Rlt_bool_spec r rs) as [L|L].
  - assert (I := bracket_inside r rs ltac:(lra) Hrs). fold f in I. nra.
  - assert (I := bracket_outside r rs ltac:(lra) ltac:(lra) ltac:(lra)). fold f in I. nra.
Qed.

(** ** the residual as a function of T *)
Definition resid_slope (r n C1 T : R) : R := (n + 1) * (1 - 2 / r) * Rpower T (2 * n) - (C1 / (r * r)) ^ 2 * (n / T + (n + 1) * (n - 1)).
Lemma resid_derive r n C1 C2 T : r <> 0 -> 0 < T ->
  is_derive (get_Tfunc r n C1 C2) T (2 * (1 + (1 + n) * T) / Rpower T (2 * n) * resid_slope r n C1 T).
Proof.
  intros Hr HT. unfold resid_slope. rewrite Rpower_double. assert (P := Rpower_pos T n). unfold get_Tfunc, Rpower in *. auto_derive.
  - repeat split; try lra. repeat apply Rmult_integral_contrapositive_currified; lra.
  - match goal with |- @eq _ ?x ?y => change (@eq R x y) end. set (E := exp (n * ln T)) in *. clearbody E. field. repeat split; lra.
Qed.
Lemma resid_slope_incr r n C1 x y : 2 <= r -> 0 < n -> C1 <> 0 -> 0 < x -> x < y -> resid_slope r n C1 x < resid_slope r n C1 y.
Proof.
  intros Hr Hn HC Hx Hxy. unfold resid_slope.
  assert (A : 0 <= (n + 1) * (1 - 2 / r)).
  { apply Rmult_le_pos; [lra|]. assert (2 / r <= 1); [|lra]. apply (Rmult_le_reg_r r); [lra|]. unfold Rdiv. rewrite Rmult_assoc, Rinv_l; lra. }
  assert (P : Rpower x (2 * n) < Rpower y (2 * n)) by (apply Rlt_Rpower_l; lra).
  assert (Cq : 0 < (C1 / (r * r)) ^ 2).
  { apply pow2_gt_0. unfold Rdiv. apply Rmult_integral_contrapositive_currified; [exact HC|]. apply Rinv_neq_0_compat. nra. }
  assert (D : n / y < n / x). { unfold Rdiv. apply Rmult_lt_compat_l; [lra|]. apply Rinv_lt_contravar; [apply Rmult_lt_0_compat; lra | lra]. }
  nra.
Qed.
Lemma resid_mvt r n C1 C2 x y : r <> 0 -> 0 < n -> 0 < x -> x < y ->
  exists c k, x < c < y /\ 0 < k /\ get_Tfunc r n C1 C2 y - get_Tfunc r n C1 C2 x = k * resid_slope r n C1 c.
Proof.
  intros Hr Hn Hx Hxy.
  destruct (MVT_cor2 (get_Tfunc r n C1 C2) (fun T => 2 * (1 + (1 + n) * T) / Rpower T (2 * n) * resid_slope r n C1 T) x y Hxy) as (c & E & Hc).
  { intros t Ht. apply is_derive_Reals. apply resid_derive; lra. }
  exists c, ((y - x) * (2 * (1 + (1 + n) * c) / Rpower c (2 * n))). split; [exact Hc|]. split.
  - apply Rmult_lt_0_compat; [lra|]. apply Rdiv_lt_0_compat; [|apply Rpower_pos]. nra.
  - rewrite E. ring.
Qed.
Lemma resid_unique r n C1 C2 T0 T1 T2 : 2 <= r -> 0 < n -> C1 <> 0 -> 0 < T0 -> get_Tfunc r n C1 C2 T0 < 0 ->
  0 < T1 -> 0 < T2 -> get_Tfunc r n C1 C2 T1 = 0 -> get_Tfunc r n C1 C2 T2 = 0 -> (T0 < T1 <-> T0 < T2) -> T1 = T2.
Proof.
  intros Hr Hn HC H0 F0 H1 H2 F1 F2 Side.
  assert (W : forall x y, 0 < x -> x < y -> get_Tfunc r n C1 C2 x = 0 -> get_Tfunc r n C1 C2 y = 0 -> (T0 < x <-> T0 < y) -> False).
  { clear T1 T2 H1 H2 F1 F2 Side. intros x y Hx Hxy Fx Fy Side.
    destruct (resid_mvt r n C1 C2 x y ltac:(lra) Hn Hx Hxy) as (c & k & Hc & Hk & E). rewrite Fx, Fy in E.
    assert (Q : resid_slope r n C1 c = 0) by nra.
    destruct (Rlt_or_le T0 x) as [L|L].
    - destruct (resid_mvt r n C1 C2 T0 x ltac:(lra) Hn H0 L) as (c' & k' & Hc' & Hk' & E'). rewrite Fx in E'.
      assert (M := resid_slope_incr r n C1 c' c Hr Hn HC ltac:(lra) ltac:(lra)). nra.
    - assert (L2 : y < T0). { destruct (Rtotal_order y T0) as [q|[q|q]]; [exact q | subst; lra | apply Side in q; lra]. }
      destruct (resid_mvt r n C1 C2 y T0 ltac:(lra) Hn ltac:(lra) L2) as (c' & k' & Hc' & Hk' & E'). rewrite Fy in E'.
      assert (M := resid_slope_incr r n C1 c c' Hr Hn HC ltac:(lra) ltac:(lra)). nra. }
  destruct (Rtotal_order T1 T2) as [L|[L|L]]; [exfalso; now apply (W T1 T2) | exact L | exfalso; apply (W T2 T1); auto; tauto].
Qed.

(** ** the bisection *)
Lemma sign_change_root (f : R -> R) a b : a < b -> (forall x, a <= x <= b -> continuity_pt f x) -> f a * f b < 0 -> exists z, a < z < b /\ f z = 0.
Proof.
  intros H01 Hc Hs. destruct (Rtotal_order (f a) 0) as [N|[N|N]].
  - destruct (Ranalysis5.IVT_interv f a b) as (z & Hz & Ez); [exact Hc | exact H01 | exact N | nra |].
    exists z. assert (z <> a) by (intros ->; lra). assert (z <> b) by (intros ->; rewrite Ez in Hs; lra). split; [lra | exact Ez].
  - rewrite N in Hs. lra.
  - destruct (Ranalysis5.IVT_interv (fun x => - f x) a b) as (z & Hz & Ez); [intros x Hx; apply (continuity_pt_opp f); apply Hc; exact Hx | exact H01 | lra | nra |].
    exists z. assert (E : f z = 0) by lra. assert (z <> a) by (intros ->; lra). assert (z <> b) by (intros ->; rewrite E in Hs; lra). split; [lra | exact E].
Qed.
Lemma temp_loop_correct f Tm TM : 0 < Tm -> (forall x, Tm <= x <= TM -> continuity_pt f x) -> forall fuel T0 T1,
  Tm <= T0 -> T1 <= TM -> T0 < T1 -> f T0 * f T1 < 0 -> T1 - T0 <= temp_rtol * Tm * 2 ^ fuel ->
  exists T, (forall more, temp_loop (fuel + more) f T0 (f T0) T1 = Found T) /\ T0 < T < T1 /\
    (Rabs (f T) <= temp_ftol \/ exists z, T0 < z < T1 /\ f z = 0 /\ Rabs (T - z) <= temp_rtol * T).
Proof.
  intros Hm Hc. assert (Rt : 0 < temp_rtol) by (unfold temp_rtol; apply Rinv_0_lt_compat; lra).
  induction fuel as [|fuel IH]; intros T0 T1 L U H01 Hs Hw.
  - exists (/ 2 * (T0 + T1)). rewrite pow_O, Rmult_1_r in Hw.
    assert (Hw2 : temp_rtol * Tm <= temp_rtol * (/ 2 * (T0 + T1))) by (apply Rmult_le_compat_l; lra).
    assert (W : (T1 - T0) / (/ 2 * (T0 + T1)) <= temp_rtol).
    { apply (Rmult_le_reg_r (/ 2 * (T0 + T1))); [lra|]. unfold Rdiv. rewrite Rmult_assoc, Rinv_l, Rmult_1_r by lra. lra. }
    split; [|split; [lra|]].
    + intros more. destruct more; cbn [Nat.add temp_loop]; rewrite (Rlt_bool_false temp_rtol) by exact W; reflexivity.
    + right. destruct (sign_change_root f T0 T1 H01) as (z & Hz & Ez); [intros x Hx; apply Hc; lra | exact Hs |].
      exists z. split; [exact Hz|]. split; [exact Ez|]. apply Rle_trans with (T1 - T0); [apply Rabs_le; lra | lra].
  - set (Th := / 2 * (T0 + T1)). assert (HTh : T0 < Th < T1) by (unfold Th; lra).
    destruct (Rlt_bool_spec temp_rtol ((T1 - T0) / Th)) as [G|G]; [destruct (Rlt_bool_spec temp_ftol (Rabs (f Th))) as [F|F]|].
    + destruct (Rlt_bool_spec (f Th * f T0) 0) as [S|S].
      * destruct (IH T0 Th L ltac:(lra) ltac:(lra) ltac:(lra)) as (T & E & R & Q); [cbn [pow] in Hw; unfold Th; lra|].
        exists T. split; [|split; [lra|]].
        { intros more. cbn [Nat.add temp_loop]. fold Th. rewrite (Rlt_bool_true temp_rtol) by exact G. rewrite (Rlt_bool_true temp_ftol) by exact F.
          rewrite (Rlt_bool_true (f Th * f T0)) by exact S. cbn [andb]. apply E. }
        destruct Q as [Q|(z & Hz & Q)]; [left; exact Q | right; exists z; split; [lra | exact Q]].
      * assert (Nz : f Th <> 0). { intros Z. rewrite Z, Rabs_R0 in F. unfold temp_ftol in F. assert (0 < / 10 ^ 14) by (apply Rinv_0_lt_compat; lra). lra. }
        destruct (IH Th T1 ltac:(lra) U ltac:(lra)) as (T & E & R & Q); [|cbn [pow] in Hw; unfold Th; lra|].
        { assert (Z0 : f T0 <> 0) by (intros Z; rewrite Z in Hs; lra).
          assert (S' : 0 < f Th * f T0). { destruct S as [S|S]; [exact S|]. exfalso. symmetry in S. apply Rmult_integral in S. tauto. }
          assert (M : (f Th * f T0) * (f T0 * f T1) < 0) by nra. assert (Z2 : 0 < f T0 ^ 2) by (apply pow2_gt_0; exact Z0).
          replace ((f Th * f T0) * (f T0 * f T1)) with (f T0 ^ 2 * (f Th * f T1)) in M by ring. nra. }
        exists T. split; [|split; [lra|]].
        { intros more. cbn [Nat.add temp_loop]. fold Th. rewrite (Rlt_bool_true temp_rtol) by exact G. rewrite (Rlt_bool_true temp_ftol) by exact F.
          rewrite (Rlt_bool_false (f Th * f T0)) by exact S. cbn [andb]. apply E. }
        destruct Q as [Q|(z & Hz & Q)]; [left; exact Q | right; exists z; split; [lra | exact Q]].
    + exists Th. split; [|split; [lra | left; exact F]].
      intros more. cbn [Nat.add temp_loop]. fold Th. rewrite (Rlt_bool_false temp_ftol) by exact F. rewrite Bool.andb_false_r. reflexivity.
    + exists Th. split; [|split; [lra|]].
      { intros more. cbn [Nat.add temp_loop]. fold Th. rewrite (Rlt_bool_false temp_rtol) by exact G. reflexivity. }
      assert (W : T1 - T0 <= temp_rtol * Th). { apply (Rmult_le_compat_r Th) in G; [|lra]. unfold Rdiv in G. rewrite Rmult_assoc, Rinv_l, Rmult_1_r in G by lra. exact G. }
      right. destruct (sign_change_root f T0 T1 H01) as (z & Hz & Ez); [intros x Hx; apply Hc; lra | exact Hs |].
      exists z. split; [exact Hz|]. split; [exact Ez|]. apply Rle_trans with (T1 - T0); [apply Rabs_le; lra | exact W].
Qed.

(** Gamma = 1.4, sonic radius between 11/4 and 40000, at every radius from 2 to 25 r_s but the sonic one: the
    search does not abort and ends; what it returns lies strictly inside the bracket -- below the guess (the
    supersonic branch) inside the sonic radius, above it (subsonic) outside -- where the residual has exactly one
    root, and it either has a residual of at most 1e-14 or lies within 1e-12 (relative) of that root. *)
Theorem C48_temperature : forall r rs, 2 <= r <= 25 * rs -> 11 / 4 < rs <= 40000 -> r <> rs ->
  let C1 := bondi_C1 (5 / 2) rs in let C2 := bondi_C2 (5 / 2) rs in let Tc := bondi_Tc (5 / 2) rs in
  let guess := Tc * Rpower (rs / r) (8 / 10) in
  let branch T := 0 < T /\ (r < rs -> guess / 10 < T < guess) /\ (rs < r -> guess < T < 10 * guess) in
  exists N T z, (forall fuel, (N <= fuel)%nat -> get_bondi_temp fuel r (5 / 2) C1 C2 Tc rs = Found T) /\
    branch T /\ branch z /\ get_Tfunc r (5 / 2) C1 C2 z = 0 /\
    (forall z', branch z' -> get_Tfunc r (5 / 2) C1 C2 z' = 0 -> z' = z) /\
    (Rabs (get_Tfunc r (5 / 2) C1 C2 T) <= 1 / 10 ^ 14 \/ Rabs (T - z) <= 1 / 10 ^ 12 * T).
Proof.
  intros r rs Hr Hrs Hne C1 C2 Tc guess branch.
  assert (Sg := bracket_signs r rs Hr Hrs Hne). cbv zeta in Sg. fold C1 C2 Tc in Sg.
  assert (Gn := C48_guess r rs ltac:(lra) ltac:(lra) Hne). fold C1 C2 Tc in Gn. change (temp_guess r Tc rs) with guess in Gn.
  assert (HT : 0 < Tc) by (apply Tc_pos; lra).
  assert (Hg : 0 < guess) by (apply Rmult_lt_0_compat; [exact HT | apply Rpower_pos]).
  set (f := get_Tfunc r (5 / 2) C1 C2) in *. set (Tm := temp_min r Tc rs) in *. set (TM := temp_max r Tc rs) in *.
  assert (Bm : 0 < Tm /\ Tm < TM /\ (r < rs -> Tm = guess / 10 /\ TM = guess) /\ (rs < r -> Tm = guess /\ TM = 10 * guess)).
  { unfold Tm, TM, temp_min, temp_max. change (temp_guess r Tc rs) with guess. destruct (Rlt_bool_spec r rs); repeat split; intros; lra. }
  destruct Bm as (M0 & M1 & M2 & M3).
  assert (Br : forall T, Tm < T < TM -> branch T). { intros T HTT. unfold branch. split; [lra|]. split; intros Q; [destruct (M2 Q) | destruct (M3 Q)]; lra. }
  assert (Ct : forall x, Tm <= x <= TM -> continuity_pt f x).
  { intros x Hx. apply derivable_continuous_pt. eexists. apply is_derive_Reals. apply resid_derive; lra. }
  assert (Rt : 0 < temp_rtol * Tm) by (apply Rmult_lt_0_compat; [unfold temp_rtol; apply Rinv_0_lt_compat; lra | exact M0]).
  destruct (Pow_x_infinity 2 ltac:(rewrite Rabs_pos_eq; lra) ((TM - Tm) / (temp_rtol * Tm))) as (N & HN). specialize (HN N (Nat.le_refl N)).
  rewrite Rabs_pos_eq in HN by (apply pow_le; lra).
  assert (Hw : TM - Tm <= temp_rtol * Tm * 2 ^ N).
  { apply Rge_le in HN. apply (Rmult_le_compat_l (temp_rtol * Tm)) in HN; [|lra]. unfold Rdiv in HN. rewrite <- Rmult_assoc, (Rmult_comm _ (TM - Tm)), Rmult_assoc, Rinv_r, Rmult_1_r in HN by lra. exact HN. }
  destruct (temp_loop_correct f Tm TM M0 Ct N Tm TM (Rle_refl _) (Rle_refl _) M1 Sg Hw) as (T & E & RT & Q).
  destruct (sign_change_root f Tm TM M1 Ct Sg) as (z0 & Hz0 & Fz0).
  assert (Un : forall z', branch z' -> f z' = 0 -> z' = z0).
  { intros z' (P' & B1 & B2) Fz'. assert (Q1 := C1_pos (5 / 2) rs ltac:(lra)). fold C1 in Q1.
    assert (Side : guess < z' <-> guess < z0) by (destruct (Rtotal_order r rs) as [L|[L|L]]; [destruct (M2 L), (B1 L) | contradiction | destruct (M3 L), (B2 L)]; split; intros; lra).
    apply (resid_unique r (5 / 2) C1 C2 guess); try assumption; lra. }
  exists N, T, z0. split; [|split; [|split; [|split; [|split]]]].
  - intros fuel Hf. unfold get_bondi_temp. fold f Tm TM. rewrite Rlt_bool_false by lra. replace fuel with (N + (fuel - N))%nat by lia. apply E.
  - apply Br. exact RT.
  - apply Br. exact Hz0.
  - exact Fz0.
  - exact Un.
  - unfold temp_rtol, temp_ftol in Q. destruct Q as [Q|(z & Hz & Fz & Q)]; [left; lra|right].
    rewrite <- (Un z (Br z Hz) Fz). lra.
Qed.
Print Assumptions C48_temperature.
Example C48_temperature_nonvacuous : 2 <= 100 <= 25 * 8 /\ 11 / 4 < 8 <= 40000 /\ 100 <> 8. Proof. lra. Qed.

(** Beyond 60 sonic radii the setup aborts: ten times the guess is still below the root. *)
Theorem C48_far_refuted : forall fuel r rs, 11 / 4 < rs -> 60 * rs <= r ->
  get_bondi_temp fuel r (5 / 2) (bondi_C1 (5 / 2) rs) (bondi_C2 (5 / 2) rs) (bondi_Tc (5 / 2) rs) rs = Aborts.
Proof.
  intros fuel r rs Hrs Hr. assert (G0 := C48_guess r rs ltac:(lra) Hrs ltac:(lra)).
  assert (G := guess_value 10 r rs ltac:(lra) ltac:(lra) Hrs). cbv zeta in G.
  assert (Neg : get_Tfunc r (5 / 2) (bondi_C1 (5 / 2) rs) (bondi_C2 (5 / 2) rs) (10 * temp_guess r (bondi_Tc (5 / 2) rs) rs) < 0).
  { destruct (s_bound (5 / 2) rs) as (A & B); try lra.
    assert (Hy : 0 < rs / r) by (apply Rdiv_lt_0_compat; lra).
    assert (Hy2 : rs / r <= 1 / 60). { apply (Rmult_le_reg_r r); [lra|]. unfold Rdiv at 1. rewrite Rmult_assoc, Rinv_l; lra. }
    destruct (fifth_root _ Hy) as (Hz & Z5 & _). set (z := Rpower (rs / r) (1 / 5)) in *.
    assert (W : z ^ 4 <= 379 / 10000).
    { destruct (Rle_or_lt (z ^ 4) (379 / 10000)) as [Q|Q]; [exact Q|exfalso].
      assert (C : (379 / 10000) ^ 5 <= (z ^ 4) ^ 5) by (apply pow_incr; lra).
      replace ((z ^ 4) ^ 5) with ((z ^ 5) ^ 4) in C by ring. rewrite Z5 in C.
      assert (C2 : (rs / r) ^ 4 <= (1 / 60) ^ 4) by (apply pow_incr; lra). lra. }
    assert (W0 : 0 < z ^ 4) by (apply pow_lt; exact Hz). assert (Q0 : 0 < z ^ 5) by (apply pow_lt; exact Hz).
    set (s := / (2 * rs)) in *. apply (sign_of_product _ (1 - 11 / 2 * s) _ G); [lra|].
    set (w := z ^ 4) in *. set (q := z ^ 5) in *. replace (s / 10 ^ 5) with (s / 100000) by field.
    clearbody z s w q. clear G G0 Hrs Hr Hy Hy2 Z5 Hz.
    assert (A1 : 0 < 1 - 11 / 2 * s + 10 * (5 / 2) * s * w <= 1 - 45525 / 10000 * s) by nra.
    assert (A2 : (1 - 11 / 2 * s + 10 * (5 / 2) * s * w) ^ 2 <= (1 - 45525 / 10000 * s) ^ 2) by (apply pow_incr; lra).
    assert (B1 : 1 - 4 * s * q + s / 100000 <= 1 + s / 100000) by nra.
    apply Rle_lt_trans with ((1 - 45525 / 10000 * s) ^ 2 * (1 + s / 100000) - (1 - 3 * s) ^ 3).
    - apply Rplus_le_compat_r. apply Rle_trans with ((1 - 11 / 2 * s + 10 * (5 / 2) * s * w) ^ 2 * (1 + s / 100000)).
      + apply Rmult_le_compat_l; [apply pow2_ge_0 | exact B1].
      + apply Rmult_le_compat_r; [lra | exact A2].
    - assert (0 < s * (1 / 10 + 6 * s - 28 * s ^ 2)) by (apply Rmult_lt_0_compat; [lra | nra]). nra. }
  unfold get_bondi_temp, temp_min, temp_max. rewrite !(Rlt_bool_false r rs) by lra. rewrite Rlt_bool_true; [reflexivity|]. nra.
Qed.
Print Assumptions C48_far_refuted.

Lemma temp_loop_above f : forall fuel T0 f0 T1 T, T0 <= T1 -> temp_loop fuel f T0 f0 T1 = Found T -> T0 <= T.
Proof.
  induction fuel as [|fuel IH]; intros T0 f0 T1 T H; cbn [temp_loop]; set (Th := / 2 * (T0 + T1)); assert (T0 <= Th <= T1) by (unfold Th; lra);
    destruct (_ && _)%bool; try discriminate; try (intros E; injection E; intros; lra).
  destruct (Rlt_bool _ _); intros E.
  - apply IH in E; lra.
  - apply IH in E; lra.
Qed.
(** At the sonic radius itself the left end of the bracket is the exact solution, with residual zero.  The search
    does not look at it: it never aborts there and whatever it returns is at least 5.5 times too hot. *)
Theorem C48_sonic_refuted : forall rs, 11 / 4 < rs ->
  let C1 := bondi_C1 (5 / 2) rs in let C2 := bondi_C2 (5 / 2) rs in let Tc := bondi_Tc (5 / 2) rs in
  get_Tfunc rs (5 / 2) C1 C2 Tc = 0 /\ temp_min rs Tc rs = Tc /\
  forall fuel, get_bondi_temp fuel rs (5 / 2) C1 C2 Tc rs <> Aborts /\
    forall T, get_bondi_temp fuel rs (5 / 2) C1 C2 Tc rs = Found T -> 11 / 2 * Tc <= T.
Proof.
  intros rs Hrs C1 C2 Tc.
  destruct (C48_critical (5 / 2) rs ltac:(lra) ltac:(lra)) as (HT & _ & F & _). fold C1 C2 Tc in HT, F.
  assert (G : temp_guess rs Tc rs = Tc). { unfold temp_guess. replace (rs / rs) with 1 by (field; lra). unfold Rpower. rewrite ln_1, Rmult_0_r, exp_0. ring. }
  assert (Tm : temp_min rs Tc rs = Tc) by (unfold temp_min; rewrite Rlt_bool_false by lra; exact G).
  assert (TM : temp_max rs Tc rs = 10 * Tc) by (unfold temp_max; rewrite Rlt_bool_false by lra; rewrite G; reflexivity).
  split; [exact F|]. split; [exact Tm|]. intros fuel. unfold get_bondi_temp. rewrite Tm, TM, F, (Rlt_bool_false 0 (0 * _)) by lra.
  assert (S : forall T, temp_loop fuel (get_Tfunc rs (5 / 2) C1 C2) Tc 0 (10 * Tc) = Found T -> 11 / 2 * Tc <= T).
  { destruct fuel as [|fuel]; cbn [temp_loop]; intros T; destruct (_ && _)%bool; try discriminate; try (intros E; injection E; intros; lra).
    match goal with |- context [Rlt_bool (?x * 0) 0] => rewrite (Rlt_bool_false (x * 0) 0) by lra end. intros E. apply temp_loop_above in E; lra. }
  split; [|exact S].
  clear S. generalize 0 at 1. generalize Tc at 1. generalize (10 * Tc). clear. induction fuel as [|fuel IH]; intros T1 T0 f0; cbn [temp_loop]; destruct (_ && _)%bool; try discriminate.
  destruct (Rlt_bool _ _); apply IH.
Qed.
Print Assumptions C48_sonic_refuted.

(** ** thermodynamics: the fluid of every cell is the isentropic ideal gas P = rho^Gamma *)
Theorem C48_thermo : forall a m gam Cv n C1 T x1 x2 x3 X, 1 < gam -> n = 1 / (gam - 1) -> Cv = n -> 0 < T ->
  let c := bondi_cell a m gam Cv n C1 T x1 x2 x3 X in
  0 < bc_rho c /\ bc_P c = bc_rho c * bc_T c /\ bc_P c = (gam - 1) * bc_u c /\ bc_P c = Rpower (bc_rho c) gam /\
  bc_u c = Cv * bc_rho c * bc_T c /\
  (bc_rho c + bc_u c + bc_P c) / bc_rho c = 1 + (n + 1) * bc_T c /\ bc_gam1 c = gam.
Proof.
  intros a m gam Cv n C1 T x1 x2 x3 X Hg Hn HC HT c. assert (P := Rpower_pos T n). unfold c, bondi_cell. cbn [bc_rho bc_T bc_P bc_u bc_gam1].
  assert (E : Rpower (Rpower T n) gam = Rpower T n * T).
  { rewrite Rpower_mult. replace (n * gam) with (n + 1) by (rewrite Hn; field; lra). rewrite Rpower_plus, Rpower_1 by exact HT. reflexivity. }
  rewrite E, HC. set (q := Rpower T n) in *. rewrite Hn. clear E c. clearbody q. repeat split; try lra; field; repeat split; lra.
Qed.
Print Assumptions C48_thermo.

(** ** the velocity in the coordinates of the code *)
Lemma set_u0_self u w : u 0%nat = w -> eq4 (set_u0 u w) u.
Proof. intros H mu _. destruct mu; [symmetry; exact H | reflexivity]. Qed.
Lemma eq4_trans u v w : eq4 u v -> eq4 v w -> eq4 u w. Proof. intros A B mu H. rewrite (A mu H). apply B. exact H. Qed.
Lemma eq4_sym u v : eq4 u v -> eq4 v u. Proof. intros A mu H. symmetry. apply A. exact H. Qed.
Lemma velocity_ext v v' gam al be : eq3 v v' -> eq4 (GetFourVelocity v gam al be) (GetFourVelocity v' gam al be).
Proof.
  intros E mu Hmu. unfold GetFourVelocity, GetLorentzFactor, sum3. rewrite !E by lia. destruct mu; [reflexivity|]. rewrite E by lia. reflexivity.
Qed.

Lemma bl_sym a X : symmetric4 (BL_SpacetimeMetric a X).
Proof. intros i j Hi Hj. idx; reflexivity. Qed.
(** Any spatial Boyer-Lindquist velocity, at any point of the grid off the horizon and the ergosurface, for any spin:
    normalising in Boyer-Lindquist, transforming, and renormalising in FMKS (what both problem generators do) changes
    nothing in the second step: the FMKS velocity is the transformed one, with the same norm and the same energy -u_t;
    and if its time component is positive, the four-velocity the code computes from the stored primitive
    u^i + W beta^i / alpha is again that vector. *)
Theorem C48_transform : forall a m X u, mgr_valid m -> mgr_x0 m <= X.[1] -> 0 <= X.[2] <= 1 ->
  let r := mgr_r m X.[1] in let g_bl := BL_SpacetimeMetric a (row4 0 r (mgr_th m X.[1] X.[2]) X.[3]) in
  let g := SpacetimeMetric (FMKS a m) X in
  r * r - 2 * r + a * a <> 0 -> g_bl 0%nat 0%nat <> 0 ->
  (exists w, dot4 g_bl (set_u0 u w) (set_u0 u w) = -1) ->
  let u_bl := set_u0 u (ucon_norm u g_bl) in
  let u_fmks := bl_to_fmks m X.[1] X.[2] X.[3] a u_bl in
  dot4 g u_fmks u_fmks = -1 /\ lower4 g u_fmks 0%nat = lower4 g_bl u_bl 0%nat /\
  eq4 (set_u0 u_fmks (ucon_norm u_fmks g)) u_fmks /\
  let al := Lapse (FMKS a m) X in let be := ContravariantShift (FMKS a m) X in
  (0 < u_fmks 0%nat -> eq4 (GetFourVelocity (fun d => u_fmks (d + 1)%nat + al * u_fmks 0%nat * be d / al) (Metric (FMKS a m) X) al be) u_fmks).
Proof.
  intros a m X u V H1 H2 r g_bl g HD H0 Ex u_bl u_fmks. assert (Sy : symmetric4 g_bl) by apply bl_sym.
  destruct (proj1 (C48_norm g_bl u Sy H0) Ex) as (N & L & _). fold u_bl in N, L.
  assert (Dt := fmks_dot a m X V H1 HD u_bl). fold r g_bl in Dt. change (dot4 g u_fmks u_fmks = dot4 g_bl u_bl u_bl) in Dt.
  assert (Lo := fmks_lower a m X V H1 HD u_bl). fold r g_bl in Lo. change (lower4 g u_fmks 0%nat = lower4 g_bl u_bl 0%nat) in Lo.
  assert (G0 := fmks_g00 a m X HD). fold r g_bl in G0. change (g 0%nat 0%nat = g_bl 0%nat 0%nat) in G0.
  assert (Tp := fmks_three_plus_one a m X V H1 H2). fold g in Tp.
  assert (Sg : symmetric4 g) by apply Tp.
  assert (Se : forall i j : nat, (i < 4)%nat -> (j < 4)%nat -> g i j = g i j) by reflexivity.
  assert (N' : dot4 g (set_u0 u_fmks (u_fmks 0%nat)) (set_u0 u_fmks (u_fmks 0%nat)) = -1).
  { rewrite (dot4_ext g g _ u_fmks Se (set_u0_self _ _ eq_refl)). rewrite Dt. exact N. }
  assert (L' : lower4 g (set_u0 u_fmks (u_fmks 0%nat)) 0%nat <= 0).
  { rewrite (lower4_ext g g _ u_fmks Se (set_u0_self _ _ eq_refl)). rewrite Lo. exact L. }
  assert (Eq : u_fmks 0%nat = ucon_norm u_fmks g).
  { apply (proj1 (C48_norm g u_fmks Sg ltac:(rewrite G0; exact H0))); [exists (u_fmks 0%nat); exact N' | exact N' | exact L']. }
  split; [rewrite Dt; exact N|]. split; [exact Lo|]. split; [apply set_u0_self; exact Eq|].
  intros al be Hp. apply eq4_trans with (GetFourVelocity (fun i => u_fmks (S i) + u_fmks 0%nat * be i) (Metric (FMKS a m) X) al be).
  - apply velocity_ext. intros i Hi. rewrite Nat.add_1_r. assert (0 < al) by apply Tp. field. lra.
  - apply (C16_four_velocity_onto _ _ _ _ u_fmks Tp); [rewrite Dt; exact N | exact Hp].
Qed.
Print Assumptions C48_transform.

(** ** the steady flow *)
Lemma radial_energy (g : mat) ur : symmetric4 g -> g 0%nat 1%nat = 0 -> g 0%nat 0%nat < 0 -> 0 <= g 1%nat 1%nat ->
  let u := row4 0 ur 0 0 in let u4 := set_u0 u (ucon_norm u g) in
  dot4 g u4 u4 = -1 /\ lower4 g u4 0%nat ^ 2 = - g 0%nat 0%nat * (1 + g 1%nat 1%nat * ur ^ 2) /\ 0 < u4 0%nat.
Proof.
  intros Sy H01 H00 H11 u u4.
  assert (B : ucon_BB u g = 0) by (unfold ucon_BB, u; cbn [row4]; rewrite H01; ring).
  assert (C : ucon_CC u g = 1 + g 1%nat 1%nat * ur ^ 2) by (unfold ucon_CC, u; cbn [row4]; ring).
  assert (Cp : 0 < ucon_CC u g) by (rewrite C; assert (Q := pow2_ge_0 ur); nra).
  assert (D : ucon_discr u g = 4 * (- g 0%nat 0%nat * ucon_CC u g)) by (unfold ucon_discr, ucon_AA; rewrite B; ring).
  assert (Dp : 0 < ucon_discr u g) by (rewrite D; nra).
  destruct (norm_root g u Sy ltac:(lra) ltac:(lra)) as (N & L). fold u4 in N, L.
  split; [exact N|]. split.
  - rewrite L. replace ((- (sqrt (ucon_discr u g) / 2)) ^ 2) with (sqrt (ucon_discr u g) * sqrt (ucon_discr u g) / 4) by field.
    rewrite sqrt_sqrt by lra. rewrite D, C. field.
  - unfold u4, set_u0, ucon_norm. rewrite B. unfold ucon_AA.
    replace ((- 0 - sqrt (ucon_discr u g)) / (2 * g 0%nat 0%nat)) with (sqrt (ucon_discr u g) / (2 * - g 0%nat 0%nat)) by (field; lra).
    apply Rdiv_lt_0_compat; [apply sqrt_lt_R0; exact Dp | lra].
Qed.
Lemma bl_static r th x3 : 2 < r -> BL_SpacetimeMetric 0 (row4 0 r th x3) 0%nat 0%nat = - (1 - 2 / r) /\
  BL_SpacetimeMetric 0 (row4 0 r th x3) 1%nat 1%nat = / (1 - 2 / r).
Proof.
  intros Hr. unfold BL_SpacetimeMetric, rows4, row4. rewrite !Rabs_pos_eq by lra. unfold bl_mu, bl_DD. rewrite !Rmult_0_l, !gratio_num0, !Rplus_0_r, !Rmult_1_r.
  rewrite !gratio_nz by lra. split; [lra|]. field. lra.
Qed.

(** Without spin, outside the horizon, in every cell whose temperature T is positive: the four-velocity the code
    recovers from the stored velocity has norm -1 and u^0 > 0, is purely radial (dx^theta = dx^phi = 0 under the map to
    Boyer-Lindquist coordinates), carries the accretion rate r^2 rho u^r = -C1 through every sphere, and its energy
    (h u_t)^2 differs from the Bernoulli constant C2 by exactly the residual left by the temperature search. *)
Theorem C48_steady : forall m X gam Cv n C1 C2 T, mgr_valid m -> mgr_x0 m <= X.[1] -> 0 <= X.[2] <= 1 -> 2 < mgr_r m X.[1] ->
  1 < gam -> n = 1 / (gam - 1) -> Cv = n -> 0 < T ->
  let c := bondi_cell 0 m gam Cv n C1 T X.[1] X.[2] X.[3] X in
  let r := mgr_r m X.[1] in
  let U := GetFourVelocity (bc_v c) (Metric (FMKS 0 m) X) (Lapse (FMKS 0 m) X) (ContravariantShift (FMKS 0 m) X) in
  let J := tr_Jcov (McKinneyGammieRyan m) X.[1] X.[2] X.[3] in
  let ur := sum3 (fun j => J 0%nat j * U (S j)) in
  let g := SpacetimeMetric (FMKS 0 m) X in
  dot4 g U U = -1 /\ 0 < U 0%nat /\
  r ^ 2 * bc_rho c * ur = - C1 /\ sum3 (fun j => J 1%nat j * U (S j)) = 0 /\ sum3 (fun j => J 2%nat j * U (S j)) = 0 /\
  ((bc_rho c + bc_u c + bc_P c) / bc_rho c * lower4 g U 0%nat) ^ 2 = C2 + get_Tfunc r n C1 C2 T.
Proof.
  intros m X gam Cv n C1 C2 T V H1 H2 Hr Hg Hn HCv HT c r U J ur g.
  set (u := bondi_ucon_bl n C1 T r). set (g_bl := BL_SpacetimeMetric 0 (row4 0 r (mgr_th m X.[1] X.[2]) X.[3])).
  destruct (bl_static r (mgr_th m X.[1] X.[2]) X.[3] Hr) as (G0 & G1). fold g_bl in G0, G1. fold r in Hr.
  assert (F : 0 < 1 - 2 / r). { assert (2 / r < 1); [|lra]. apply (Rmult_lt_reg_r r); [lra|]. unfold Rdiv. rewrite Rmult_assoc, Rinv_l; lra. }
  assert (Fi : 0 < / (1 - 2 / r)) by (apply Rinv_0_lt_compat; exact F).
  set (vr := - C1 / (Rpower T n * r ^ 2)).
  destruct (radial_energy g_bl vr (bl_sym _ _) eq_refl ltac:(lra) ltac:(lra)) as (N & E & P0). change (row4 0 vr 0 0) with u in N, E, P0.
  set (u_bl := set_u0 u (ucon_norm u g_bl)) in *.
  destruct (C48_transform 0 m X u V H1 H2) as (Nf & Lf & Sf & Vf); fold r g_bl.
  { nra. }
  { lra. }
  { exists (ucon_norm u g_bl). exact N. }
  fold r g_bl u_bl g in Nf, Lf, Sf, Vf. set (u_f := bl_to_fmks m X.[1] X.[2] X.[3] 0 u_bl) in *. cbv zeta in Vf.
  assert (Ks := fmks_ks 0 m X V H1 u_bl). fold r u_f J in Ks.
  assert (Uf0 : u_f 0%nat = bl_to_ks 0 r u_bl 0%nat). { rewrite <- (Ks 0%nat) by lia. unfold apply4, S2ST, sum4. cbn. ring. }
  assert (Pf : 0 < u_f 0%nat).
  { destruct (proj2 (C48_norm g u_f ltac:(apply (fmks_three_plus_one 0 m X V H1 H2)) ltac:(unfold g; rewrite (fmks_g00 0 m X) by (fold r; nra); fold r g_bl; lra))) as (_ & _ & Q).
    - eexists _, _, _. exact (fmks_three_plus_one 0 m X V H1 H2).
    - unfold g; rewrite (fmks_g00 0 m X) by (fold r; nra); fold r g_bl; lra.
    - rewrite <- (Sf 0%nat) by lia. exact Q. }
  specialize (Vf Pf).
  assert (UE : eq4 U u_f).
  { apply eq4_trans with (2 := Vf). unfold U. apply velocity_ext. intros i Hi. unfold c, bondi_cell. cbn [bc_v].
    assert (Bu : eq4 (bondi_ucon 0 m n C1 T X.[1] X.[2] X.[3] X) u_f) by exact Sf.
    rewrite !Bu by lia. reflexivity. }
  assert (Jk : forall i, (i < 3)%nat -> sum3 (fun j => J i j * U (S j)) = bl_to_ks 0 r u_bl (S i)).
  { intros i Hi. unfold sum3. rewrite !UE by lia. rewrite <- (Ks (S i)) by lia. unfold apply4, S2ST, sum4. cbn [Nat.eqb orb Nat.sub]. rewrite Nat.sub_0_r. ring. }
  assert (RP := Rpower_pos T n).
  split; [|split; [|split; [|split; [|split]]]].
  - rewrite (dot4_ext g g U u_f) by (auto; reflexivity). exact Nf.
  - rewrite UE by lia. exact Pf.
  - unfold ur. rewrite Jk by lia. unfold bl_to_ks, bl_to_ks_trans, u_bl, u, bondi_ucon_bl, sum4, set_u0. cbn [rows4 row4]. unfold c, bondi_cell. cbn [bc_rho]. fold vr. unfold vr. field. split; lra.
  - rewrite Jk by lia. unfold bl_to_ks, bl_to_ks_trans, u_bl, u, bondi_ucon_bl, sum4, set_u0. cbn [rows4 row4]. ring.
  - rewrite Jk by lia. unfold bl_to_ks, bl_to_ks_trans, u_bl, u, bondi_ucon_bl, sum4, set_u0. cbn [rows4 row4]. ring.
  - destruct (C48_thermo 0 m gam Cv n C1 T X.[1] X.[2] X.[3] X Hg Hn HCv HT) as (_ & _ & _ & _ & _ & Hh & _). fold c in Hh. rewrite Hh. change (bc_T c) with T.
    rewrite (lower4_ext g g U u_f) by (auto; reflexivity). rewrite Lf.
    replace (((1 + (n + 1) * T) * lower4 g_bl u_bl 0%nat) ^ 2) with ((1 + (n + 1) * T) ^ 2 * lower4 g_bl u_bl 0%nat ^ 2) by ring.
    rewrite E, G0, G1. unfold get_Tfunc, vr. replace (C1 / (r * r * Rpower T n)) with (- (- C1 / (Rpower T n * r ^ 2))) by (field; split; lra).
    fold vr. field. split; nra.
Qed.
Print Assumptions C48_steady.

(** The setup accepts any spin a, but with a <> 0 the flow is not the steady solution: on the equator, outside the
    ergosurface, (h u_t)^2 falls short of the Bernoulli constant by h^2 (u^r)^2 a^2 / Delta even for an exact root. *)
Theorem C48_spin_refuted : forall a r x3 n C1 C2 T, a <> 0 -> C1 <> 0 -> 2 < r -> 0 < T -> 0 < n -> get_Tfunc r n C1 C2 T = 0 ->
  let u := bondi_ucon_full_bl a n C1 T r (PI / 2) x3 in
  let ut := lower4 (BL_SpacetimeMetric a (row4 0 r (PI / 2) x3)) u 0%nat in
  let h := 1 + (1 + n) * T in
  (h * ut) ^ 2 = C2 - h ^ 2 * u 1%nat ^ 2 * a ^ 2 / (r ^ 2 - 2 * r + a ^ 2) /\ (h * ut) ^ 2 < C2.
Proof.
  intros a r x3 n C1 C2 T Ha HC Hr HT Hn Hf u ut h. set (g := BL_SpacetimeMetric a (row4 0 r (PI / 2) x3)) in *.
  assert (D : 0 < r ^ 2 - 2 * r + a ^ 2) by (assert (Q := pow2_ge_0 a); nra).
  assert (G0 : g 0%nat 0%nat = - (1 - 2 / r)).
  { unfold g, BL_SpacetimeMetric, rows4, row4. rewrite !Rabs_pos_eq by lra. rewrite cos_PI2. unfold bl_mu. rewrite !Rmult_0_r, gratio_num0, Rplus_0_r, Rmult_1_r, gratio_nz by lra. lra. }
  assert (G1 : g 1%nat 1%nat = r ^ 2 / (r ^ 2 - 2 * r + a ^ 2)).
  { unfold g, BL_SpacetimeMetric, rows4, row4. rewrite !Rabs_pos_eq by lra. rewrite cos_PI2. unfold bl_mu, bl_DD. rewrite !Rmult_0_r, gratio_num0, Rplus_0_r, !gratio_nz by nra.
    assert (r * r - 2 * r + a * a <> 0) by nra. field. repeat split; nra. }
  assert (F : 0 < 1 - 2 / r). { assert (2 / r < 1); [|lra]. apply (Rmult_lt_reg_r r); [lra|]. unfold Rdiv. rewrite Rmult_assoc, Rinv_l; lra. }
  set (vr := - C1 / (Rpower T n * r ^ 2)).
  destruct (radial_energy g vr (bl_sym _ _) eq_refl ltac:(lra)) as (_ & E & _).
  { rewrite G1. left. apply Rdiv_lt_0_compat; [apply pow_lt; lra | exact D]. }
  change (lower4 g u 0%nat ^ 2 = - g 0%nat 0%nat * (1 + g 1%nat 1%nat * vr ^ 2)) in E. fold ut in E.
  assert (U1 : u 1%nat = vr) by reflexivity. rewrite U1. assert (RP := Rpower_pos T n).
  assert (Eq : (h * ut) ^ 2 = C2 - h ^ 2 * vr ^ 2 * a ^ 2 / (r ^ 2 - 2 * r + a ^ 2)).
  { replace ((h * ut) ^ 2) with (h ^ 2 * ut ^ 2) by ring. rewrite E, G0, G1.
    assert (HC2 : C2 = h ^ 2 * (1 - 2 / r + vr ^ 2)).
    { unfold get_Tfunc in Hf. fold h in Hf. unfold vr. replace (- C1 / (Rpower T n * r ^ 2)) with (- (C1 / (r * r * Rpower T n))) by (field; split; lra). lra. }
    rewrite HC2. clear HC2 E Hf. clearbody vr h. field. split; [lra | nra]. }
  split; [exact Eq|]. rewrite Eq. assert (0 < h ^ 2 * vr ^ 2 * a ^ 2 / (r ^ 2 - 2 * r + a ^ 2)); [|lra].
  apply Rdiv_lt_0_compat; [|exact D]. apply Rmult_lt_0_compat; [apply Rmult_lt_0_compat|]; apply pow2_gt_0.
  - unfold h. nra.
  - unfold vr, Rdiv. apply Rmult_integral_contrapositive_currified; [lra|]. apply Rinv_neq_0_compat. apply Rmult_integral_contrapositive_currified; [lra | apply pow_nonzero; lra].
  - exact Ha.
Qed.
Print Assumptions C48_spin_refuted.
Example C48_steady_nonvacuous : exists X, mgr_valid default_mgr /\ mgr_x0 default_mgr <= X.[1] /\ 0 <= X.[2] <= 1 /\ 2 < mgr_r default_mgr X.[1].
Proof.
  exists (row4 0 1 (1 / 4) 0). split; [apply C13_mgr_nonvacuous|]. split; [cbn; lra|]. split; [cbn; lra|].
  unfold mgr_r. cbn. rewrite Rlt_bool_false by lra. rewrite !Rmult_0_l, Rplus_0_r. assert (Q := exp_ineq1 1 ltac:(lra)). lra.
Qed.

(** Cells inside Rhor are given the solution at the first radius, counted outwards in steps
    of the cell width, that is not inside it; for a positive cell width the search ends. *)
Theorem C48_shift : forall m dx1 Rhor x1, 0 < dx1 -> 0 <= mgr_hexp_csq m ->
  exists k : nat,
    Rhor <= mgr_r m (x1 + INR k * dx1) /\ (forall j, (j < k)%nat -> mgr_r m (x1 + INR j * dx1) < Rhor) /\
    forall fuel, (k <= fuel)%nat -> bondi_x1 fuel m dx1 Rhor x1 = x1 + INR k * dx1.
Proof.
  intros m dx1 Rhor x1 Hd Hc.
  assert (G : forall x, exp x <= mgr_r m x).
  { intros x. unfold mgr_r. cbv zeta.
    assert (0 <= (if Rlt_bool 0 (x - mgr_hexp_br m) then 1 else 0) * mgr_hexp_csq m * (x - mgr_hexp_br m) ^ mgr_hexp_nsq m).
    { destruct (Rlt_bool_spec 0 (x - mgr_hexp_br m)) as [Q|Q]; [|rewrite !Rmult_0_l; lra].
      rewrite Rmult_1_l. apply Rmult_le_pos; [exact Hc|]. apply pow_le. lra. }
    destruct (Req_dec ((if Rlt_bool 0 (x - mgr_hexp_br m) then 1 else 0) * mgr_hexp_csq m * (x - mgr_hexp_br m) ^ mgr_hexp_nsq m) 0) as [Z|Z].
    - rewrite Z, Rplus_0_r. lra.
    - left. apply exp_increasing. lra. }
  assert (F : exists n, Rhor <= mgr_r m (x1 + INR n * dx1)).
  { destruct (nfloor_ex (Rmax 0 ((Rhor - x1) / dx1)) ltac:(apply Rmax_l)) as (n & _ & Hn).
    exists (S n). rewrite S_INR. eapply Rle_trans; [|apply G].
    assert (K := Rmax_r 0 ((Rhor - x1) / dx1)).
    assert (Rhor - x1 <= (INR n + 1) * dx1).
    { replace (Rhor - x1) with ((Rhor - x1) / dx1 * dx1) by (field; lra). apply Rmult_le_compat_r; lra. }
    pose proof (exp_ineq1_le (x1 + (INR n + 1) * dx1)). lra. }
  destruct F as (n & Hn).
  revert x1 Hn. induction n as [|n IH]; intros x1 Hn.
  - exists 0%nat. cbn [INR] in *. rewrite Rmult_0_l, Rplus_0_r in *. split; [exact Hn|]. split; [lia|].
    intros [|fuel] _; [reflexivity|]. cbn [bondi_x1]. rewrite Rlt_bool_false by exact Hn. reflexivity.
  - destruct (Rlt_or_le (mgr_r m x1) Rhor) as [Q|Q].
    + destruct (IH (x1 + dx1)) as (k & K1 & K2 & K3).
      { replace (x1 + dx1 + INR n * dx1) with (x1 + INR (S n) * dx1) by (rewrite S_INR; ring). exact Hn. }
      exists (S k). replace (x1 + INR (S k) * dx1) with (x1 + dx1 + INR k * dx1) by (rewrite S_INR; ring).
      split; [exact K1|]. split.
      * intros [|j] Hj; [cbn [INR]; rewrite Rmult_0_l, Rplus_0_r; exact Q|].
        replace (x1 + INR (S j) * dx1) with (x1 + dx1 + INR j * dx1) by (rewrite S_INR; ring). apply K2. lia.
      * intros [|fuel] Hf; [lia|]. cbn [bondi_x1]. rewrite Rlt_bool_true by exact Q. apply K3. lia.
    + exists 0%nat. cbn [INR]. rewrite Rmult_0_l, Rplus_0_r. split; [exact Q|]. split; [lia|].
      intros [|fuel] _; [reflexivity|]. cbn [bondi_x1]. rewrite Rlt_bool_false by exact Q. reflexivity.
Qed.
Print Assumptions C48_shift.
Example C48_shift_nonvacuous : 0 < / 10 /\ 0 <= mgr_hexp_csq default_mgr. Proof. cbn. lra. Qed.
