(** C25: the controller of the magnetic flux through the horizon. *)
From Coq Require Import Reals ZArith List Bool Lia Lra FunctionalExtensionality Permutation.
From Flocq Require Import Core.
From Verif.Model Require Import Num Robust ParFor FluxFix Modified NetField.
From Verif.Spec Require Import NetSpec.
From Verif.Proofs Require Import NumR ParForProofs.
Import ListNotations.
Local Open Scope R_scope.

(** ** The vector potential of the field that is added
    With X, Z the distances from the axis and from the equatorial plane, the potential is
    confined to the inside of the hyperboloid X^2/Rh^2 - Z^2/(3 Rh)^2 = 1, which crosses the
    equator at the horizon radius: it vanishes outside, lies in [-1, 0) inside, is -1 on the
    axis and continuous (zero) at the surface. *)
Theorem C25_hyperbola : forall T Rh x1 x2, Rh > 0 -> 0 <= sin (mgr_th T x1 x2) ->
  let X := mgr_r T x1 * sin (mgr_th T x1 x2) in
  let Z := mgr_r T x1 * cos (mgr_th T x1 x2) in
  let inside := X ^ 2 / Rh ^ 2 - Z ^ 2 / (3 * Rh) ^ 2 in
  let A := hyperbola_potential T Rh x1 x2 in
  (inside >= 1 -> A = 0) /\
  (inside < 1 -> A = (inside - 1) / (1 + Z ^ 2 / (3 * Rh) ^ 2) /\ -1 <= A < 0) /\
  (sin (mgr_th T x1 x2) = 0 -> A = -1).
Proof.
  intros T Rh x1 x2 HR Hs X Z inside A.
  assert (HX : 0 <= X).
  { unfold X. apply Rmult_le_pos; [|exact Hs]. unfold mgr_r. left. apply exp_pos. }
  assert (HZ : 0 <= Z ^ 2 / (3 * Rh) ^ 2).
  { apply Rmult_le_pos; [apply pow2_ge_0|]. left. apply Rinv_0_lt_compat. nra. }
  set (w := 1 + Z ^ 2 / (3 * Rh) ^ 2).
  assert (Hw : 1 <= w) by (unfold w; lra).
  set (xh := Rh * sqrt (1 + (Z / (3 * Rh)) ^ 2)).
  assert (Exw : 1 + (Z / (3 * Rh)) ^ 2 = w) by (unfold w; field; lra).
  assert (Exh : xh ^ 2 = Rh ^ 2 * w).
  { unfold xh. rewrite Exw, Rpow_mult_distr, pow2_sqrt by lra. reflexivity. }
  assert (Pxh : 0 < xh).
  { unfold xh. rewrite Exw. apply Rmult_lt_0_compat; [lra|]. apply sqrt_lt_R0. lra. }
  assert (EA : A = if Rlt_bool X xh then (X ^ 2 - xh ^ 2) / xh ^ 2 else 0) by reflexivity.
  assert (Ei : inside - 1 = X ^ 2 / Rh ^ 2 - w) by (unfold inside, w; ring).
  assert (Eq : (X ^ 2 - xh ^ 2) / xh ^ 2 = (inside - 1) / w).
  { rewrite Ei, Exh. field. split; lra. }
  assert (Cmp : X < xh <-> inside < 1).
  { assert (B : X ^ 2 < xh ^ 2 <-> inside < 1).
    { rewrite Exh. split; intro K.
      - enough (X ^ 2 / Rh ^ 2 < w) by lra. apply Rmult_lt_reg_r with (Rh ^ 2); [nra|].
        replace (X ^ 2 / Rh ^ 2 * Rh ^ 2) with (X ^ 2) by (field; lra). lra.
      - assert (K' : X ^ 2 / Rh ^ 2 < w) by lra. apply Rmult_lt_compat_r with (r := Rh ^ 2) in K'; [|nra].
        replace (X ^ 2 / Rh ^ 2 * Rh ^ 2) with (X ^ 2) in K' by (field; lra). lra. }
    rewrite <- B. split; intro K; nra. }
  assert (HX2 : 0 <= X ^ 2 / Rh ^ 2).
  { apply Rmult_le_pos; [apply pow2_ge_0|]. left. apply Rinv_0_lt_compat. nra. }
  assert (In : inside < 1 -> A = (inside - 1) / w).
  { intro K. rewrite EA, Rlt_bool_true by (apply Cmp; exact K). exact Eq. }
  split; [|split].
  - intro K. rewrite EA, Rlt_bool_false; [reflexivity|]. apply Rnot_lt_le. intro C. apply Cmp in C. lra.
  - intro K. fold w. split; [exact (In K)|]. rewrite (In K). split.
    + apply Rmult_le_reg_r with w; [lra|]. replace ((inside - 1) / w * w) with (inside - 1) by (field; lra). lra.
    + apply Rmult_lt_reg_r with w; [lra|]. replace ((inside - 1) / w * w) with (inside - 1) by (field; lra). lra.
  - intro K. assert (X0 : X = 0) by (unfold X; rewrite K; ring).
    assert (Hin : inside - 1 = - w).
    { rewrite Ei, X0. unfold Rdiv. ring. }
    rewrite In by lra. rewrite Hin. field. lra.
Qed.
Print Assumptions C25_hyperbola.
(** the point on the equator of a grid with h = 0.3, inside a horizon of radius 2 *)
Example C25_hyperbola_nonvacuous :
  let T := mkMGR false (3 / 10) 1 14 0 1 10 4 1 in
  2 > 0 /\ mgr_th T 0 (1 / 2) = PI / 2 /\ 0 <= sin (mgr_th T 0 (1 / 2)) /\
  hyperbola_potential T 2 0 (1 / 2) = - (3 / 4).
Proof.
  intros T.
  assert (Eth : mgr_th T 0 (1 / 2) = PI / 2).
  { assert (Er : mgr_th_raw T 0 (1 / 2) = PI / 2).
    { unfold mgr_th_raw, mgr_thG, T. cbn [mgr_derefine_poles mgr_h].
      replace (2 * PI * (1 / 2)) with PI by field. rewrite sin_PI. field. }
    unfold mgr_th. rewrite Er. unfold mgr_fix.
    pose proof PI_RGT_0 as HP. pose proof PI2_1 as HP1.
    assert (HS : SINGSMALL < 1).
    { unfold SINGSMALL. rewrite <- Rinv_1. apply Rinv_lt_contravar; [|apply Rlt_pow_R1; [lra|]]; [|repeat constructor].
      rewrite Rmult_1_l. apply pow_lt. lra. }
    rewrite (Rlt_bool_false (Rabs (PI / 2))) by (rewrite Rabs_pos_eq; lra). cbv zeta.
    rewrite (Rlt_bool_false (Rabs (PI - PI / 2))) by (rewrite Rabs_pos_eq; lra). reflexivity. }
  assert (Hs : 0 <= sin (mgr_th T 0 (1 / 2))) by (rewrite Eth, sin_PI2; lra).
  split; [lra|]. split; [exact Eth|]. split; [exact Hs|].
  assert (Er : mgr_r T 0 = 1).
  { unfold mgr_r, T. cbn [mgr_hexp_br mgr_hexp_csq mgr_hexp_nsq]. rewrite Rlt_bool_false by lra.
    replace (0 + 0 * 1 * (0 - 10) ^ 4) with 0 by ring. apply exp_0. }
  destruct (C25_hyperbola T 2 0 (1 / 2) ltac:(lra) Hs) as [_ [B _]].
  rewrite Eth, Er, sin_PI2, cos_PI2 in B. destruct B as [B _]; [lra|].
  etransitivity; [exact B|]. field.
Qed.

(** ** The field that is added *)
Section Field.
Variables (A : Z -> Z -> R) (dx : Dir -> Cell -> R) (gd : Cell -> R).
(** what one unit adds to the primitive field of a zone *)
Definition unit_field (n : nat) (c : Cell) : R :=
  let '(k, j, i) := c in
  match n with
  | O => - (A j i - A (j + 1)%Z i + A j (i + 1)%Z - A (j + 1)%Z (i + 1)%Z) / (2 * dx D2 c * gd c)
  | 1%nat => (A j i + A (j + 1)%Z i - A j (i + 1)%Z - A (j + 1)%Z (i + 1)%Z) / (2 * dx D1 c * gd c)
  | _ => 0
  end.
Lemma curl_body_spec f c m n c' :
  fst (curl_body A dx gd f c m) n c' = (if Cell_dec c' c then fst m n c' + f * unit_field n c' else fst m n c') /\
  snd (curl_body A dx gd f c m) n c' =
    (if Cell_dec c' c then (if Nat.ltb n 3 then (fst m n c' + f * unit_field n c') * gd c' else snd m n c') else snd m n c').
Proof.
  destruct c as [[k j] i]. unfold curl_body. cbn [fst snd]. destruct (Cell_dec c' (k, j, i)) as [->|N].
  - destruct n as [|[|n]]; unfold unit_field; (split; [ring|]); try reflexivity.
    destruct (Nat.ltb (S (S n)) 3); [ring | reflexivity].
  - split; reflexivity.
Qed.
Lemma modify_spec f o m : NoDup o -> forall n c,
  fst (par_for o (curl_body A dx gd f) m) n c = (if in_dec Cell_dec c o then fst m n c + f * unit_field n c else fst m n c) /\
  snd (par_for o (curl_body A dx gd f) m) n c =
    (if in_dec Cell_dec c o then (if Nat.ltb n 3 then (fst m n c + f * unit_field n c) * gd c else snd m n c) else snd m n c).
Proof.
  unfold par_for. revert m. induction o as [|a o IH]; intros m ND n c; [split; reflexivity|].
  inversion ND as [|? ? Na ND']. subst. cbn [fold_left]. destruct (IH (curl_body A dx gd f a m) ND' n c) as [I1 I2]. rewrite I1, I2.
  destruct (curl_body_spec f a m n c) as [E1 E2]. rewrite E1, E2.
  destruct (in_dec Cell_dec c o) as [Y|Y]; destruct (in_dec Cell_dec c (a :: o)) as [Z|Z]; destruct (Cell_dec c a) as [Q|Q]; subst; try tauto.
  all: try (split; reflexivity).
  all: exfalso; cbn [In] in *; intuition congruence.
Qed.
End Field.

(** The pair (primitive, conserved) is updated coherently, in any order of the loop: the
    multiple f of one fixed field is added. *)
Theorem C25_field_added : forall A dx gd B o f m, order_of B o -> coherent gd o m ->
  let m' := ModifyField A dx gd o (Some f) m in
  coherent gd o m' /\
  (forall n c, in_box B c -> fst m' n c = fst m n c + f * unit_field A dx gd n c) /\
  (forall n c, ~ in_box B c -> fst m' n c = fst m n c /\ snd m' n c = snd m n c).
Proof.
  intros A dx gd B o f m [ND IN] C m'. unfold m', ModifyField. repeat split.
  - intros n c Hn Hc. destruct (modify_spec A dx gd f o m ND n c) as [E1 E2]. rewrite E1, E2.
    destruct (in_dec Cell_dec c o); [|tauto]. apply Nat.ltb_lt in Hn. rewrite Hn. reflexivity.
  - intros n c Hc. destruct (modify_spec A dx gd f o m ND n c) as [E1 E2]. rewrite E1.
    destruct (in_dec Cell_dec c o) as [|N]; [reflexivity|]. exfalso. apply N, IN, Hc.
  - destruct (modify_spec A dx gd f o m ND n c) as [E1 E2]. rewrite E1.
    destruct (in_dec Cell_dec c o) as [Y|N]; [|reflexivity]. exfalso. apply H, IN, Y.
  - destruct (modify_spec A dx gd f o m ND n c) as [E1 E2]. rewrite E2.
    destruct (in_dec Cell_dec c o) as [Y|N]; [|reflexivity]. exfalso. apply H, IN, Y.
Qed.
Print Assumptions C25_field_added.

(** Adding the unit field and removing it again leaves the field as it was. *)
Theorem C25_probe_restores : forall A dx gd B o m, order_of B o -> coherent gd o m ->
  ModifyField A dx gd o (Some (-1)) (ModifyField A dx gd o (Some 1) m) = m.
Proof.
  intros A dx gd B o [P Q] [ND IN] C. unfold ModifyField.
  set (m1 := par_for o (curl_body A dx gd 1) (P, Q)).
  assert (E : forall n c, fst (par_for o (curl_body A dx gd (-1)) m1) n c = P n c /\ snd (par_for o (curl_body A dx gd (-1)) m1) n c = Q n c).
  { intros n c. destruct (modify_spec A dx gd (-1) o m1 ND n c) as [E1 E2]. rewrite E1, E2.
    destruct (modify_spec A dx gd 1 o (P, Q) ND n c) as [F1 F2]. fold m1 in F1, F2. rewrite F1, F2. cbn [fst snd].
    destruct (in_dec Cell_dec c o) as [Y|N]; [|split; reflexivity]. split; [ring|].
    destruct (Nat.ltb n 3) eqn:En; [|reflexivity]. apply Nat.ltb_lt in En.
    assert (K : Q n c = P n c * gd c) by exact (C n c En Y). rewrite K. ring. }
  destruct (par_for o (curl_body A dx gd (-1)) m1) as [P' Q'] eqn:Em. cbn [fst snd] in E.
  f_equal; extensionality n; extensionality c; apply E.
Qed.
Print Assumptions C25_probe_restores.

(** The added field is free of divergence: at every node whose adjoining zones are all
    modified, the node-centred divergence of the conserved field does not change.
    (Uniform zones; two or three dimensions; the field does not depend on k.) *)
Theorem C25_divb : forall ndim A (dx : Dir -> R) gd B o f m k j i,
  (ndim = 2 \/ ndim = 3)%nat -> order_of B o -> coherent gd o m ->
  (forall c, in_box B c -> gd c <> 0) -> dx D1 <> 0 -> dx D2 <> 0 -> dx D3 <> 0 ->
  in_box B (k, j, i)%Z -> in_box B (k, j - 1, i - 1)%Z -> (ndim = 3%nat -> in_box B (k - 1, j, i)%Z) ->
  divB ndim (fun d _ => dx d) (snd (ModifyField A (fun d _ => dx d) gd o (Some f) m)) (k, j, i) = divB ndim (fun d _ => dx d) (snd m) (k, j, i).
Proof.
  intros ndim A dx gd B o f m k j i Hnd [ND IN] C G D1n D2n D3n I1 I2 I3.
  assert (E : forall n c, (n < 3)%nat -> in_box B c -> snd (ModifyField A (fun d _ => dx d) gd o (Some f) m) n c = snd m n c + f * (gd c * unit_field A (fun d _ => dx d) gd n c)).
  { intros n c Hn Hc. destruct (modify_spec A (fun d _ => dx d) gd f o m ND n c) as [_ E2]. unfold ModifyField. rewrite E2.
    destruct (in_dec Cell_dec c o) as [Y|N]; [|exfalso; apply N, IN, Hc]. pose proof (C n c Hn Y) as K. apply Nat.ltb_lt in Hn. rewrite Hn. rewrite K. ring. }
  assert (U : forall k j i, in_box B (k, j, i) ->
    gd (k, j, i) * unit_field A (fun d _ => dx d) gd 0 (k, j, i) = - (A j i - A (j + 1)%Z i + A j (i + 1)%Z - A (j + 1)%Z (i + 1)%Z) / (2 * dx D2) /\
    gd (k, j, i) * unit_field A (fun d _ => dx d) gd 1 (k, j, i) = (A j i + A (j + 1)%Z i - A j (i + 1)%Z - A (j + 1)%Z (i + 1)%Z) / (2 * dx D1) /\
    gd (k, j, i) * unit_field A (fun d _ => dx d) gd 2 (k, j, i) = 0).
  { intros k' j' i' H. apply G in H. unfold unit_field. repeat split; field; auto. }
  assert (J : (j - 1 + 1 = j)%Z) by lia. assert (I : (i - 1 + 1 = i)%Z) by lia.
  unfold divB. destruct Hnd as [-> | ->]; cbn [Nat.eqb].
  - rewrite !E by (cbn in *; lia).
    destruct (U k j i) as (U1 & U2 & _); [cbn in *; lia|]. rewrite U1, U2.
    destruct (U k (j - 1)%Z i) as (U3 & U4 & _); [cbn in *; lia|]. rewrite U3, U4.
    destruct (U k j (i - 1)%Z) as (U5 & U6 & _); [cbn in *; lia|]. rewrite U5, U6.
    destruct (U k (j - 1)%Z (i - 1)%Z) as (U7 & U8 & _); [cbn in *; lia|]. rewrite U7, U8.
    rewrite I, J. unfold half_. num_R. field. auto.
  - specialize (I3 eq_refl). rewrite !E by (cbn in *; lia).
    destruct (U k j i) as (U1 & U2 & W1); [cbn in *; lia|]. rewrite U1, U2, W1.
    destruct (U k (j - 1)%Z i) as (U3 & U4 & W2); [cbn in *; lia|]. rewrite U3, U4, W2.
    destruct (U k j (i - 1)%Z) as (U5 & U6 & W3); [cbn in *; lia|]. rewrite U5, U6, W3.
    destruct (U k (j - 1)%Z (i - 1)%Z) as (U7 & U8 & W4); [cbn in *; lia|]. rewrite U7, U8, W4.
    destruct (U (k - 1)%Z j i) as (U1' & U2' & W1'); [cbn in *; lia|]. rewrite U1', U2', W1'.
    destruct (U (k - 1)%Z (j - 1)%Z i) as (U3' & U4' & W2'); [cbn in *; lia|]. rewrite U3', U4', W2'.
    destruct (U (k - 1)%Z j (i - 1)%Z) as (U5' & U6' & W3'); [cbn in *; lia|]. rewrite U5', U6', W3'.
    destruct (U (k - 1)%Z (j - 1)%Z (i - 1)%Z) as (U7' & U8' & W4'); [cbn in *; lia|]. rewrite U7', U8', W4'.
    rewrite I, J. unfold quarter. num_R. field. auto.
Qed.
Print Assumptions C25_divb.
Example C25_field_case : exists A dx gd B o m, order_of B o /\ coherent gd o m /\ in_box B (0, 1, 1)%Z /\ in_box B (0, 0, 0)%Z /\
  (forall c, in_box B c -> gd c <> 0) /\ unit_field A dx gd 0 (0, 0, 0)%Z <> 0.
Proof.
  exists (fun j i => IZR j), (fun _ _ => 1), (fun _ => 2),
    {| ks := 0; ke := 0; js := 0; je := 1; is_ := 0; ie := 1 |}%Z, (box_list {| ks := 0; ke := 0; js := 0; je := 1; is_ := 0; ie := 1 |}%Z),
    (fun n c => 1, fun n c => 2).
  split; [apply order_box_list|]. split; [intros n c _ _; cbn [fst snd]; lra|].
  split; [cbn; lia|]. split; [cbn; lia|]. split; [intros c _; lra|]. unfold unit_field. cbn -[IZR]. lra.
Qed.

(** ** The rate *)
(** the rate asked for by the measurement *)
Definition wanted (p : NFParams) (mdot phi : R) : R := (enforced_phi p - phi / sqrt mdot) / timescale p.
Lemma sgn_pos x : 0 <= x -> sgn x = 1%Z.
Proof. intros H. unfold sgn. num_R. rewrite Rle_bool_true by lra. rewrite Rlt_bool_false by lra. reflexivity. Qed.
Lemma sgn_neg x : x < 0 -> sgn x = (-1)%Z.
Proof. intros H. unfold sgn. num_R. rewrite Rle_bool_false by lra. rewrite Rlt_bool_true by lra. reflexivity. Qed.

(** The first update sets the rate that is asked for; a later update that has to raise the
    rate raises it by at least 3/4 and at most 4/3 of its magnitude, and to the rate asked
    for if that lies between. *)
Theorem C25_rate_limits : forall ub p d mdot phi, wanted p mdot phi >= d ->
  (d = 0 -> new_rate ub p d mdot phi = wanted p mdot phi) /\
  (d <> 0 -> 3 / 4 * Rabs d <= new_rate ub p d mdot phi - d <= 4 / 3 * Rabs d) /\
  (d <> 0 -> 3 / 4 * Rabs d <= wanted p mdot phi - d <= 4 / 3 * Rabs d -> new_rate ub p d mdot phi = wanted p mdot phi).
Proof.
  intros ub p d mdot phi H. unfold new_rate. fold (wanted p mdot phi). set (w := wanted p mdot phi) in *.
  rewrite (sgn_pos (w - d)) by lra. split; [|split].
  - intros ->. rewrite Req_bool_true by reflexivity. ring.
  - intros Hd. rewrite Req_bool_false by exact Hd. unfold std_clamp. pose proof (Rabs_pos_lt d Hd) as Q.
    rewrite Rlt_bool_false by lra. destruct (Rlt_bool_spec (w - d) (3 / 4 * (1 * Rabs d))); [lra|]. destruct (Rlt_bool_spec (4 / 3 * (1 * Rabs d)) (w - d)); lra.
  - intros Hd K. rewrite Req_bool_false by exact Hd. unfold std_clamp. pose proof (Rabs_pos_lt d Hd) as Q.
    rewrite Rlt_bool_false by lra. rewrite Rlt_bool_false by lra. rewrite Rlt_bool_false by lra. ring.
Qed.
Print Assumptions C25_rate_limits.
Example C25_rate_case : exists p mdot phi, wanted p mdot phi >= 1 /\ 0 < mdot.
Proof.
  exists {| enable := true; enforced_phi := 2; timescale := 1; cadence := 1; start_time := 0 |}, 1, 0.
  unfold wanted. cbn [enforced_phi timescale]. rewrite sqrt_1. lra.
Qed.

(** Violation 1: whenever a later update has to lower the rate, the bounds given to std::clamp
    are the wrong way round (undefined behaviour).  What GCC's library then returns lowers the
    rate by 4/3 of its magnitude however little is asked for: a positive rate turns negative. *)
Theorem C25_lowering_refuted : forall ub p d mdot phi, d <> 0 -> wanted p mdot phi < d ->
  (let reference := IZR (sgn (wanted p mdot phi - d)) * Rabs d in 4 / 3 * reference < 3 / 4 * reference) /\
  new_rate ub p d mdot phi = d + ub (wanted p mdot phi - d) (- (3 / 4) * Rabs d) (- (4 / 3) * Rabs d) /\
  new_rate ub_libstdcxx p d mdot phi = d - 4 / 3 * Rabs d /\
  (d > 0 -> new_rate ub_libstdcxx p d mdot phi = - d / 3).
Proof.
  intros ub p d mdot phi Hd H. pose proof (Rabs_pos_lt d Hd) as Q. unfold new_rate. fold (wanted p mdot phi). set (w := wanted p mdot phi) in *.
  rewrite (sgn_neg (w - d)) by lra.
  assert (E : Rmin (Rmax (w - d) (3 / 4 * (-1 * Rabs d))) (4 / 3 * (-1 * Rabs d)) = - (4 / 3) * Rabs d).
  { rewrite Rmin_right; [ring|]. pose proof (Rmax_r (w - d) (3 / 4 * (-1 * Rabs d))). lra. }
  rewrite Req_bool_false by exact Hd. unfold std_clamp. rewrite Rlt_bool_true by lra. repeat split.
  - cbv zeta. lra.
  - f_equal. f_equal; ring.
  - unfold ub_libstdcxx. rewrite E. ring.
  - intros P. unfold ub_libstdcxx. rewrite E. rewrite Rabs_pos_eq by lra. field.
Qed.
Print Assumptions C25_lowering_refuted.
(** Violation 2: the rate never settles.  If the rate asked for is the current one, the
    controller still raises it by 3/4 of its magnitude. *)
Theorem C25_settling_refuted : forall ub p d mdot phi, d <> 0 -> wanted p mdot phi = d ->
  new_rate ub p d mdot phi = d + 3 / 4 * Rabs d.
Proof.
  intros ub p d mdot phi Hd H. pose proof (Rabs_pos_lt d Hd) as Q. unfold new_rate. fold (wanted p mdot phi). rewrite H.
  rewrite (sgn_pos (d - d)) by lra. rewrite Req_bool_false by exact Hd. unfold std_clamp. rewrite Rlt_bool_false by lra. rewrite Rlt_bool_true by lra. ring.
Qed.
Print Assumptions C25_settling_refuted.

(** ** Histories *)
Section Hist.
Context {F : Type}.
Variables (ub : R -> R -> R -> R) (p : NFParams) (N : nat) (modify : nat -> R -> F -> F) (measure : nat -> F -> R * R).

Lemma modify_task_controls t dt st fid ff n (r : @RegionState F) : controls (modify_task p modify t dt st fid ff n r) = controls r.
Proof. unfold modify_task. destruct (modify_amount p t dt st fid ff (controls r)); reflexivity. Qed.
Lemma probe_controls t dt st l (r : @RegionState F) : controls (fold_left (fun r n => modify_task p modify t dt st true 1 n r) l r) = controls r.
Proof. revert r. induction l as [|n l IH]; intros r; [reflexivity|]. cbn [fold_left]. rewrite IH. apply modify_task_controls. Qed.

(** the tail changes the controls to U s, once, if U (U s) = U s *)
Lemma run_tail_controls t dt st v0 v1 s : 
  let U := UpdateNetFieldScaleControls ub p t st v0 v1 in
  U (U s) = U s ->
  forall sched pc (r : @RegionState F), controls r = s \/ controls r = U s ->
  let r' := run_tail ub p modify t dt st v0 v1 sched pc r in
  (controls r' = s \/ controls r' = U s) /\
  (controls r = U s \/ (exists n, (pc n <= 1 < pc n + count_occ Nat.eq_dec sched n)%nat) -> controls r' = U s).
Proof.
  intros U I. induction sched as [|n l IH]; intros pc r H; cbn [run_tail].
  - split; [exact H|]. intros [K|(n & K)]; [exact K|]. cbn in K. lia.
  - set (r1 := tail_task ub p modify t dt st v0 v1 n (pc n) r).
    assert (H1 : controls r1 = controls r \/ controls r1 = U (controls r)).
    { unfold r1, tail_task. destruct (pc n) as [|[|k]]; [left; apply modify_task_controls | right; reflexivity | left; apply modify_task_controls]. }
    assert (H2 : controls r1 = s \/ controls r1 = U s).
    { destruct H1 as [->| ->]; [exact H|]. destruct H as [->| ->]; right; [reflexivity | exact I]. }
    destruct (IH (fun m => if Nat.eqb m n then S (pc m) else pc m) r1 H2) as [A B]. split; [exact A|].
    intros K. apply B. destruct K as [K|(m & K)].
    + left. destruct H1 as [->| ->]; [exact K|]. rewrite K. exact I.
    + cbn [count_occ] in K. destruct (Nat.eq_dec n m) as [->|Ne].
      * destruct (pc m) as [|[|q]] eqn:Eq; [| |lia].
        -- right. exists m. cbv beta. rewrite Nat.eqb_refl, ?Eq in *. lia.
        -- left. unfold r1, tail_task. rewrite ?Eq. cbn iota. destruct H as [E|E]; cbn [controls]; rewrite E; [reflexivity | exact I].
      * right. exists m. cbv beta. destruct (Nat.eqb_spec m n); [congruence|]. exact K.
Qed.

Definition updates_now (t : R) (st : nat) (s : NFState) : Prop := enable p = true /\ st = 1%nat /\ next_update s <= t.
Lemma U_not t st v0 v1 s : ~ updates_now t st s -> UpdateNetFieldScaleControls ub p t st v0 v1 s = s.
Proof.
  intros H. unfold UpdateNetFieldScaleControls. destruct (Nat.eqb_spec st 1); [|reflexivity]. cbn [negb]. unfold nf_due.
  destruct (enable p) eqn:E; [|reflexivity]. cbn [andb]. destruct (Rle_bool_spec (next_update s) t); [|reflexivity]. exfalso. apply H. repeat split; assumption.
Qed.
Lemma U_yes t st v0 v1 s : updates_now t st s -> UpdateNetFieldScaleControls ub p t st v0 v1 s =
   mkNF (new_rate ub p (dphi_dt s) (fst v0) (snd v0)) (next_update s + cadence p) (snd v1 - snd v0).
Proof. intros (E & -> & H). unfold UpdateNetFieldScaleControls. cbn. unfold nf_due. rewrite E, Rle_bool_true by exact H. reflexivity. Qed.

Lemma region_controls t dt st sched r : interleaving N sched -> (0 < N)%nat -> t < next_update (controls r) + cadence p ->
  let r' := region ub p N modify measure t dt st sched r in
  (updates_now t st (controls r) -> next_update (controls r') = next_update (controls r) + cadence p /\
     let r1 := fold_left (fun r n => modify_task p modify t dt st true 1 n r) (seq 0 N) r in
     controls r' = UpdateNetFieldScaleControls ub p t st (totals p N measure t st r) (totals p N measure t st r1) (controls r)) /\
  (~ updates_now t st (controls r) -> controls r' = controls r).
Proof.
  intros IL HN L. unfold region.
  set (r1 := fold_left (fun r n => modify_task p modify t dt st true 1 n r) (seq 0 N) r).
  set (v0 := totals p N measure t st r). set (v1 := totals p N measure t st r1).
  assert (E1 : controls r1 = controls r) by apply probe_controls.
  set (U := UpdateNetFieldScaleControls ub p t st v0 v1).
  assert (I : U (U (controls r)) = U (controls r)).
  { destruct (Nat.eq_dec st 1) as [Es|Es]; [|unfold U; rewrite !U_not; [reflexivity| |]; intros (_ & K & _); congruence].
    destruct (bool_dec (enable p) true) as [Ee|Ee]; [|unfold U; rewrite !U_not; [reflexivity| |]; intros (K & _ & _); congruence].
    destruct (Rle_dec (next_update (controls r)) t) as [Ed|Ed]; [|unfold U; rewrite !U_not; [reflexivity| |]; intros (_ & _ & K); try contradiction].
    - unfold U. rewrite (U_yes t st v0 v1 (controls r)) by (repeat split; assumption). rewrite U_not; [reflexivity|]. intros (_ & _ & K). cbn [next_update] in K. lra.
    - rewrite U_not in K by (intros (_ & _ & K'); contradiction). contradiction. }
  destruct (run_tail_controls t dt st v0 v1 (controls r) I sched (fun _ => O) r1 (or_introl E1)) as [_ B].
  assert (B' : controls (run_tail ub p modify t dt st v0 v1 sched (fun _ => O) r1) = U (controls r)).
  { apply B. right. exists O. rewrite (IL O). destruct (Nat.ltb_spec 0 N); lia. }
  cbv zeta. rewrite B'. split.
  - intros K. split; [|reflexivity]. unfold U. rewrite U_yes by exact K. reflexivity.
  - intros K. unfold U. apply U_not. exact K.
Qed.
End Hist.

(** an entry of the history obeys the rules: the controls change only in the first stage of a
    cycle and only at or after the scheduled time; each change moves the schedule by exactly
    one cadence; every reduction that is posted is waited for in the same stage *)
Definition orderly (p : NFParams) (e : Entry) : Prop :=
  (e_after e <> e_before e -> e_stage e = 1%nat /\ next_update (e_before e) <= e_t e /\ next_update (e_after e) = next_update (e_before e) + cadence p) /\
  (e_stage e = 1%nat -> next_update (e_before e) <= e_t e -> enable p = true -> next_update (e_after e) = next_update (e_before e) + cadence p) /\
  e_posted e = e_awaited e.

Lemma NF_dec_change p (s s' : NFState) : next_update s' = next_update s + cadence p -> cadence p > 0 -> s' <> s.
Proof. intros E C ->. lra. Qed.

Section Run.
Context {F : Type}.
Variables (ub : R -> R -> R -> R) (p : NFParams) (N : nat) (modify : nat -> R -> F -> F) (measure : nat -> F -> R * R).
Hypothesis HN : (0 < N)%nat.
Hypothesis Hc : cadence p > 0.
Let onsched (s : NFState) : Prop := exists k : nat, next_update s = start_time p + INR k * cadence p.

Lemma stages_later t dt beta sched todo : forall r : @RegionState F,
  (forall st, interleaving N (sched st)) -> (forall st, In st todo -> st <> 1%nat) -> (enable p = true -> t < next_update (controls r)) ->
  let h := stages ub p N modify measure t dt beta sched todo r in
  controls (snd h) = controls r /\ Forall (orderly p) (fst h).
Proof.
  induction todo as [|st l IH]; intros r IL H1 H; cbn [stages]; [split; [reflexivity | constructor]|].
  set (r' := region ub p N modify measure t (beta st * dt) st (sched st) r).
  assert (Hst : st <> 1%nat) by (apply H1; left; reflexivity).
  assert (E : controls r' = controls r).
  { destruct (bool_dec (enable p) true) as [En|En].
    - assert (L : t < next_update (controls r) + cadence p) by (specialize (H En); lra).
      destruct (region_controls ub p N modify measure t (beta st * dt) st (sched st) r (IL st) HN L) as [_ B]. apply B. intros (_ & K & _). congruence.
    - unfold r', region. set (v0 := totals _ _ _ _ _ r). set (r1 := fold_left _ _ r). set (v1 := totals _ _ _ _ _ r1).
      assert (I0 : forall s, UpdateNetFieldScaleControls ub p t st v0 v1 s = s) by (intros s; apply U_not; intros (K & _); congruence).
      destruct (run_tail_controls ub p modify t (beta st * dt) st v0 v1 (controls r) (I0 _) (sched st) (fun _ => O) r1 (or_introl (probe_controls _ _ _ _ _ _ _))) as [A _].
      rewrite I0 in A. destruct A as [A|A]; exact A. }
  specialize (IH r' IL (fun s K => H1 s (or_intror K))).
  assert (H' : enable p = true -> t < next_update (controls r')) by (intros En; rewrite E; apply H, En).
  specialize (IH H'). destruct (stages ub p N modify measure t dt beta sched l r') as [h r'']. cbn [fst snd] in *.
  destruct IH as [A B]. split; [rewrite A; exact E|]. constructor; [|exact B].
  unfold orderly. cbn [e_after e_before e_stage e_t e_posted e_awaited]. split; [|split].
  - intros K. congruence.
  - intros K. congruence.
  - unfold posted, awaited, starts_reduce, checks_reduce. destruct (Nat.eqb_spec st 1); [congruence|].
    destruct (enable p) eqn:En; [|reflexivity]. specialize (H eq_refl). unfold nf_due2, nf_due. rewrite Rle_bool_false by exact H. reflexivity.
Qed.

Lemma stages_cycle t dt beta sched nst : forall r : @RegionState F,
  (0 < nst)%nat -> (forall st, interleaving N (sched st)) -> t < next_update (controls r) + cadence p -> onsched (controls r) ->
  let h := stages ub p N modify measure t dt beta sched (seq 1 nst) r in
  Forall (orderly p) (fst h) /\ (enable p = true -> t < next_update (controls (snd h)) ) /\ onsched (controls (snd h)) /\
  next_update (controls r) <= next_update (controls (snd h)).
Proof.
  intros r Hn IL L S. destruct nst as [|nst]; [lia|]. cbn [seq stages].
  set (r' := region ub p N modify measure t (beta 1%nat * dt) 1 (sched 1%nat) r).
  destruct (region_controls ub p N modify measure t (beta 1%nat * dt) 1 (sched 1%nat) r (IL _) HN L) as [Y Nn]. fold r' in Y, Nn. cbv zeta in Y.
  assert (D : updates_now p t 1 (controls r) \/ ~ updates_now p t 1 (controls r)).
  { unfold updates_now. destruct (bool_dec (enable p) true) as [A|A]; [|right; tauto]. destruct (Rle_dec (next_update (controls r)) t) as [B|B]; [left | right]; tauto. }
  assert (L' : enable p = true -> t < next_update (controls r')).
  { intros En. destruct D as [D|D].
    - destruct (Y D) as [Y1 _]. rewrite Y1. exact L.
    - rewrite (Nn D). destruct (Rle_dec (next_update (controls r)) t) as [B|B]; [|lra]. exfalso. apply D. repeat split; assumption. }
  pose proof (stages_later t dt beta sched (seq 2 nst) r' IL) as SL.
  assert (Q : forall st, In st (seq 2 nst) -> st <> 1%nat) by (intros st K; apply in_seq in K; lia).
  specialize (SL Q L'). destruct (stages ub p N modify measure t dt beta sched (seq 2 nst) r') as [h r'']. cbn [fst snd] in *.
  destruct SL as [A B]. rewrite A. split; [|split; [exact L'|split]].
  - constructor; [|exact B]. unfold orderly. cbn [e_after e_before e_stage e_t e_posted e_awaited]. split; [|split].
    + intros K. destruct D as [D|D]; [|exfalso; apply K, Nn, D]. destruct (Y D) as [Y1 _]. destruct D as (_ & _ & D). repeat split; assumption.
    + intros _ K En. destruct (Y ltac:(repeat split; assumption)) as [Y1 _]. exact Y1.
    + unfold posted, awaited, starts_reduce, checks_reduce. reflexivity.
  - destruct D as [D|D]; [|rewrite (Nn D); exact S]. destruct (Y D) as [Y1 _]. destruct S as (k & S). exists (Datatypes.S k). rewrite Y1, S, S_INR. ring.
  - destruct D as [D|D]; [|rewrite (Nn D); lra]. destruct (Y D) as [Y1 _]. rewrite Y1. lra.
Qed.

Lemma run_orderly nst beta sched evolve : (0 < nst)%nat -> (forall t st, interleaving N (sched t st)) ->
  forall dts t (r : @RegionState F), Forall (fun dt => 0 <= dt <= cadence p) dts -> t < next_update (controls r) + cadence p -> onsched (controls r) ->
  let h := run ub p N modify measure nst beta sched evolve t dts r in
  Forall (orderly p) (fst h) /\ onsched (controls (snd h)).
Proof.
  intros Hn IL. induction dts as [|dt l IH]; intros t r Hd L S; cbn [run]; [split; [constructor | exact S]|].
  inversion Hd as [|? ? Hdt Hl]; subst.
  destruct (stages_cycle t dt beta (sched t) nst r Hn (IL t) L S) as (A & B & C & M).
  destruct (stages ub p N modify measure t dt beta (sched t) (seq 1 nst) r) as [h r1]. cbn [fst snd] in *.
  set (r1' := mkRS (controls r1) (fun n => evolve t n (fields r1 n))).
  assert (L' : enable p = true -> t + dt < next_update (controls r1') + cadence p) by (intros En; cbn [controls r1']; specialize (B En); lra).
  destruct (bool_dec (enable p) true) as [En|En].
  - specialize (IH (t + dt) r1' Hl (L' En) C). destruct (run ub p N modify measure nst beta sched evolve (t + dt) l r1') as [h' r2]. cbn [fst snd] in *.
    split; [apply Forall_app; tauto | tauto].
  - (* disabled: nothing ever happens *)
    assert (Z : forall dts t (r : @RegionState F), onsched (controls r) -> Forall (orderly p) (fst (run ub p N modify measure nst beta sched evolve t dts r)) /\ onsched (controls (snd (run ub p N modify measure nst beta sched evolve t dts r)))).
    { clear - HN Hc Hn IL En. induction dts as [|dt l IH]; intros t r S; cbn [run]; [split; [constructor | exact S]|].
      assert (W : forall todo (r : @RegionState F), let h := stages ub p N modify measure t dt beta (sched t) todo r in controls (snd h) = controls r /\ Forall (orderly p) (fst h)).
      { induction todo as [|st todo IHt]; intros q; cbn [stages]; [split; [reflexivity|constructor]|].
        set (q' := region ub p N modify measure t (beta st * dt) st (sched t st) q).
        assert (E : controls q' = controls q).
        { unfold q', region. set (v0 := totals _ _ _ _ _ q). set (q1 := fold_left _ _ q). set (v1 := totals _ _ _ _ _ q1).
          assert (I0 : forall s, UpdateNetFieldScaleControls ub p t st v0 v1 s = s) by (intros s; apply U_not; intros (K & _); congruence).
          destruct (run_tail_controls ub p modify t (beta st * dt) st v0 v1 (controls q) (I0 _) (sched t st) (fun _ => O) q1 (or_introl (probe_controls _ _ _ _ _ _ _))) as [A _].
          rewrite I0 in A. destruct A as [A|A]; exact A. }
        specialize (IHt q'). destruct (stages ub p N modify measure t dt beta (sched t) todo q') as [h' r'']. cbn [fst snd] in *.
        destruct IHt as [A B]. split; [congruence|]. constructor; [|exact B].
        unfold orderly. cbn [e_after e_before e_stage e_t e_posted e_awaited]. split; [|split].
        + intros K. congruence.
        + intros _ _ K. congruence.
        + unfold posted, awaited, starts_reduce, checks_reduce. destruct (enable p); [congruence|]. destruct (Nat.eqb st 1); reflexivity. }
      specialize (W (seq 1 nst) r). destruct (stages ub p N modify measure t dt beta (sched t) (seq 1 nst) r) as [h r1]. cbn [fst snd] in *.
      destruct W as [W1 W2]. specialize (IH (t + dt) (mkRS (controls r1) (fun n => evolve t n (fields r1 n)))). cbn [controls] in IH. rewrite W1 in IH. specialize (IH S).
      rewrite W1. destruct (run ub p N modify measure nst beta sched evolve (t + dt) l {| controls := controls r; fields := fun n => evolve t n (fields r1 n) |}) as [h' r2]. cbn [fst snd] in *.
      split; [apply Forall_app; tauto | tauto]. }
    specialize (Z l (t + dt) r1' C). destruct (run ub p N modify measure nst beta sched evolve (t + dt) l r1') as [h' r2]. cbn [fst snd] in *.
    split; [apply Forall_app; tauto | tauto].
Qed.
End Run.

(** A run that starts before the first scheduled time plus one cadence, with steps no longer
    than the cadence: whatever the number of partitions and stages, the interleaving of the
    task lists, the measured fluxes and the other physics, every stage obeys the rules, and
    the schedule is always the start time plus a whole number of cadences. *)
Theorem C25_bookkeeping : forall (F : Type) ub p N (modify : nat -> R -> F -> F) measure nst beta sched evolve t0 dts fields0,
  (0 < N)%nat -> (0 < nst)%nat -> cadence p > 0 -> t0 < start_time p + cadence p ->
  (forall t st, interleaving N (sched t st)) -> Forall (fun dt => 0 <= dt <= cadence p) dts ->
  let h := run ub p N modify measure nst beta sched evolve t0 dts (mkRS (nf_init p) fields0) in
  Forall (orderly p) (fst h) /\ exists k : nat, next_update (controls (snd h)) = start_time p + INR k * cadence p.
Proof.
  intros F ub p N modify measure nst beta sched evolve t0 dts fields0 HN Hn Hc Ht IL Hd.
  apply run_orderly; try assumption. cbn [controls nf_init next_update]. exists O. cbn. ring.
Qed.
Print Assumptions C25_bookkeeping.
Lemma three_alone t st : interleaving 1 ((fun (_ : R) (_ : nat) => [0; 0; 0]%nat) t st).
Proof. intros n. destruct n as [|n]; reflexivity. Qed.
(** the hypotheses are met, and an update does happen *)
Example C25_bookkeeping_case : exists p dts e, cadence p > 0 /\ 0 < start_time p + cadence p /\ Forall (fun dt => 0 <= dt <= cadence p) dts /\
  (forall t st, interleaving 1 ((fun (_ : R) (_ : nat) => [0; 0; 0]%nat) t st)) /\
  In e (fst (run ub_libstdcxx p 1 (fun _ a x => x + a) (fun _ x => (1, x)) 2 (fun _ => 1) (fun _ _ => [0; 0; 0]%nat) (fun _ _ x => x) 0 dts (mkRS (nf_init p) (fun _ => 0)))) /\
  e_posted e = 2%nat /\ e_awaited e = 2%nat /\ dphi_dt (e_before e) = 0 /\ dphi_dt (e_after e) = 3.
Proof.
  exists {| enable := true; enforced_phi := 3; timescale := 1; cadence := 10; start_time := 0 |}, [1].
  cbn [run stages seq app fst cadence start_time].
  eexists. split; [lra|]. split; [lra|]. split; [repeat constructor; lra|]. split; [exact three_alone|].
  split; [left; reflexivity|]. cbn [e_posted e_awaited e_before e_after].
  unfold posted, awaited, starts_reduce, checks_reduce, nf_due2, nf_due. cbn [controls nf_init next_update start_time enable dphi_dt Nat.eqb].
  rewrite Rle_bool_true by lra. cbn [andb]. repeat split.
  pose proof (region_controls ub_libstdcxx {| enable := true; enforced_phi := 3; timescale := 1; cadence := 10; start_time := 0 |} 1 (fun _ a x => x + a) (fun _ x => (1, x)) 0 (1 * 1) 1 [0; 0; 0]%nat (mkRS (nf_init {| enable := true; enforced_phi := 3; timescale := 1; cadence := 10; start_time := 0 |}) (fun _ => 0)) (three_alone 0 O) Nat.lt_0_1) as K.
  cbn [controls nf_init next_update start_time cadence] in K. destruct K as [K _]; [lra|]. destruct K as [_ K]; [unfold updates_now; cbn [enable controls nf_init next_update start_time]; repeat split; lra|]. 
  rewrite K. rewrite U_yes by (unfold updates_now; cbn [enable controls nf_init next_update start_time]; repeat split; lra). cbn [dphi_dt].
  match goal with |- context [fst ?T] => assert (E : T = (1 + 0, 0 + 0)) end.
  { unfold totals, sums_now, nf_due2, nf_due. cbn [controls next_update start_time enable Nat.eqb nf_init]. rewrite Rle_bool_true by lra. reflexivity. }
  rewrite E. cbn [fst snd nf_init dphi_dt]. unfold new_rate. rewrite Req_bool_true by reflexivity. cbn [enforced_phi timescale]. rewrite !Rplus_0_r, sqrt_1. field.
Qed.

(** Violation 3: a run that is restarted (or whose controller is switched on) later than one
    cadence after the start time posts reductions in its second stage that nobody waits for;
    so does a run with a step longer than the cadence. *)
Theorem C25_unmatched_refuted : forall (F : Type) ub p (modify : nat -> R -> F -> F) measure nst beta evolve t0 dt fields0,
  enable p = true -> cadence p > 0 -> start_time p + cadence p <= t0 -> (2 <= nst)%nat ->
  exists e, In e (fst (run ub p 1 modify measure nst beta (fun _ _ => [0; 0; 0]%nat) evolve t0 [dt] (mkRS (nf_init p) fields0))) /\
    e_stage e = 2%nat /\ e_posted e = 2%nat /\ e_awaited e = 0%nat.
Proof.
  intros F ub p modify measure nst beta evolve t0 dt fields0 En Hc Ht Hn.
  destruct nst as [|[|nst]]; [lia|lia|]. cbn [run seq stages].
  set (r1 := region ub p 1 modify measure t0 (beta 1%nat * dt) 1 [0; 0; 0]%nat (mkRS (nf_init p) fields0)).
  set (r2 := region ub p 1 modify measure t0 (beta 2%nat * dt) 2 [0; 0; 0]%nat r1).
  destruct (stages ub p 1 modify measure t0 dt beta (fun _ => [0; 0; 0]%nat) (seq 3 nst) r2) as [h r3]. cbn [fst app].
  eexists. split; [right; left; reflexivity|]. cbn [e_stage e_posted e_awaited]. split; [reflexivity|]. split; [|reflexivity].
  assert (E : next_update (controls r1) = start_time p + cadence p).
  { unfold r1, region. cbn [run_tail Nat.eqb tail_task]. rewrite modify_task_controls. cbn [controls]. rewrite modify_task_controls, probe_controls. 
    rewrite U_yes; [reflexivity|]. repeat split; try assumption. cbn [controls nf_init next_update start_time]. lra. }
  unfold posted, starts_reduce, nf_due2, nf_due. rewrite En, E, !Rle_bool_true by lra. reflexivity.
Qed.
Print Assumptions C25_unmatched_refuted.
Theorem C25_long_step_refuted : exists p dts, enable p = true /\ cadence p > 0 /\ start_time p = 0 /\ Forall (fun dt => 0 < dt) dts /\
  forall (F : Type) ub (modify : nat -> R -> F -> F) measure beta evolve fields0,
  exists e, In e (fst (run ub p 1 modify measure 2 beta (fun _ _ => [0; 0; 0]%nat) evolve 0 dts (mkRS (nf_init p) fields0))) /\
    e_stage e = 2%nat /\ e_posted e = 2%nat /\ e_awaited e = 0%nat.
Proof.
  exists {| enable := true; enforced_phi := 3; timescale := 1; cadence := 10; start_time := 0 |}, [25; 25].
  set (p := {| enable := true; enforced_phi := 3; timescale := 1; cadence := 10; start_time := 0 |}).
  split; [reflexivity|]. split; [cbn; lra|]. split; [reflexivity|]. split; [repeat constructor; lra|].
  intros F ub modify measure beta evolve fields0. cbn [run seq stages].
  set (r0 := mkRS (nf_init p) fields0).
  set (r1 := region ub p 1 modify measure 0 (beta 1%nat * 25) 1 [0; 0; 0]%nat r0).
  set (r2 := region ub p 1 modify measure 0 (beta 2%nat * 25) 2 [0; 0; 0]%nat r1).
  set (r2' := mkRS (controls r2) (fun n => evolve 0 n (fields r2 n))).
  set (r3 := region ub p 1 modify measure (0 + 25) (beta 1%nat * 25) 1 [0; 0; 0]%nat r2').
  set (r4 := region ub p 1 modify measure (0 + 25) (beta 2%nat * 25) 2 [0; 0; 0]%nat r3).
  cbn [fst app]. eexists. split; [right; right; right; left; reflexivity|]. cbn [e_stage e_posted e_awaited]. split; [reflexivity|]. split; [|reflexivity].
  assert (St : forall t dt st (r : @RegionState F), updates_now p t st (controls r) -> next_update (controls (region ub p 1 modify measure t dt st [0; 0; 0]%nat r)) = next_update (controls r) + 10).
  { intros t dt st r K. unfold region. cbn [run_tail Nat.eqb tail_task]. rewrite modify_task_controls. cbn [controls]. rewrite modify_task_controls, probe_controls. rewrite U_yes by exact K. reflexivity. }
  assert (St2 : forall t dt (r : @RegionState F), controls (region ub p 1 modify measure t dt 2 [0; 0; 0]%nat r) = controls r).
  { intros t dt r. unfold region. cbn [run_tail Nat.eqb tail_task]. rewrite modify_task_controls. cbn [controls]. rewrite modify_task_controls, probe_controls. reflexivity. }
  assert (E1 : next_update (controls r1) = 10). { unfold r1. rewrite St; [cbn [controls nf_init next_update start_time p r0]; lra|]. repeat split. cbn [controls nf_init next_update start_time p r0]. lra. }
  assert (E2 : next_update (controls r2') = 10). { unfold r2'. cbn [controls]. unfold r2. rewrite St2. exact E1. }
  assert (E3 : next_update (controls r3) = 20). { unfold r3. rewrite St; [lra|]. repeat split. lra. }
  unfold posted, starts_reduce, nf_due2, nf_due. rewrite E3. cbn [enable start_time p]. rewrite !Rle_bool_true by lra. reflexivity.
Qed.
Print Assumptions C25_long_step_refuted.

(** ** What happens to the field in one stage *)
Section Tail.
Context {F : Type}.
Variables (ub : R -> R -> R -> R) (p : NFParams) (modify : nat -> R -> F -> F).
Variables (t dt : R) (st : nat).
Definition apply_amount (a : option R) (n : nat) (x : F) : F := match a with None => x | Some a => modify n a x end.
Lemma modify_task_fields fid ff n (r : @RegionState F) m :
  fields (modify_task p modify t dt st fid ff n r) m = if Nat.eqb m n then apply_amount (modify_amount p t dt st fid ff (controls r)) n (fields r n) else fields r m.
Proof.
  unfold modify_task, apply_amount, upd. destruct (modify_amount p t dt st fid ff (controls r)); [reflexivity|].
  destruct (Nat.eqb_spec m n) as [->|]; reflexivity.
Qed.
Lemma probe_fields l : forall r : @RegionState F, NoDup l -> forall m,
  fields (fold_left (fun r n => modify_task p modify t dt st true 1 n r) l r) m =
  if in_dec Nat.eq_dec m l then apply_amount (modify_amount p t dt st true 1 (controls r)) m (fields r m) else fields r m.
Proof.
  induction l as [|n l IH]; intros r ND m; [reflexivity|]. inversion ND; subst. cbn [fold_left]. rewrite IH by assumption.
  rewrite modify_task_controls, modify_task_fields.
  destruct (in_dec Nat.eq_dec m l) as [Y|Y]; destruct (in_dec Nat.eq_dec m (n :: l)) as [Z|Z]; destruct (Nat.eqb_spec m n) as [Q|Q]; subst; try reflexivity.
  all: exfalso; cbn [In] in *; intuition congruence.
Qed.
Lemma phaseA v0 v1 a : forall pc (r : @RegionState F) b, (forall n, In n a -> pc n = O) -> NoDup a ->
  exists pc' r', run_tail ub p modify t dt st v0 v1 (a ++ b) pc r = run_tail ub p modify t dt st v0 v1 b pc' r' /\
    controls r' = controls r /\
    (forall n, pc' n = if in_dec Nat.eq_dec n a then 1%nat else pc n) /\
    (forall n, fields r' n = if in_dec Nat.eq_dec n a then apply_amount (modify_amount p t dt st true (-1) (controls r)) n (fields r n) else fields r n).
Proof.
  induction a as [|m a IH]; intros pc r b P ND; [exists pc, r; repeat split; reflexivity|].
  inversion ND; subst. cbn [app run_tail]. rewrite (P m) by (left; reflexivity). cbn [tail_task].
  set (r1 := modify_task p modify t dt st true (-1) m r).
  destruct (IH (fun k => if Nat.eqb k m then S (pc k) else pc k) r1 b) as (pc' & r' & E & C & P' & Fd); [|assumption|].
  - intros n I. destruct (Nat.eqb_spec n m); [subst; contradiction|]. apply P. right. exact I.
  - exists pc', r'. split; [exact E|]. split; [rewrite C; apply modify_task_controls|]. split.
    + intros n. rewrite P'. cbv beta. destruct (in_dec Nat.eq_dec n a) as [Y|Y]; destruct (in_dec Nat.eq_dec n (m :: a)) as [Z|Z]; destruct (Nat.eqb_spec n m) as [Q|Q]; subst; try reflexivity.
      all: try (rewrite (P m) by (left; reflexivity); reflexivity).
      all: exfalso; cbn [In] in *; intuition congruence.
    + intros n. rewrite Fd. unfold r1. rewrite modify_task_controls, modify_task_fields.
      destruct (in_dec Nat.eq_dec n a) as [Y|Y]; destruct (in_dec Nat.eq_dec n (m :: a)) as [Z|Z]; destruct (Nat.eqb_spec n m) as [Q|Q]; subst; try reflexivity.
      all: exfalso; cbn [In] in *; intuition congruence.
Qed.
Lemma phaseB v0 v1 s : let U := UpdateNetFieldScaleControls ub p t st v0 v1 in U (U s) = U s ->
  forall b pc (r : @RegionState F) (y : nat -> F),
  (controls r = s \/ controls r = U s) -> (forall n, (2 <= pc n)%nat -> controls r = U s) ->
  (forall n, In n b -> 1 <= pc n)%nat -> (forall n, pc n + count_occ Nat.eq_dec b n <= 3)%nat ->
  (forall n, fields r n = if Nat.eqb (pc n) 3 then apply_amount (modify_amount p t dt st false 0 (U s)) n (y n) else y n) ->
  forall n, fields (run_tail ub p modify t dt st v0 v1 b pc r) n = if Nat.eqb (pc n + count_occ Nat.eq_dec b n) 3 then apply_amount (modify_amount p t dt st false 0 (U s)) n (y n) else y n.
Proof.
  intros U I. induction b as [|m b IH]; intros pc r y C1 C2 P1 P3 Fd n.
  - cbn [run_tail count_occ]. rewrite Nat.add_0_r. apply Fd.
  - cbn [run_tail]. assert (Pm : (1 <= pc m)%nat) by (apply P1; left; reflexivity).
    pose proof (P3 m) as Q. cbn [count_occ] in Q. destruct (Nat.eq_dec m m) as [_|K]; [|congruence].
    set (r1 := tail_task ub p modify t dt st v0 v1 m (pc m) r).
    rewrite (IH (fun k => if Nat.eqb k m then S (pc k) else pc k) r1 y).
    + cbv beta. cbn [count_occ]. destruct (Nat.eq_dec m n) as [->|Ne].
      * rewrite Nat.eqb_refl. replace (S (pc n) + count_occ Nat.eq_dec b n)%nat with (pc n + S (count_occ Nat.eq_dec b n))%nat by lia. reflexivity.
      * destruct (Nat.eqb_spec n m); [congruence|]. reflexivity.
    + unfold r1, tail_task. destruct (pc m) as [|[|k]]; [lia| |]; cbn [controls].
      * destruct C1 as [E|E]; rewrite E; right; [reflexivity | exact I].
      * rewrite modify_task_controls. exact C1.
    + intros k Hk. cbv beta in Hk. unfold r1, tail_task. destruct (pc m) as [|[|q]] eqn:Em; [lia| |]; cbn [controls].
      * destruct C1 as [E|E]; rewrite E; [reflexivity | exact I].
      * rewrite modify_task_controls. apply (C2 m). lia.
    + intros k Hk. cbv beta. destruct (Nat.eqb k m); [lia|]. apply P1. right. exact Hk.
    + intros k. cbv beta. pose proof (P3 k) as Q'. cbn [count_occ] in Q'. destruct (Nat.eqb_spec k m) as [->|Ne].
      * destruct (Nat.eq_dec m m); [lia|congruence].
      * destruct (Nat.eq_dec m k); [congruence|]. lia.
    + intros k. cbv beta. unfold r1, tail_task. destruct (pc m) as [|[|q]] eqn:Em; [lia| |]; cbn [fields].
      * rewrite Fd. destruct (Nat.eqb_spec k m) as [->|Ne]; [rewrite Em; reflexivity | reflexivity].
      * assert (q = O) by lia. subst q. rewrite modify_task_fields, !Fd. destruct (Nat.eqb_spec k m) as [->|Ne]; [|reflexivity].
        rewrite Em. cbn [Nat.eqb]. rewrite (C2 m) by lia. reflexivity.
Qed.
End Tail.
Lemma count_nodup a N : (forall n, count_occ Nat.eq_dec a n = (if Nat.ltb n N then 1 else 0)%nat) -> NoDup a /\ forall n, In n a <-> (n < N)%nat.
Proof.
  intros H. split.
  - apply (NoDup_count_occ Nat.eq_dec). intros n. rewrite H. destruct (Nat.ltb n N); lia.
  - intros n. rewrite (count_occ_In Nat.eq_dec), H. destruct (Nat.ltb_spec n N); lia.
Qed.

Lemma region_fields {F : Type} ub p N (modify : nat -> R -> F -> F) measure t dt st sched r n :
  removal_first N sched -> t < next_update (controls r) + cadence p -> (n < N)%nat -> cadence p > 0 ->
  let r' := region ub p N modify measure t dt st sched r in
  fields r' n = apply_amount modify (modify_amount p t dt st false 0 (controls r')) n
    (apply_amount modify (modify_amount p t dt st true (-1) (controls r)) n (apply_amount modify (modify_amount p t dt st true 1 (controls r)) n (fields r n))).
Proof.
  intros (a & b & -> & Ha & IL) L Hn Hc r'. destruct (count_nodup a N Ha) as [NDa INa].
  assert (HN : (0 < N)%nat) by lia.
  destruct (region_controls ub p N modify measure t dt st (a ++ b) r IL HN L) as [Y Nn]. fold r' in Y, Nn. cbv zeta in Y.
  unfold r' at 1, region. set (r1 := fold_left (fun r n => modify_task p modify t dt st true 1 n r) (seq 0 N) r) in *.
  set (v0 := totals p N measure t st r) in *. set (v1 := totals p N measure t st r1) in *.
  set (U := UpdateNetFieldScaleControls ub p t st v0 v1) in *.
  assert (CU : controls r' = U (controls r) /\ U (U (controls r)) = U (controls r)).
  { assert (D : updates_now p t st (controls r) \/ ~ updates_now p t st (controls r)).
    { unfold updates_now. destruct (bool_dec (enable p) true) as [A|A]; [|right; tauto]. destruct (Nat.eq_dec st 1); [|right; tauto]. destruct (Rle_dec (next_update (controls r)) t) as [B|B]; [left | right]; tauto. }
    destruct D as [D|D].
    - destruct (Y D) as [_ Y2]. split; [exact Y2|]. unfold U. rewrite (U_yes ub p t st v0 v1 _ D). rewrite U_not; [reflexivity|]. intros (_ & _ & K). cbn [next_update] in K. lra.
    - unfold U. rewrite !(U_not ub p t st v0 v1 _ D). split; [apply Nn, D | reflexivity]. }
  destruct CU as [CU I]. rewrite CU.
  assert (C1 : controls r1 = controls r) by apply probe_controls.
  destruct (phaseA (F := F) ub p modify t dt st v0 v1 a (fun _ => O) r1 b) as (pc' & r2 & E & C2 & P' & F2); [reflexivity | exact NDa|].
  rewrite E. clear E.
  set (y := fun n => if in_dec Nat.eq_dec n a then apply_amount modify (modify_amount p t dt st true (-1) (controls r)) n (apply_amount modify (modify_amount p t dt st true 1 (controls r)) n (fields r n)) else fields r n).
  assert (Py : forall k, pc' k = 1%nat \/ pc' k = O) by (intros k; rewrite P'; destruct (in_dec Nat.eq_dec k a); tauto).
  rewrite (phaseB ub p modify t dt st v0 v1 (controls r) I b pc' r2 y).
  - rewrite P'. destruct (in_dec Nat.eq_dec n a) as [Ya|Ya] eqn:Ea; [|exfalso; apply Ya, INa, Hn].
    pose proof (IL n) as Ln. rewrite count_occ_app, Ha in Ln. destruct (Nat.ltb_spec n N); [|lia]. replace (1 + count_occ Nat.eq_dec b n)%nat with 3%nat by lia. cbn [Nat.eqb].
    unfold y. rewrite Ea. reflexivity.
  - left. rewrite C2. exact C1.
  - intros k K. destruct (Py k); lia.
  - intros k K. rewrite P'. destruct (in_dec Nat.eq_dec k a) as [Ya|Ya]; [lia|]. exfalso. apply Ya, INa.
    pose proof (IL k) as Lk. rewrite count_occ_app in Lk. apply (count_occ_In Nat.eq_dec) in K. destruct (Nat.ltb_spec k N); [assumption|lia].
  - intros k. rewrite P'. pose proof (IL k) as Lk. rewrite count_occ_app, Ha in Lk. destruct (in_dec Nat.eq_dec k a) as [Ya|Ya].
    + destruct (Nat.ltb_spec k N); lia.
    + destruct (Nat.ltb_spec k N) as [W|W]; [exfalso; apply Ya, INa, W|lia].
  - intros k. destruct (Nat.eqb_spec (pc' k) 3) as [W|W]; [destruct (Py k); lia|]. rewrite F2, C1. unfold y, r1. rewrite (probe_fields ub) by exact (seq_NoDup N 0).
    destruct (in_dec Nat.eq_dec k a) as [Ya|Ya]; destruct (in_dec Nat.eq_dec k (seq 0 N)) as [Z|Z]; try reflexivity.
    + exfalso. apply Z, in_seq. apply INa in Ya. lia.
    + exfalso. apply Ya, INa. apply in_seq in Z. lia.
Qed.

(** If every partition removes the probe before any partition updates the controls (always so
    with one partition), then the only lasting effect of a stage on a partition's field is
    the control step itself, with the controls in force after the update. *)
Theorem C25_only_the_step : forall ub p N A dx gd B o measure t dt st sched r n,
  removal_first N sched -> t < next_update (controls r) + cadence p -> (n < N)%nat -> cadence p > 0 ->
  (forall n, order_of (B n) (o n)) -> coherent (gd n) (o n) (fields r n) ->
  let r' := region ub p N (fun n f m => ModifyField (A n) (dx n) (gd n) (o n) (Some f) m) measure t dt st sched r in
  fields r' n = if enable p then ModifyField (A n) (dx n) (gd n) (o n) (Some (phi_factor (controls r') * dphi_dt (controls r') * dt)) (fields r n) else fields r n.
Proof.
  intros ub p N A dx gd B o measure t dt st sched r n RF L Hn Hc O C r'. unfold r' at 1. rewrite region_fields by assumption. fold r'.
  unfold modify_amount at 1. cbn [negb andb]. rewrite andb_false_r. destruct (enable p) eqn:En; cbn [negb apply_amount].
  - f_equal. unfold modify_amount. rewrite En. destruct (Nat.eqb_spec st 1) as [->|]; cbn [negb andb apply_amount]; [|reflexivity].
    destruct (nf_due (controls r) t); cbn [negb apply_amount]; [|reflexivity]. apply (C25_probe_restores (A n) (dx n) (gd n) (B n) (o n) (fields r n) (O n) C).
  - unfold modify_amount. rewrite En. destruct (Nat.eqb_spec st 1) as [->|]; reflexivity.
Qed.
Print Assumptions C25_only_the_step.
Example C25_removal_first_case : removal_first 1 [0; 0; 0]%nat /\ removal_first 2 [1; 0; 0; 1; 1; 0]%nat.
Proof.
  split.
  - exists [0]%nat, [0; 0]%nat. split; [reflexivity|]. split; intros n; destruct n as [|n]; reflexivity.
  - exists [1; 0]%nat, [0; 1; 1; 0]%nat. split; [reflexivity|]. split; intros n; destruct n as [|[|n]]; reflexivity.
Qed.

(** With a response of the flux that is affine in the added field (slope K), the stage moves
    the flux in the direction of the rate -- but by K^2 times the rate times the step. *)
Theorem C25_response : forall (F : Type) ub p (modify : nat -> R -> F -> F) measure K t dt r,
  enable p = true -> start_time p <= next_update (controls r) <= t -> t < next_update (controls r) + cadence p -> cadence p > 0 ->
  modify 0%nat (-1) (modify 0%nat 1 (fields r 0%nat)) = fields r 0%nat ->
  (forall a, snd (measure 0%nat (modify 0%nat a (fields r 0%nat))) = snd (measure 0%nat (fields r 0%nat)) + a * K) ->
  let r' := region ub p 1 modify measure t dt 1 [0; 0; 0]%nat r in
  phi_factor (controls r') = K /\
  snd (measure 0%nat (fields r' 0%nat)) = snd (measure 0%nat (fields r 0%nat)) + K ^ 2 * dphi_dt (controls r') * dt.
Proof.
  intros F ub p modify measure K t dt r En [S1 S2] L Hc Hr HK r'.
  assert (RF : removal_first 1 [0; 0; 0]%nat) by apply C25_removal_first_case.
  destruct (region_controls ub p 1 modify measure t dt 1 [0; 0; 0]%nat r (three_alone 0 O) Nat.lt_0_1 L) as [Y _]. fold r' in Y. 
  destruct Y as [_ Y]; [repeat split; assumption|]. cbv zeta in Y. 
  assert (Dn : nf_due (controls r) t = true) by (unfold nf_due; apply Rle_bool_true; lra).
  assert (Su : forall q : @RegionState F, controls q = controls r -> totals p 1 measure t 1 q = add2 (measure 0%nat (fields q 0%nat)) (0, 0)).
  { intros q Eq. unfold totals, sums_now, nf_due2. rewrite Eq, Dn, En, Rle_bool_true by lra. reflexivity. }
  assert (M1 : modify_amount p t dt 1 true 1 (controls r) = Some 1) by (unfold modify_amount; rewrite En, Dn; reflexivity).
  assert (M2 : modify_amount p t dt 1 true (-1) (controls r) = Some (-1)) by (unfold modify_amount; rewrite En, Dn; reflexivity).
  assert (PF : phi_factor (controls r') = K).
  { rewrite Y, U_yes by (repeat split; assumption). cbn [phi_factor]. rewrite !Su by (try apply probe_controls; reflexivity).
    rewrite (probe_fields ub) by (apply seq_NoDup). rewrite M1. cbn [seq in_dec]. destruct (in_dec Nat.eq_dec 0%nat [0%nat]) as [_|Z]; [|exfalso; apply Z; left; reflexivity].
    cbn [apply_amount add2 snd]. rewrite HK. ring. }
  split; [exact PF|]. unfold r' at 1. rewrite region_fields by (try assumption; lia). fold r'. rewrite M1, M2. cbn [apply_amount]. rewrite Hr.
  unfold modify_amount. rewrite En. cbn [Nat.eqb negb andb apply_amount]. rewrite HK, PF. ring.
Qed.
Print Assumptions C25_response.

(** Violation 4: with two partitions whose lists run one after the other, the second one finds
    the controls already updated and does not remove the probe: a unit of artificial field
    stays in its zones for good. *)
Theorem C25_probe_left_refuted : forall (F : Type) ub p (modify : nat -> R -> F -> F) measure t dt r,
  enable p = true -> next_update (controls r) <= t < next_update (controls r) + cadence p -> cadence p > 0 ->
  interleaving 2 (list_by_list 2) /\
  let r' := region ub p 2 modify measure t dt 1 (list_by_list 2) r in
  let step := phi_factor (controls r') * dphi_dt (controls r') * dt in
  fields r' 0%nat = modify 0%nat step (modify 0%nat (-1) (modify 0%nat 1 (fields r 0%nat))) /\
  fields r' 1%nat = modify 1%nat step (modify 1%nat 1 (fields r 1%nat)).
Proof.
  intros F ub p modify measure t dt r En [D L] Hc. split; [intros n; destruct n as [|[|n]]; reflexivity|].
  assert (Dn : nf_due (controls r) t = true) by (unfold nf_due; apply Rle_bool_true; lra).
  unfold region, list_by_list. cbn [seq map concat app fold_left].
  set (r1 := modify_task p modify t dt 1 true 1 1 (modify_task p modify t dt 1 true 1 0 r)).
  set (v0 := totals p 2 measure t 1 r). set (v1 := totals p 2 measure t 1 r1).
  assert (C1 : controls r1 = controls r) by (unfold r1; rewrite !modify_task_controls; reflexivity).
  assert (M1 : forall ff, modify_amount p t dt 1 true ff (controls r) = Some ff) by (intros ff; unfold modify_amount; rewrite En, Dn; reflexivity).
  assert (F0 : fields r1 0%nat = modify 0%nat 1 (fields r 0%nat) /\ fields r1 1%nat = modify 1%nat 1 (fields r 1%nat)).
  { unfold r1. rewrite !modify_task_fields, !modify_task_controls, !M1. cbn [Nat.eqb apply_amount]. split; [reflexivity|]. reflexivity. }
  destruct F0 as [F0 F1].
  cbn [run_tail Nat.eqb tail_task].
  set (r2 := modify_task p modify t dt 1 true (-1) 0 r1).
  assert (C2 : controls r2 = controls r) by (unfold r2; rewrite modify_task_controls; exact C1).
  set (s' := UpdateNetFieldScaleControls ub p t 1 v0 v1 (controls r2)).
  assert (S' : next_update s' = next_update (controls r) + cadence p).
  { unfold s'. rewrite C2, U_yes by (repeat split; assumption). reflexivity. }
  assert (Dn' : nf_due s' t = false) by (unfold nf_due; rewrite S'; apply Rle_bool_false; lra).
  assert (Us : UpdateNetFieldScaleControls ub p t 1 v0 v1 s' = s') by (apply U_not; intros (_ & _ & K); lra).
  set (r3 := modify_task p modify t dt 1 false 0 0 {| controls := s'; fields := fields r2 |}).
  assert (C3 : controls r3 = s') by (unfold r3; rewrite modify_task_controls; reflexivity).
  assert (E4 : modify_task p modify t dt 1 true (-1) 1 r3 = r3).
  { unfold modify_task, modify_amount. rewrite C3, En, Dn'. reflexivity. }
  rewrite E4. rewrite C3, Us. rewrite !modify_task_controls. cbn [controls]. rewrite !modify_task_fields. cbn [Nat.eqb controls fields].
  assert (MF : modify_amount p t dt 1 false 0 s' = Some (phi_factor s' * dphi_dt s' * dt)) by (unfold modify_amount; rewrite En; reflexivity).
  rewrite MF. cbn [apply_amount]. unfold r3. rewrite !modify_task_fields. cbn [Nat.eqb controls fields]. rewrite MF. cbn [apply_amount].
  unfold r2. rewrite !modify_task_fields. cbn [Nat.eqb]. rewrite C1, M1. cbn [apply_amount]. rewrite F0, F1. split; reflexivity.
Qed.
Print Assumptions C25_probe_left_refuted.
Example C25_response_case : exists (p : NFParams) (r : @RegionState R), enable p = true /\ start_time p <= next_update (controls r) <= 5 /\ 5 < next_update (controls r) + cadence p /\ cadence p > 0 /\
  (fun (_ : nat) a x => x + 2 * a) 0%nat (-1) ((fun (_ : nat) a x => x + 2 * a) 0%nat 1 (fields r 0%nat)) = fields r 0%nat /\
  forall a, snd ((fun (_ : nat) (x : R) => (1, x)) 0%nat ((fun (_ : nat) a x => x + 2 * a) 0%nat a (fields r 0%nat))) = snd ((fun (_ : nat) (x : R) => (1, x)) 0%nat (fields r 0%nat)) + a * 2.
Proof.
  exists {| enable := true; enforced_phi := 3; timescale := 1; cadence := 10; start_time := 0 |}, (mkRS (mkNF 0 1 0) (fun _ => 7)).
  cbn [enable start_time next_update controls cadence fields snd]. repeat split; try lra. intros a. ring.
Qed.
