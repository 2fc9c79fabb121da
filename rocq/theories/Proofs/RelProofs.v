(** Lorentzian geometry in 3+1 form: split of the inner product, Cauchy-Schwarz,
    vectors orthogonal to a timelike vector are spacelike. *)
From Coq Require Import Reals Arith Lia Lra Psatz.
From Verif.Spec Require Import Tensor GeomSpec Relativity.
From Verif.Proofs Require Import TensorTac.
Local Open Scope R_scope.

Lemma adm_tpo alpha beta g ginv gamma gi sg sgg :
  adm_consistent alpha beta g ginv gamma gi sg sgg -> three_plus_one alpha beta gamma g.
Proof. intros H. destruct H. constructor; assumption. Qed.

(** bilinearity *)
Lemma dot3_sym G u v : symmetric3 G -> dot3 G u v = dot3 G v u.
Proof.
  intros H. unfold dot3, sum3. rewrite (H 1 0)%nat, (H 2 0)%nat, (H 2 1)%nat by lia. ring.
Qed.
Lemma dot4_sym G u v : symmetric4 G -> dot4 G u v = dot4 G v u.
Proof.
  intros H. unfold dot4, sum4.
  rewrite (H 1 0)%nat, (H 2 0)%nat, (H 2 1)%nat, (H 3 0)%nat, (H 3 1)%nat, (H 3 2)%nat by lia. ring.
Qed.
Lemma dot3_lin G a b u v w : dot3 G (fun i => a * u i + b * v i) w = a * dot3 G u w + b * dot3 G v w.
Proof. unfold dot3, sum3. ring. Qed.
Lemma dot4_lin G a b u v w : dot4 G (fun i => a * u i + b * v i) w = a * dot4 G u w + b * dot4 G v w.
Proof. unfold dot4, sum4. ring. Qed.
Lemma dot3_linr G a b u v w : dot3 G w (fun i => a * u i + b * v i) = a * dot3 G w u + b * dot3 G w v.
Proof. unfold dot3, sum3. ring. Qed.
Lemma dot4_linr G a b u v w : dot4 G w (fun i => a * u i + b * v i) = a * dot4 G w u + b * dot4 G w v.
Proof. unfold dot4, sum4. ring. Qed.
Lemma dot4_scale G a u v : dot4 G (fun i => a * u i) v = a * dot4 G u v.
Proof. unfold dot4, sum4. ring. Qed.
Lemma dot4_scaler G a u v : dot4 G u (fun i => a * v i) = a * dot4 G u v.
Proof. unfold dot4, sum4. ring. Qed.
Lemma dot4_ext G u u' v v' : eq4 u u' -> eq4 v v' -> dot4 G u v = dot4 G u' v'.
Proof.
  intros H K. unfold dot4, sum4. rewrite !H, !K by lia. reflexivity.
Qed.
Lemma dot3_ext G u u' v v' : eq3 u u' -> eq3 v v' -> dot3 G u v = dot3 G u' v'.
Proof.
  intros H K. unfold dot3, sum3. rewrite !H, !K by lia. reflexivity.
Qed.
Lemma dot3_zero G u v : (forall i, (i < 3)%nat -> u i = 0) -> dot3 G u v = 0.
Proof. intros H. unfold dot3, sum3. rewrite !H by lia. ring. Qed.
Lemma dot4_zero G u v : (forall i, (i < 4)%nat -> u i = 0) -> dot4 G u v = 0.
Proof. intros H. unfold dot4, sum4. rewrite !H by lia. ring. Qed.

Lemma zero_dec3 (v : vec) : (forall i, (i < 3)%nat -> v i = 0) \/ (exists i, (i < 3)%nat /\ v i <> 0).
Proof.
  destruct (Req_dec (v 0%nat) 0), (Req_dec (v 1%nat) 0), (Req_dec (v 2%nat) 0);
   try (right; solve [exists 0%nat; split; [lia|assumption] | exists 1%nat; split; [lia|assumption] | exists 2%nat; split; [lia|assumption]]).
  left. intros i Hi. idx; assumption.
Qed.

Section PD.
Variable G : mat.
Hypothesis Hs : symmetric3 G.
Hypothesis Hp : positive_definite3 G.

Lemma pd_nonneg v : 0 <= dot3 G v v.
Proof.
  destruct (zero_dec3 v) as [Z|N].
  - rewrite dot3_zero by exact Z. lra.
  - left. apply Hp, N.
Qed.

Lemma pd_zero v : dot3 G v v = 0 -> forall i, (i < 3)%nat -> v i = 0.
Proof.
  intros E. destruct (zero_dec3 v) as [Z|N]; [exact Z|]. apply Hp in N. lra.
Qed.

Lemma cauchy_schwarz u v : (dot3 G u v) * (dot3 G u v) <= dot3 G u u * dot3 G v v.
Proof.
  destruct (Req_dec (dot3 G v v) 0) as [Z|N].
  - assert (K : forall i, (i < 3)%nat -> v i = 0) by (apply pd_zero, Z).
    rewrite Z, (dot3_sym G u v Hs), (dot3_zero G v u) by exact K. lra.
  - assert (P : 0 < dot3 G v v) by (pose proof (pd_nonneg v); lra).
    set (a := dot3 G v v) in *. set (b := dot3 G u v).
    pose proof (pd_nonneg (fun i => a * u i + - b * v i)) as K.
    rewrite dot3_lin, !dot3_linr in K. fold a b in K. rewrite (dot3_sym G v u Hs) in K. fold b in K.
    assert (E : a * (a * dot3 G u u + - b * b) + - b * (a * b + - b * a) = a * (a * dot3 G u u - b * b)) by ring.
    rewrite E in K.
    assert (0 <= a * dot3 G u u - b * b). { apply Rmult_le_reg_l with a; [exact P|]. rewrite Rmult_0_r. exact K. }
    fold b. lra.
Qed.

Lemma pd_diag i : (i < 3)%nat -> 0 < G i i.
Proof.
  intros Hi. assert (K : 0 < dot3 G (fun j => delta j i) (fun j => delta j i)).
  { apply Hp. exists i. split; [exact Hi|]. unfold delta. rewrite Nat.eqb_refl. lra. }
  idx; unfold dot3, sum3, delta in K; cbn in K; lra.
Qed.

Lemma pd_minor i j : (i < 3)%nat -> (j < 3)%nat -> i <> j -> G i j * G i j < G i i * G j j.
Proof.
  intros Hi Hj N.
  assert (Pj := pd_diag j Hj).
  assert (K : 0 < dot3 G (fun k => G j j * delta k i + - G i j * delta k j) (fun k => G j j * delta k i + - G i j * delta k j)).
  { apply Hp. exists i. split; [exact Hi|]. unfold delta. rewrite Nat.eqb_refl.
    destruct (Nat.eqb_spec i j); [contradiction|]. lra. }
  assert (E : dot3 G (fun k => G j j * delta k i + - G i j * delta k j) (fun k => G j j * delta k i + - G i j * delta k j)
     = G j j * (G i i * G j j - G i j * G i j)).
  { rewrite dot3_lin, !dot3_linr.
    assert (D : forall a b, (a < 3)%nat -> (b < 3)%nat -> dot3 G (fun k => delta k a) (fun k => delta k b) = G a b).
    { intros a b Ha Hb. idx; unfold dot3, sum3, delta; cbn; ring. }
    rewrite !D by assumption. rewrite (Hs j i) by assumption. ring. }
  rewrite E in K. assert (0 < G i i * G j j - G i j * G i j).
  { apply Rmult_lt_reg_l with (G j j); [exact Pj|]. rewrite Rmult_0_r. exact K. }
  lra.
Qed.
End PD.

Section L.
Variables (alpha : R) (beta : vec) (gamma g : mat).
Hypothesis H : three_plus_one alpha beta gamma g.
Let ap := tpo_lapse _ _ _ _ H.
Let Gs := tpo_gsym _ _ _ _ H.
Let Gp := tpo_gpd _ _ _ _ H.

(** components orthogonal to the unit normal *)
Definition hat (u : vec) : vec := fun i => u (S i) + beta i * u 0%nat.

Lemma tpo_i0 i : (i < 3)%nat -> g (S i) 0%nat = lower3 gamma beta i.
Proof. intros Hi. rewrite (tpo_sym _ _ _ _ H) by lia. now apply (tpo_0i _ _ _ _ H). Qed.

Lemma dot4_split u v : dot4 g u v = - (alpha * alpha) * (u 0%nat * v 0%nat) + dot3 gamma (hat u) (hat v).
Proof.
  pose proof (tpo_00 _ _ _ _ H) as E00. pose proof (tpo_0i _ _ _ _ H) as E0. pose proof (tpo_ij _ _ _ _ H) as E.
  pose proof tpo_i0 as Ei.
  unfold dot4, sum4. rewrite E00, !E0, !Ei, !E by lia.
  unfold lower3, dot3, sum3, hat.
  rewrite (Gs 1 0)%nat, (Gs 2 0)%nat, (Gs 2 1)%nat by lia. ring.
Qed.

Lemma timelike_time u : timelike g u -> u 0%nat <> 0.
Proof.
  unfold timelike. rewrite dot4_split. intros T E. rewrite E in T.
  pose proof (pd_nonneg gamma Gp (hat u)). lra.
Qed.

Lemma timelike_bound u : timelike g u -> dot3 gamma (hat u) (hat u) < alpha * alpha * (u 0%nat * u 0%nat).
Proof. unfold timelike. rewrite dot4_split. intros T. lra. Qed.

Lemma orth_spacelike u v : timelike g u -> dot4 g u v = 0 -> (exists mu, (mu < 4)%nat /\ v mu <> 0) ->
  0 < dot4 g v v.
Proof.
  intros T O N. pose proof (timelike_bound u T) as B. pose proof (timelike_time u T) as U0.
  rewrite dot4_split in O. rewrite dot4_split.
  pose proof (cauchy_schwarz gamma Gs Gp (hat u) (hat v)) as CS.
  set (uu := dot3 gamma (hat u) (hat u)) in *. set (vv := dot3 gamma (hat v) (hat v)) in *.
  assert (Ouv : dot3 gamma (hat u) (hat v) = alpha * alpha * (u 0%nat * v 0%nat)) by lra.
  rewrite Ouv in CS.
  assert (V0 : 0 <= vv) by (apply pd_nonneg, Gp).
  assert (UU : 0 <= uu) by (apply pd_nonneg, Gp).
  assert (A2 : 0 < alpha * alpha) by (apply Rmult_lt_0_compat; exact ap).
  assert (U2 : 0 < u 0%nat * u 0%nat) by (apply Rsqr_pos_lt; exact U0).
  destruct (Req_dec (v 0%nat) 0) as [Z|NZ].
  - rewrite Z, Rmult_0_r, Rmult_0_r, Rplus_0_l.
    apply Gp. destruct N as (mu & Hm & Hv). destruct mu as [|i]; [contradiction|].
    exists i. split; [lia|]. unfold hat. rewrite Z, Rmult_0_r, Rplus_0_r. exact Hv.
  - assert (V2 : 0 < v 0%nat * v 0%nat) by (apply Rsqr_pos_lt; exact NZ).
    assert (AU : 0 < alpha * alpha * (u 0%nat * u 0%nat)) by (apply Rmult_lt_0_compat; assumption).
    assert (Vp : 0 < vv).
    { destruct V0 as [?|E0]; [assumption|]. rewrite <- E0 in CS. exfalso.
      assert (0 < alpha * alpha * (u 0%nat * v 0%nat) * (alpha * alpha * (u 0%nat * v 0%nat))).
      { apply Rsqr_pos_lt. apply Rmult_integral_contrapositive_currified; [lra|].
        apply Rmult_integral_contrapositive_currified; assumption. }
      lra. }
    assert (K : alpha * alpha * (u 0%nat * u 0%nat) * (alpha * alpha * (v 0%nat * v 0%nat)) <
                alpha * alpha * (u 0%nat * u 0%nat) * vv).
    { apply Rle_lt_trans with (uu * vv).
      - replace (alpha * alpha * (u 0%nat * u 0%nat) * (alpha * alpha * (v 0%nat * v 0%nat)))
          with (alpha * alpha * (u 0%nat * v 0%nat) * (alpha * alpha * (u 0%nat * v 0%nat))) by ring. exact CS.
      - apply Rmult_lt_compat_r; assumption. }
    apply Rmult_lt_reg_l in K; [|exact AU]. lra.
Qed.
End L.
