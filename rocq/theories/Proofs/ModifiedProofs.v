From Coq Require Import Reals Arith Lra Lia.
From Flocq Require Import Core.
From Coquelicot Require Import Coquelicot.
From Verif.Model Require Import Num Robust LinearAlgebra Geometry Modified.
From Verif.Spec Require Import Tensor GeomSpec SystemSpec.
From Verif.Proofs Require Import TensorTac LinearAlgebraProofs GeomBase GeomSystems GeomDeriv.
Local Open Scope R_scope.

(** ** matrix algebra *)
Definition eq3 (A B : mat) := forall i j, (i < 3)%nat -> (j < 3)%nat -> A i j = B i j.
Definition eq4 (A B : mat) := forall i j, (i < 4)%nat -> (j < 4)%nat -> A i j = B i j.

Lemma mul3_assoc A B C i j : mul3 (mul3 A B) C i j = mul3 A (mul3 B C) i j.
Proof. unfold mul3, sum3. ring. Qed.
Lemma mul4_assoc A B C i j : mul4 (mul4 A B) C i j = mul4 A (mul4 B C) i j.
Proof. unfold mul4, sum4. ring. Qed.
Lemma mul3_ext A A' B B' : eq3 A A' -> eq3 B B' -> eq3 (mul3 A B) (mul3 A' B').
Proof. intros HA HB i j Hi Hj. unfold mul3, sum3. now rewrite !HA, !HB by lia. Qed.
Lemma mul4_ext A A' B B' : eq4 A A' -> eq4 B B' -> eq4 (mul4 A B) (mul4 A' B').
Proof. intros HA HB i j Hi Hj. unfold mul4, sum4. now rewrite !HA, !HB by lia. Qed.
Lemma mul3_1_l A : eq3 (mul3 delta A) A.
Proof. intros i j Hi Hj. idx; tensor; ring. Qed.
Lemma mul4_1_l A : eq4 (mul4 delta A) A.
Proof. intros i j Hi Hj. idx; tensor; ring. Qed.

Lemma inverse3_mul A A' B B' : inverse3 A A' -> inverse3 B B' -> inverse3 (mul3 A B) (mul3 B' A').
Proof.
  intros HA HB i j Hi Hj. split.
  - transitivity (mul3 A A' i j); [|now apply HA].
    rewrite mul3_assoc. refine (mul3_ext A A _ A' _ _ i j Hi Hj); [easy|].
    intros k l Hk Hl. rewrite <- mul3_assoc. transitivity (mul3 delta A' k l); [|now apply mul3_1_l].
    refine (mul3_ext _ _ _ _ _ _ k l Hk Hl); [|easy]. intros p q Hp Hq. now apply HB.
  - transitivity (mul3 B' B i j); [|now apply HB].
    rewrite mul3_assoc. refine (mul3_ext B' B' _ B _ _ i j Hi Hj); [easy|].
    intros k l Hk Hl. rewrite <- mul3_assoc. transitivity (mul3 delta B k l); [|now apply mul3_1_l].
    refine (mul3_ext _ _ _ _ _ _ k l Hk Hl); [|easy]. intros p q Hp Hq. now apply HA.
Qed.
Lemma inverse4_mul A A' B B' : inverse4 A A' -> inverse4 B B' -> inverse4 (mul4 A B) (mul4 B' A').
Proof.
  intros HA HB i j Hi Hj. split.
  - transitivity (mul4 A A' i j); [|now apply HA].
    rewrite mul4_assoc. refine (mul4_ext A A _ A' _ _ i j Hi Hj); [easy|].
    intros k l Hk Hl. rewrite <- mul4_assoc. transitivity (mul4 delta A' k l); [|now apply mul4_1_l].
    refine (mul4_ext _ _ _ _ _ _ k l Hk Hl); [|easy]. intros p q Hp Hq. now apply HB.
  - transitivity (mul4 B' B i j); [|now apply HB].
    rewrite mul4_assoc. refine (mul4_ext B' B' _ B _ _ i j Hi Hj); [easy|].
    intros k l Hk Hl. rewrite <- mul4_assoc. transitivity (mul4 delta B k l); [|now apply mul4_1_l].
    refine (mul4_ext _ _ _ _ _ _ k l Hk Hl); [|easy]. intros p q Hp Hq. now apply HA.
Qed.
Lemma inverse3_transpose A A' : inverse3 A A' -> inverse3 (transpose A) (transpose A').
Proof.
  intros H i j Hi Hj. destruct (H j i Hj Hi) as [H1 H2].
  assert (D : delta j i = delta i j) by (unfold delta; now rewrite Nat.eqb_sym).
  unfold mul3, transpose, sum3 in *. rewrite D in *. split; [rewrite <- H2|rewrite <- H1]; ring.
Qed.
Lemma inverse4_transpose A A' : inverse4 A A' -> inverse4 (transpose A) (transpose A').
Proof.
  intros H i j Hi Hj. destruct (H j i Hj Hi) as [H1 H2].
  assert (D : delta j i = delta i j) by (unfold delta; now rewrite Nat.eqb_sym).
  unfold mul4, transpose, sum4 in *. rewrite D in *. split; [rewrite <- H2|rewrite <- H1]; ring.
Qed.
Lemma inverse3_ext A A' B B' : eq3 A B -> eq3 A' B' -> inverse3 A A' -> inverse3 B B'.
Proof.
  intros H1 H2 H i j Hi Hj. destruct (H i j Hi Hj) as [E1 E2].
  split; [rewrite <- E1|rewrite <- E2]; symmetry; (apply mul3_ext; assumption).
Qed.
Lemma inverse4_ext A A' B B' : eq4 A B -> eq4 A' B' -> inverse4 A A' -> inverse4 B B'.
Proof.
  intros H1 H2 H i j Hi Hj. destruct (H i j Hi Hj) as [E1 E2].
  split; [rewrite <- E1|rewrite <- E2]; symmetry; (apply mul4_ext; assumption).
Qed.

(** extending a spatial Jacobian to spacetime *)
Lemma S2ST_inverse J K : inverse3 J K -> inverse4 (S2ST J) (S2ST K).
Proof.
  intros H i j Hi Hj.
  pose proof (H 0 0)%nat as H00. pose proof (H 0 1)%nat as H01. pose proof (H 0 2)%nat as H02.
  pose proof (H 1 0)%nat as H10. pose proof (H 1 1)%nat as H11. pose proof (H 1 2)%nat as H12.
  pose proof (H 2 0)%nat as H20. pose proof (H 2 1)%nat as H21. pose proof (H 2 2)%nat as H22.
  clear H.
  specialize (H00 ltac:(lia) ltac:(lia)). specialize (H01 ltac:(lia) ltac:(lia)). specialize (H02 ltac:(lia) ltac:(lia)).
  specialize (H10 ltac:(lia) ltac:(lia)). specialize (H11 ltac:(lia) ltac:(lia)). specialize (H12 ltac:(lia) ltac:(lia)).
  specialize (H20 ltac:(lia) ltac:(lia)). specialize (H21 ltac:(lia) ltac:(lia)). specialize (H22 ltac:(lia) ltac:(lia)).
  unfold mul3, sum3, delta in *. cbn in H00, H01, H02, H10, H11, H12, H20, H21, H22.
  idx; unfold mul4, sum4, delta, S2ST; cbn; split; lra.
Qed.

Lemma Determinant_pullback G J :
  det3 (fun i j => sum3 (fun k => sum3 (fun l => G k l * J k i * J l j))) = det3 G * (det3 J * det3 J).
Proof.
  transitivity (det3 (mul3 (transpose J) (mul3 G J))).
  - apply det3_ext. intros i j Hi Hj. unfold mul3, transpose, sum3. ring.
  - rewrite !det3_mul. replace (det3 (transpose J)) with (det3 J); [ring|].
    unfold det3, det2, minor, transpose, skip; cbn. ring.
Qed.

Lemma inv_apply3 J K b k : inverse3 J K -> (k < 3)%nat ->
  sum3 (fun i => J k i * sum3 (fun j => K i j * b j)) = b k.
Proof.
  intros H Hk.
  transitivity (sum3 (fun j => mul3 J K k j * b j)).
  - unfold mul3, sum3. ring.
  - unfold sum3. rewrite !(fun i j Hi Hj => proj1 (H i j Hi Hj)) by lia.
    idx; unfold delta; cbn; ring.
Qed.

Lemma sum3_ext f f' : (forall i, (i < 3)%nat -> f i = f' i) -> sum3 f = sum3 f'.
Proof. intros H. unfold sum3. now rewrite !H by lia. Qed.
Lemma sum4_ext f f' : (forall i, (i < 4)%nat -> f i = f' i) -> sum4 f = sum4 f'.
Proof. intros H. unfold sum4. now rewrite !H by lia. Qed.
Lemma dot3_ext G u u' v v' : (forall i, (i < 3)%nat -> u i = u' i) -> (forall i, (i < 3)%nat -> v i = v' i) ->
  dot3 G u v = dot3 G u' v'.
Proof. intros H1 H2. unfold dot3, sum3. now rewrite !H1, !H2 by lia. Qed.

Section Pullback.
  Variables (G J K : mat).
  Hypothesis HI : inverse3 J K.
  Let G' : mat := fun i j => sum3 (fun k => sum3 (fun l => G k l * J k i * J l j)).

  Lemma pull_dot v w : dot3 G' v w
    = dot3 G (fun k => sum3 (fun i => J k i * v i)) (fun k => sum3 (fun i => J k i * w i)).
  Proof. unfold G', dot3, sum3. ring. Qed.

  Lemma pull_pd : positive_definite3 G -> positive_definite3 G'.
  Proof.
    intros H v (i & Hi & Hv). rewrite pull_dot. apply H.
    (* otherwise v = K (J v) = 0 *)
    set (w := fun k => sum3 (fun i => J k i * v i)).
    destruct (Req_dec (w 0%nat) 0) as [Z0|N]; [|exists 0%nat; split; [lia|assumption]].
    destruct (Req_dec (w 1%nat) 0) as [Z1|N]; [|exists 1%nat; split; [lia|assumption]].
    destruct (Req_dec (w 2%nat) 0) as [Z2|N]; [|exists 2%nat; split; [lia|assumption]].
    exfalso. apply Hv.
    assert (HI' : inverse3 K J).
    { intros p q Hp Hq. destruct (HI p q Hp Hq). now split. }
    rewrite <- (inv_apply3 K J v i HI' Hi).
    change (sum3 (fun k => K i k * w k) = 0). unfold sum3. rewrite Z0, Z1, Z2. ring.
  Qed.
End Pullback.

Lemma mod_consistent S T td X :
  consistent_at S (mapped T X) ->
  inverse3 (tr_Jcov T X.[1] X.[2] X.[3]) (tr_Jcon T X.[1] X.[2] X.[3]) ->
  consistent_at (Modified S T td) X.
Proof.
  intros HS HI. unfold consistent_at in *. destruct HS.
  cbn [Lapse ContravariantShift SpacetimeMetric SpacetimeMetricInverse Metric MetricInverse DetGamma DetG Modified].
  unfold mod_Lapse, mod_SpacetimeMetric, mod_SpacetimeMetricInverse, mod_Metric, mod_MetricInverse.
  set (J := tr_Jcov _ _ _ _) in *. set (K := tr_Jcon _ _ _ _) in *.
  set (alpha := Lapse S (mapped T X)) in *. set (beta := ContravariantShift S (mapped T X)) in *.
  set (g := SpacetimeMetric S (mapped T X)) in *. set (gi := SpacetimeMetricInverse S (mapped T X)) in *.
  set (ga := Metric S (mapped T X)) in *. set (gai := MetricInverse S (mapped T X)) in *.
  set (dgam := DetGamma S (mapped T X)) in *. set (dg := DetG S (mapped T X)) in *.
  clearbody J K alpha beta g gi ga gai dgam dg.
  rewrite Determinant_det3.
  assert (DJ : det3 J * det3 K = 1) by now apply inverse3_det.
  assert (NJ : det3 J <> 0) by (intros Z; rewrite Z in DJ; lra).
  assert (Bk : forall k, (k < 3)%nat -> sum3 (fun i => J k i * sum3 (fun j => K i j * beta j)) = beta k).
  { intros k Hk. now apply inv_apply3. }
  assert (GS : symmetric4 (fun mu nu => sum4 (fun lam => sum4 (fun kap => g lam kap * S2ST J lam mu * S2ST J kap nu)))).
  { intros i j Hi Hj. unfold sum4.
    rewrite (adm_g_sym 1 0)%nat, (adm_g_sym 2 0)%nat, (adm_g_sym 3 0)%nat,
      (adm_g_sym 2 1)%nat, (adm_g_sym 3 1)%nat, (adm_g_sym 3 2)%nat by lia. ring. }
  assert (GaS : symmetric3 (fun i j => sum3 (fun k => sum3 (fun l => ga k l * J k i * J l j)))).
  { intros i j Hi Hj. unfold sum3.
    rewrite (adm_gamma_sym 1 0)%nat, (adm_gamma_sym 2 0)%nat, (adm_gamma_sym 2 1)%nat by lia. ring. }
  assert (G00 : sum4 (fun lam => sum4 (fun kap => g lam kap * S2ST J lam 0%nat * S2ST J kap 0%nat))
     = - (alpha * alpha) + dot3 (fun i j => sum3 (fun k => sum3 (fun l => ga k l * J k i * J l j)))
         (fun i => sum3 (fun j => K i j * beta j)) (fun i => sum3 (fun j => K i j * beta j))).
  { rewrite pull_dot. 
    transitivity (g 0%nat 0%nat); [unfold sum4, S2ST; cbn; ring|]. rewrite adm_g00. f_equal.
    apply dot3_ext; intros i Hi; symmetry; now apply Bk. }
  assert (G0i : forall i, (i < 3)%nat -> sum4 (fun lam => sum4 (fun kap => g lam kap * S2ST J lam 0%nat * S2ST J kap (Datatypes.S i)))
     = lower3 (fun i j => sum3 (fun k => sum3 (fun l => ga k l * J k i * J l j)))
         (fun i => sum3 (fun j => K i j * beta j)) i).
  { intros i Hi.
    transitivity (sum3 (fun k => J k i * sum3 (fun l => ga k l * sum3 (fun m => J l m * sum3 (fun j => K m j * beta j))))).
    - transitivity (sum3 (fun k => J k i * g 0%nat (Datatypes.S k))).
      + unfold sum4, sum3, S2ST; cbn. rewrite !Nat.sub_0_r. ring.
      + apply sum3_ext. intros k Hk. rewrite adm_g0i by assumption. f_equal. unfold lower3.
        apply sum3_ext. intros l Hl. now rewrite Bk.
    - unfold lower3, sum3. ring. }
  assert (Gij : forall i j, (i < 3)%nat -> (j < 3)%nat ->
     sum4 (fun lam => sum4 (fun kap => g lam kap * S2ST J lam (Datatypes.S i) * S2ST J kap (Datatypes.S j)))
     = sum3 (fun k => sum3 (fun l => ga k l * J k i * J l j))).
  { intros i j Hi Hj. 
    transitivity (sum3 (fun k => sum3 (fun l => g (Datatypes.S k) (Datatypes.S l) * J k i * J l j))).
    - unfold sum4, sum3, S2ST; cbn. rewrite !Nat.sub_0_r. ring.
    - unfold sum3. now rewrite !adm_gij by lia. }
  assert (D3 : det3 (fun i j => sum3 (fun k => sum3 (fun l => ga k l * J k i * J l j)))
     = det3 ga * (det3 J * det3 J)) by apply Determinant_pullback.
  assert (PJ : 0 < Rabs (det3 J)) by now apply Rabs_pos_lt.
  assert (AJ : Rabs (det3 J) * Rabs (det3 J) = det3 J * det3 J).
  { rewrite <- Rabs_mult. apply Rabs_pos_eq, Rle_0_sqr. }
  assert (E1 : Rabs (dgam * det3 J) = dgam * Rabs (det3 J)).
  { rewrite Rabs_mult, Rabs_pos_eq; [reflexivity|]. destruct adm_det3; lra. }
  assert (E2 : Rabs (dg * det3 J) = dg * Rabs (det3 J)).
  { rewrite Rabs_mult, Rabs_pos_eq; [reflexivity|]. destruct adm_det4; lra. }
  rewrite E1, E2. destruct adm_det3 as [P3 Q3]. destruct adm_det4 as [P4 Q4].
  constructor; try assumption.
  - now apply pull_pd with (K := K).
  - apply (inverse4_ext (mul4 (transpose (S2ST J)) (mul4 g (S2ST J)))
             (mul4 (mul4 (S2ST K) gi) (transpose (S2ST K)))).
    + intros i j Hi Hj. unfold mul4, transpose, sum4. ring.
    + intros i j Hi Hj. unfold mul4, transpose, sum4. ring.
    + apply inverse4_mul; [now apply inverse4_transpose, S2ST_inverse|].
      apply inverse4_mul; [assumption|now apply S2ST_inverse].
  - apply (inverse3_ext (mul3 (transpose J) (mul3 ga J)) (mul3 (mul3 K gai) (transpose K))).
    + intros i j Hi Hj. unfold mul3, transpose, sum3. ring.
    + intros i j Hi Hj. unfold mul3, transpose, sum3. ring.
    + apply inverse3_mul; [now apply inverse3_transpose|]. now apply inverse3_mul.
  - split; [now apply Rmult_lt_0_compat|]. rewrite D3, <- Q3, <- AJ. ring.
  - split; [now apply Rmult_lt_0_compat|].
    erewrite det4_adm; [|exact GS|exact GaS|exact G00|exact G0i|exact Gij].
    rewrite D3, <- Q3, <- AJ, adm_dets. ring.
  - rewrite adm_dets. ring.
Qed.
