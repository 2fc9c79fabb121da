(** MP5 in binary64: the face states are finite. *)
From Coq Require Import ZArith Reals Lra Lia Bool Psatz.
From Flocq Require Import Core BinarySingleNaN Ulp.
From Verif.Model Require Import Num ReconIEEE.
From Verif.Proofs Require Import NumB64 ReconB64 WenoB64 WenoB64b.
Local Open Scope R_scope.

(** division by a constant at least one *)
Lemma fin_div x y e k : fin x e -> pos y 0 k -> (-1074 <= e <= 1023)%Z -> fin (ndiv x y) e.
Proof.
  intros [Fx Bx] [Fy [Ay By]] He. change (b2 0) with 1 in Ay.
  assert (H : Rabs (B2R x / B2R y) <= b2 e).
  { unfold Rdiv. rewrite Rabs_mult, (Rabs_pos_eq (/ _)) by (apply Rlt_le, Rinv_0_lt_compat; lra).
    eapply Rle_trans; [|exact Bx].
    rewrite <- (Rmult_1_r (Rabs (B2R x))) at 2. apply Rmult_le_compat_l; [apply Rabs_pos|].
    rewrite <- Rinv_1. apply Rinv_le; lra. }
  destruct (div64 x y Fx) as [E F]; [apply Rgt_not_eq; lra|eapply Rle_trans; [exact H|]; apply bpow_le; lia|].
  split; [exact F|]. rewrite E. apply rnd64_abs_le; [lia|exact H].
Qed.
Lemma fin_minmod x y e : fin x e -> fin y e -> (0 <= e)%Z -> (e <= 1023)%Z -> fin (g_MINMOD x y) e.
Proof.
  intros X Y He He'. unfold g_MINMOD. destruct (nlt _ (nmul x y)); [destruct (nlt _ _); assumption|].
  assert (L : fin (nlit 0 1) 0) by lit. apply (fin_w _ _ _ L He).
Qed.
Lemma fin_fmin x y e : fin x e -> fin y e -> fin (g_fmin x y) e.
Proof. intros X Y. unfold g_fmin. destruct (nlt y x); assumption. Qed.
Lemma fin_fmax x y e : fin x e -> fin y e -> fin (g_fmax x y) e.
Proof. intros X Y. unfold g_fmax. destruct (nlt x y); assumption. Qed.

Lemma fin_addw x y e f : fin x e -> fin y e -> (-1075 <= e <= 1022)%Z -> (e + 1 <= f)%Z -> fin (nadd x y) f.
Proof. intros X Y H1 H2. apply (fin_w _ _ _ (fin_add x y e X Y H1) H2). Qed.
Lemma fin_subw x y e f : fin x e -> fin y e -> (-1075 <= e <= 1022)%Z -> (e + 1 <= f)%Z -> fin (nsub x y) f.
Proof. intros X Y H1 H2. apply (fin_w _ _ _ (fin_sub x y e X Y H1) H2). Qed.
Lemma fin_mulw x y e e' f : fin x e -> fin y e' -> (-1074 <= e + e' <= 1023)%Z -> (e + e' <= f)%Z -> fin (nmul x y) f.
Proof. intros X Y H1 H2. apply (fin_w _ _ _ (fin_mul x y e e' X Y H1) H2). Qed.

Lemma unlimited_fin (a b c d e : B64) : fin a 1000 -> fin b 1000 -> fin c 1000 -> fin d 1000 -> fin e 1000 ->
  fin (g_mp5_unlimited a b c d e) 1010.
Proof.
  intros A B C D E. unfold g_mp5_unlimited.
  assert (L2 : fin (nlit 2 1) 6) by lit. assert (L13 : fin (nlit 13 1) 6) by lit.
  assert (L47 : fin (nlit 47 1) 6) by lit. assert (L27 : fin (nlit 27 1) 6) by lit.
  assert (L3 : fin (nlit 3 1) 6) by lit. assert (L60 : pos (nlit 60 1) 0 6) by lit.
  assert (M : forall l x, fin l 6 -> fin x 1000 -> forall f, (1006 <= f)%Z -> fin (nmul l x) f)
    by (intros l x Hl Hx f Hf; apply (fin_mulw _ _ 6 1000 _ Hl Hx); lia).
  apply (fin_div _ _ 1010 6); [|exact L60|lia].
  apply (fin_subw _ _ 1009); [|apply M; try assumption; lia|lia|lia].
  apply (fin_addw _ _ 1008); [|apply M; try assumption; lia|lia|lia].
  apply (fin_addw _ _ 1007); [|apply M; try assumption; lia|lia|lia].
  apply (fin_subw _ _ 1006); try (apply M; try assumption; lia); lia.
Qed.

Lemma interval_fin (a b c d e : B64) : fin a 1000 -> fin b 1000 -> fin c 1000 -> fin d 1000 -> fin e 1000 ->
  fin (fst (g_mp5_interval a b c d e)) 1010 /\ fin (snd (g_mp5_interval a b c d e)) 1010.
Proof.
  intros A B C D E. unfold g_mp5_interval. cbv zeta. cbn [fst snd].
  assert (L2 : fin (nlit 2 1) 1) by lit. assert (L4 : fin (nlit 4 1) 2) by lit.
  assert (L3 : fin (nlit 3 1) 2) by lit. assert (L43 : fin (nlit 4 3) 1) by lit.
  assert (Lh : fin (nlit 1 2) 0) by lit.
  assert (D2 : forall x y z, fin x 1000 -> fin y 1000 -> fin z 1000 -> fin (nsub (nadd x y) (nmul (nlit 2 1) z)) 1002).
  { intros x y z X Y Z. apply (fin_subw _ _ 1001); [apply (fin_addw _ _ 1000); try assumption; lia| |lia|lia].
    apply (fin_mulw _ _ 1 1000); try assumption; lia. }
  pose proof (D2 a c b A C B) as Dm. pose proof (D2 b d c B D C) as D0. pose proof (D2 c e d C E D) as Dp.
  set (d2m := nsub (nadd a c) _) in *. set (d2 := nsub (nadd b d) _) in *. set (d2p := nsub (nadd c e) _) in *.
  clearbody d2m d2 d2p.
  assert (D4 : forall x y, fin x 1002 -> fin y 1002 -> fin (nsub (nmul (nlit 4 1) x) y) 1005).
  { intros x y X Y. apply (fin_subw _ _ 1004); [|apply (fin_w _ _ _ Y); lia|lia|lia].
    apply (fin_mulw _ _ 2 1002); try assumption; lia. }
  assert (MM : forall x y, fin x 1002 -> fin y 1002 ->
    fin (g_MINMOD (g_MINMOD (nsub (nmul (nlit 4 1) x) y) (nsub (nmul (nlit 4 1) y) x)) (g_MINMOD x y)) 1005).
  { intros x y X Y. apply fin_minmod; [|apply (fin_w _ _ _ (fin_minmod x y 1002 X Y ltac:(lia) ltac:(lia))); lia|lia|lia].
    apply fin_minmod; [apply D4; assumption|apply D4; assumption|lia|lia]. }
  pose proof (MM d2 d2p D0 Dp) as MMp.
  assert (MMm : fin (g_MINMOD (g_MINMOD (nsub (nmul (nlit 4 1) d2m) d2) (nsub (nmul (nlit 4 1) d2) d2m)) (g_MINMOD d2 d2m)) 1005).
  { apply fin_minmod; [|apply (fin_w _ _ _ (fin_minmod d2 d2m 1002 D0 Dm ltac:(lia) ltac:(lia))); lia|lia|lia].
    apply fin_minmod; [apply D4; assumption|apply D4; assumption|lia|lia]. }
  set (dMMp := g_MINMOD _ (g_MINMOD d2 d2p)) in *. set (dMMm := g_MINMOD _ (g_MINMOD d2 d2m)) in *. clearbody dMMp dMMm.
  assert (UL : fin (nadd c (nmul (nlit 4 1) (nsub c b))) 1010).
  { apply (fin_addw _ _ 1009); [apply (fin_w _ _ _ C); lia| |lia|lia].
    apply (fin_mulw _ _ 2 1001); [exact L4|apply (fin_subw _ _ 1000); try assumption; lia|lia|lia]. }
  assert (MD : fin (nsub (nmul (nlit 1 2) (nadd c d)) (nmul (nlit 1 2) dMMp)) 1010).
  { apply (fin_subw _ _ 1009); [apply (fin_mulw _ _ 0 1001); [exact Lh|apply (fin_addw _ _ 1000); try assumption; lia|lia|lia]
      |apply (fin_mulw _ _ 0 1005); try assumption; lia|lia|lia]. }
  assert (LC : fin (nadd (nmul (nlit 1 2) (nsub (nmul (nlit 3 1) c) b)) (nmul (nlit 4 3) dMMm)) 1010).
  { apply (fin_addw _ _ 1009); [|apply (fin_mulw _ _ 1 1005); try assumption; lia|lia|lia].
    apply (fin_mulw _ _ 0 1003); [exact Lh| |lia|lia].
    apply (fin_subw _ _ 1002); [apply (fin_mulw _ _ 2 1000); try assumption; lia|apply (fin_w _ _ _ B); lia|lia|lia]. }
  pose proof (fin_w _ _ 1010 C ltac:(lia)) as C'. pose proof (fin_w _ _ 1010 D ltac:(lia)) as D'.
  split; [apply fin_fmax; apply fin_fmin; try assumption; apply fin_fmin; assumption
         |apply fin_fmin; apply fin_fmax; try assumption; apply fin_fmax; assumption].
Qed.

Lemma subcalc_fin (a b c d e : B64) : fin a 1000 -> fin b 1000 -> fin c 1000 -> fin d 1000 -> fin e 1000 ->
  fin (g_mp5_subcalc a b c d e) 1012.
Proof.
  intros A B C D E. unfold g_mp5_subcalc.
  pose proof (unlimited_fin a b c d e A B C D E) as F. set (f := g_mp5_unlimited a b c d e) in *. clearbody f. cbv zeta.
  destruct (interval_fin a b c d e A B C D E) as [I1 I2].
  destruct (g_mp5_interval a b c d e) as [lo hi]. cbn [fst snd] in I1, I2.
  destruct (nle _ _); [apply (fin_w _ _ _ F); lia|].
  cbn [fst snd]. unfold g_Median.
  apply (fin_addw _ _ 1011); [apply (fin_w _ _ _ F); lia| |lia|lia].
  apply fin_minmod; [apply (fin_subw _ _ 1010); try assumption; lia|apply (fin_subw _ _ 1010); try assumption; lia|lia|lia].
Qed.
