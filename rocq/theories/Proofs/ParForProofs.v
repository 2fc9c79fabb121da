(** A loop whose iterations own disjoint locations is independent of its order. *)
From Coq Require Import ZArith List Bool Lia FinFun.
From Verif.Model Require Import ParFor.
Import ListNotations.
Section Owner.
Context {L V : Type} (body : Cell -> (L -> V) -> (L -> V)).
(** the iteration that may touch a location *)
Variables (own : L -> option Cell) (o : list Cell).
Hypothesis W : forall c m l, In c o -> own l <> Some c -> body c m l = m l.
Hypothesis Rd : forall c m m' l, In c o -> (forall l', own l' = Some c -> m l' = m' l') -> own l = Some c -> body c m l = body c m' l.
Lemma par_for_other_aux o' m l : incl o' o -> (forall c, own l = Some c -> ~ In c o') -> par_for o' body m l = m l.
Proof.
  unfold par_for. revert m. induction o' as [|c o' IH]; intros m S K; cbn; [reflexivity|].
  rewrite IH; [|intros d Hd; apply S; right; exact Hd|intros d Hd Hi; apply (K d Hd); right; exact Hi].
  apply W; [apply S; left; reflexivity|]. intros E. apply (K c E). left. reflexivity.
Qed.
Lemma par_for_own_aux o' m l c : incl o' o -> NoDup o' -> own l = Some c -> In c o' -> par_for o' body m l = body c m l.
Proof.
  intros S N E. unfold par_for. revert m. induction o' as [|d o' IH]; intros m I; [destruct I|].
  inversion N as [|? ? N1 N2]; subst. cbn. assert (S' : incl o' o) by (intros x Hx; apply S; right; exact Hx).
  assert (Sd : In d o) by (apply S; left; reflexivity). destruct (Cell_dec d c) as [->|D].
  - fold (par_for o' body (body c m)). apply par_for_other_aux; [exact S'|]. intros d Hd. rewrite E in Hd. inversion Hd; subst. exact N1.
  - destruct I as [I|I]; [congruence|]. rewrite (IH S' N2 _ I). apply Rd; [apply S'; exact I| |exact E].
    intros l' E'. apply W; [exact Sd|]. congruence.
Qed.
Lemma par_for_other m l : (forall c, own l = Some c -> ~ In c o) -> par_for o body m l = m l.
Proof. apply par_for_other_aux, incl_refl. Qed.
Lemma par_for_own m l c : NoDup o -> own l = Some c -> In c o -> par_for o body m l = body c m l.
Proof. apply par_for_own_aux, incl_refl. Qed.
End Owner.
(** the order of any box *)
Definition zrange (a b : Z) : list Z := map (fun n => (a + Z.of_nat n)%Z) (seq 0 (Z.to_nat (b - a + 1))).
Lemma in_zrange a b x : In x (zrange a b) <-> (a <= x <= b)%Z.
Proof.
  unfold zrange. rewrite in_map_iff. split.
  - intros (n & <- & Hn). apply in_seq in Hn. lia.
  - intros Hx. exists (Z.to_nat (x - a)). split; [lia|]. apply in_seq. lia.
Qed.
Lemma nodup_zrange a b : NoDup (zrange a b).
Proof.
  unfold zrange. apply Injective_map_NoDup; [|apply seq_NoDup]. intros x y E. lia.
Qed.
Definition box_list (B : Box) : list Cell :=
  list_prod (list_prod (zrange (ks B) (ke B)) (zrange (js B) (je B))) (zrange (is_ B) (ie B)).
Lemma nodup_app {A} (l l' : list A) : NoDup l -> NoDup l' -> (forall x, In x l -> In x l' -> False) -> NoDup (l ++ l').
Proof.
  induction 1 as [|a l Ha N IH]; intros N' D; cbn; [exact N'|]. constructor.
  - intros I. apply in_app_or in I. destruct I as [I|I]; [exact (Ha I)|]. apply (D a); [left; reflexivity|exact I].
  - apply IH; [exact N'|]. intros x I1 I2. apply (D x); [right; exact I1|exact I2].
Qed.
Lemma nodup_prod {A C} (l : list A) (l' : list C) : NoDup l -> NoDup l' -> NoDup (list_prod l l').
Proof.
  induction 1 as [|a l Ha N IH]; intros N'; cbn; [constructor|].
  apply nodup_app; [apply Injective_map_NoDup; [intros x y E; congruence|exact N']|apply IH, N'|].
  intros [x y] I1 I2. apply in_map_iff in I1. destruct I1 as (z & E & _). inversion E; subst.
  apply in_prod_iff in I2. tauto.
Qed.
Lemma order_box_list B : order_of B (box_list B).
Proof.
  split.
  - apply nodup_prod; [apply nodup_prod|]; apply nodup_zrange.
  - intros [[k j] i]. unfold box_list. rewrite !in_prod_iff, !in_zrange. unfold in_box. tauto.
Qed.
