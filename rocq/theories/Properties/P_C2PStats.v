(** C62: the statistics of the conserved-to-primitive inversion. *)
From Coq Require Import ZArith List Bool Lia Permutation.
From Verif.Model Require Import Num RootFind C2PStats.
From Verif.Spec Require Import RootSpec StatsSpec.
From Verif.Proofs Require Import RootFindProofs.
From Verif.Properties Require Import P_RootFind.
Import ListNotations.
Local Open Scope Z_scope.

Lemma occ_cons v x l : occurrences v (x :: l) = occurrences v l + if Z.eqb x v then 1 else 0.
Proof. unfold occurrences. cbn [count_occ]. destruct (Z.eq_dec x v), (Z.eqb_spec x v); lia. Qed.
Lemma occ_snoc v x l : occurrences v (l ++ [x]) = occurrences v l + if Z.eqb x v then 1 else 0.
Proof. unfold occurrences. rewrite count_occ_app. cbn [count_occ]. destruct (Z.eq_dec x v), (Z.eqb_spec x v); lia. Qed.
Lemma occ_nonneg v l : 0 <= occurrences v l. Proof. unfold occurrences. lia. Qed.
Lemma occ_in v l : 0 < occurrences v l <-> In v l.
Proof. unfold occurrences. rewrite (count_occ_In Z.eq_dec). lia. Qed.

Definition largest (l : list Z) : Z := fold_right Z.max (-1) l.
Lemma largest_snoc l x : largest (l ++ [x]) = Z.max (largest l) (Z.max x (-1)).
Proof. induction l as [|y l IH]; cbn [app largest fold_right]; [lia|]. fold (largest (l ++ [x])). fold (largest l). rewrite IH. lia. Qed.

Definition represents (s : Stats) (seen : list Z) : Prop :=
  (forall v, hist s v = if 0 <? occurrences v seen then Some (occurrences v seen) else None) /\
  max_val s = largest seen.
Lemma largest_ge l : -1 <= largest l. Proof. induction l as [|x l IH]; cbn; [lia|]. fold (largest l). lia. Qed.
Lemma largest_in l v : In v l -> v <= largest l.
Proof. induction l as [|x l IH]; cbn [In]; [tauto|]. unfold largest in *. cbn [fold_right]. intros [->|H]; [lia|]. pose proof (IH H). lia. Qed.

Lemma add_represents s seen v : represents s seen -> occurrences v seen < INT_MAX ->
  exists s', add s v = Some s' /\ represents s' (seen ++ [v]).
Proof.
  intros [H M] B. unfold add. rewrite H. pose proof (largest_ge seen) as L.
  assert (Mx : (if v >? max_val s then v else max_val s) = largest (seen ++ [v])).
  { rewrite largest_snoc, M. destruct (Z.gtb_spec v (largest seen)); lia. }
  destruct (Z.ltb_spec 0 (occurrences v seen)) as [P|P].
  - destruct (Z.ltb_spec (occurrences v seen) INT_MAX) as [_|?]; [|lia].
    eexists. split; [reflexivity|]. split; [|exact Mx]. cbn [hist]. intros w. rewrite occ_snoc. unfold put.
    destruct (Z.eqb_spec w v) as [->|N].
    + rewrite Z.eqb_refl. destruct (Z.ltb_spec 0 (occurrences v seen + 1)); [reflexivity|lia].
    + destruct (Z.eqb_spec v w); [congruence|]. rewrite Z.add_0_r. apply H.
  - eexists. split; [reflexivity|]. split; [|exact Mx]. cbn [hist]. intros w. rewrite occ_snoc. unfold put.
    pose proof (occ_nonneg v seen). destruct (Z.eqb_spec w v) as [->|N].
    + rewrite Z.eqb_refl. replace (occurrences v seen) with 0 by lia. reflexivity.
    + destruct (Z.eqb_spec v w); [congruence|]. rewrite Z.add_0_r. apply H.
Qed.
Lemma add_all_represents vals : forall s seen, represents s seen ->
  (forall v, occurrences v (seen ++ vals) <= INT_MAX) ->
  exists s', add_all s vals = Some s' /\ represents s' (seen ++ vals).
Proof.
  induction vals as [|v q IH]; intros s seen R B; cbn [add_all]; [rewrite app_nil_r; eauto|].
  destruct (add_represents s seen v R) as (s1 & E & R1).
  - pose proof (B v) as Bv. unfold occurrences in Bv. rewrite count_occ_app in Bv. cbn [count_occ] in Bv. destruct (Z.eq_dec v v); [|congruence].
    unfold occurrences. lia.
  - rewrite E. replace (seen ++ v :: q) with ((seen ++ [v]) ++ q) in * by (rewrite <- app_assoc; reflexivity). apply IH; assumption.
Qed.
Lemma fresh_represents : represents fresh [].
Proof. split; reflexivity. Qed.
Lemma report_lines s seen : represents s seen -> histogram_of seen (report s).
Proof.
  intros [H M]. unfold report. split; [|split].
  - intros i n I. apply in_map_iff in I. destruct I as (k & E & _). cbv zeta in E. injection E as E1 E2. subst i. split; [lia|].
    subst n. rewrite H. pose proof (occ_nonneg (Z.of_nat k) seen). destruct (Z.ltb_spec 0 (occurrences (Z.of_nat k) seen)); lia.
  - intros v Hv P. pose proof (largest_in seen v Hv). eexists. apply in_map_iff. exists (Z.to_nat v). cbv zeta. rewrite Z2Nat.id by exact P.
    split; [reflexivity|]. apply in_seq. rewrite M. lia.
  - rewrite map_map. cbn [fst]. apply FinFun.Injective_map_NoDup; [intros a b; lia|apply seq_NoDup].
Qed.

(** Whatever is added, in whatever order, as long as no value is added more than INT_MAX times:
    nothing overflows, and the report is the histogram of what was added. *)
Theorem C62_report : forall vals, (forall v, occurrences v vals <= INT_MAX) ->
  exists s, add_all fresh vals = Some s /\ histogram_of vals (report s).
Proof.
  intros vals B. destruct (add_all_represents vals fresh [] fresh_represents B) as (s & E & R).
  exists s. split; [exact E|]. apply report_lines, R.
Qed.
Print Assumptions C62_report.

(** the order of the calls does not matter *)
Theorem C62_order : forall vals vals' s s', Permutation vals vals' -> (forall v, occurrences v vals <= INT_MAX) ->
  add_all fresh vals = Some s -> add_all fresh vals' = Some s' -> report s = report s'.
Proof.
  intros vals vals' s s' P B E E'.
  assert (O : forall v, occurrences v vals = occurrences v vals').
  { intros v. unfold occurrences. f_equal. apply (Permutation_count_occ Z.eq_dec), P. }
  destruct (add_all_represents vals fresh [] fresh_represents B) as (t & F & R).
  destruct (add_all_represents vals' fresh [] fresh_represents ltac:(intros v; cbn [app]; rewrite <- O; apply B)) as (t' & F' & R').
  rewrite E in F. injection F as <-. rewrite E' in F'. injection F' as <-. cbn [app] in R, R'.
  destruct R as [H M], R' as [H' M'].
  assert (L : largest vals = largest vals').
  { clear - P. induction P; cbn [largest fold_right] in *; unfold largest in *; cbn [fold_right] in *; lia. }
  unfold report. rewrite M, M', L. apply map_ext. intros k. cbv zeta. rewrite H, H', O. reflexivity.
Qed.
Print Assumptions C62_order.

Lemma total_seq f n m : total_count (map (fun k => (Z.of_nat k, f (Z.of_nat k))) (seq m n)) = fold_right (fun k s => f (Z.of_nat k) + s) 0 (seq m n).
Proof. revert m. induction n as [|n IH]; intros m; [reflexivity|]. cbn [seq map total_count fold_right snd]. unfold total_count in IH. rewrite IH. reflexivity. Qed.
(** every solve is in the report: for non-negative values the counts add up to the number of calls *)
Theorem C62_total : forall vals s, Forall (fun v => 0 <= v) vals -> (forall v, occurrences v vals <= INT_MAX) ->
  add_all fresh vals = Some s -> total_count (report s) = Z.of_nat (length vals).
Proof.
  intros vals s P B E. destruct (add_all_represents vals fresh [] fresh_represents B) as (t & F & R).
  rewrite E in F. injection F as <-. cbn [app] in R. destruct R as [H M].
  unfold report. rewrite M.
  transitivity (total_count (map (fun k => (Z.of_nat k, occurrences (Z.of_nat k) vals)) (seq 0 (Z.to_nat (largest vals + 1))))).
  { f_equal. apply map_ext. intros k. cbv zeta. rewrite H. pose proof (occ_nonneg (Z.of_nat k) vals).
    destruct (Z.ltb_spec 0 (occurrences (Z.of_nat k) vals)); f_equal; lia. }
  rewrite (total_seq (fun i => occurrences i vals)).
  assert (G : forall n, largest vals < Z.of_nat n -> fold_right (fun k s => occurrences (Z.of_nat k) vals + s) 0 (seq 0 n) = Z.of_nat (length vals)).
  { clear - P. induction P as [|x l Hx P IH]; intros n Hn.
    - assert (forall m, fold_right (fun (k : nat) s => occurrences (Z.of_nat k) [] + s) 0 (seq m n) = 0); [|cbn [length]; auto].
      clear. induction n as [|n IH]; intros m; [reflexivity|]. cbn [seq fold_right]. rewrite IH. reflexivity.
    - unfold largest in Hn. cbn [fold_right] in Hn. fold (largest l) in Hn.
      assert (S : forall m, fold_right (fun k s => occurrences (Z.of_nat k) (x :: l) + s) 0 (seq m n)
        = fold_right (fun k s => occurrences (Z.of_nat k) l + s) 0 (seq m n) + if (Z.of_nat m <=? x) && (x <? Z.of_nat (m + n)) then 1 else 0).
      { clear. induction n as [|n IHn]; intros m; cbn [seq fold_right].
        - destruct (Z.leb_spec (Z.of_nat m) x), (Z.ltb_spec x (Z.of_nat (m + 0))); cbn [andb]; lia.
        - rewrite IHn, occ_cons. destruct (Z.eqb_spec x (Z.of_nat m)), (Z.leb_spec (Z.of_nat (S m)) x), (Z.ltb_spec x (Z.of_nat (S m + n))),
            (Z.leb_spec (Z.of_nat m) x), (Z.ltb_spec x (Z.of_nat (m + S n))); cbn [andb]; lia. }
      rewrite S, IH by lia. cbn [length]. destruct (Z.leb_spec (Z.of_nat 0) x), (Z.ltb_spec x (Z.of_nat (0 + n))); cbn [andb]; lia. }
  apply G. pose proof (largest_ge vals). lia.
Qed.
Print Assumptions C62_total.

(** what an inversion adds lies between 0 and the iteration limit, in any arithmetic and for any
    residual, so the report has at most max_iter + 1 lines *)
Theorem C62_lines : forall (T : Type) (N : Num T) (calls : list ((T -> T) * (T * T * T * T))) maxi s,
  0 <= maxi ->
  let vals := flat_map (fun c => inversion_adds (regula_falsi (fst c) (new_RootFind maxi)
    (fst (fst (fst (snd c)))) (snd (fst (fst (snd c)))) (snd (fst (snd c))) (snd (snd c)) false)) calls in
  (forall v, occurrences v vals <= INT_MAX) -> add_all fresh vals = Some s ->
  Forall (fun v => 0 <= v <= maxi) vals /\ (Z.of_nat (length (report s)) <= maxi + 1).
Proof.
  intros T N calls maxi s Hm vals B E.
  assert (F : Forall (fun v => 0 <= v <= maxi) vals).
  { apply Forall_forall. intros v I. apply in_flat_map in I. destruct I as ([f [[[a b] tol] guess]] & _ & I). cbn [fst snd] in I.
    pose proof (C03_regula_budget T N f (new_RootFind maxi) a b tol guess ltac:(cbn; lia)) as W.
    unfold regula_falsi in *. destruct (refine_bracket f guess a b) as [[[[a1 b1] ya] yb] tr1].
    destruct (negb _); [contradiction I|]. cbv zeta in *. destruct (regula_loop _ _ _ _ _ _ _ _ _ _ _ _) as [[[a' b'] c] tr].
    cbn [inversion_adds In iteration_count within_budget max_iter new_RootFind] in *. destruct I as [<-|[]]. lia. }
  split; [exact F|]. destruct (add_all_represents vals fresh [] fresh_represents B) as (t & K & R).
  rewrite E in K. injection K as <-. cbn [app] in R. destruct R as [_ M]. unfold report. rewrite map_length, seq_length, M.
  assert (L : largest vals <= maxi).
  { clear - F Hm. induction F as [|x l Hx F IH]; [cbn; lia|]. unfold largest in *. cbn [fold_right]. lia. }
  pose proof (largest_ge vals). lia.
Qed.
Print Assumptions C62_lines.

(** *** violations *)
(** counts are 32 bit: one more than INT_MAX solves with the same number of iterations is undefined *)
Theorem C62_overflow_refuted : forall v s, add_all fresh (repeat v (Z.to_nat INT_MAX)) = Some s -> add s v = None.
Proof.
  intros v s E.
  assert (O : forall w, occurrences w (repeat v (Z.to_nat INT_MAX)) = if Z.eqb w v then INT_MAX else 0).
  { intros w. assert (G : forall n, occurrences w (repeat v n) = if Z.eqb w v then Z.of_nat n else 0).
    { induction n as [|n IH]; [cbn; destruct (Z.eqb w v); reflexivity|]. cbn [repeat]. rewrite occ_cons, IH.
      destruct (Z.eqb_spec w v), (Z.eqb_spec v w); subst; try congruence; lia. }
    rewrite G, Z2Nat.id by (unfold INT_MAX; lia). reflexivity. }
  destruct (add_all_represents (repeat v (Z.to_nat INT_MAX)) fresh [] fresh_represents) as (t & F & R).
  { intros w. cbn [app]. rewrite O. destruct (Z.eqb w v); unfold INT_MAX; lia. }
  rewrite E in F. injection F as <-. cbn [app] in R. destruct R as [H _].
  unfold add. rewrite H, O, Z.eqb_refl. reflexivity.
Qed.
Print Assumptions C62_overflow_refuted.

(** two threads: one after the other counts both; when both look before either writes, one
    solve is lost - whatever the histogram held *)
Theorem C62_threads_refuted : forall h v n, h v = Some n ->
  fst (fst (run [true; true; false; false] h (new_thread v) (new_thread v))) v = Some (n + 2) /\
  fst (fst (run [true; false; true; false] h (new_thread v) (new_thread v))) v = Some (n + 1).
Proof.
  intros h v n E. split.
  - cbn [run th_step new_thread th_done th_read th_val fst snd]. rewrite E. unfold put. rewrite !Z.eqb_refl. f_equal. lia.
  - cbn [run th_step new_thread th_done th_read th_val fst snd]. rewrite !E. unfold put. rewrite !Z.eqb_refl. reflexivity.
Qed.
Print Assumptions C62_threads_refuted.

(** several ranks write the same file: it holds the last writer's solves only *)
Theorem C62_ranks_refuted : forall file ranks vals s, Forall (fun v => 0 <= v) vals ->
  (forall v, occurrences v vals <= INT_MAX) -> add_all fresh vals = Some s ->
  report_all file (ranks ++ [s]) = report s /\
  total_count (report_all file (ranks ++ [s])) = Z.of_nat (length vals).
Proof.
  intros file ranks vals s P B E. assert (Q : report_all file (ranks ++ [s]) = report s).
  { unfold report_all. rewrite fold_left_app. reflexivity. }
  split; [exact Q|]. rewrite Q. apply C62_total; assumption.
Qed.
Print Assumptions C62_ranks_refuted.
Example C62_ranks_nonvacuous : exists a b, add_all fresh [3; 3; 5] = Some a /\ add_all fresh [1] = Some b /\
  report_all [] [a; b] = [(0, 0); (1, 1)] /\ report a = [(0, 0); (1, 0); (2, 0); (3, 2); (4, 0); (5, 1)].
Proof. do 2 eexists. split; [reflexivity|]. split; [reflexivity|]. split; reflexivity. Qed.
