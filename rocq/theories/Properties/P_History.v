(** C35: global reductions and the quantities that are reduced. *)
From Coq Require Import Reals ZArith List Bool Lia Lra Psatz Permutation.
From Flocq Require Import Core BinarySingleNaN.
From Verif.Model Require Import Num Robust Geometry ParFor FluxFix Relativity History.
From Verif.Spec Require Import Tensor GeomSpec Relativity GRMHD FluxSpec HistorySpec.
From Verif.Proofs Require Import NumR TensorTac GeomBase RelProofs RelativityProofs Prim2ConProofs ParForProofs SumProofs FlatWitness.
Import ListNotations.
Local Open Scope R_scope.

(** ** Sums *)
Definition lsum (f : Zone -> R) (l : list Zone) : R := fold_right (fun z s => f z + s) 0 l.
Lemma lsum_nil f : lsum f [] = 0. Proof. reflexivity. Qed.
Lemma lsum_cons f z l : lsum f (z :: l) = f z + lsum f l. Proof. reflexivity. Qed.
Lemma lsum_app f l l' : lsum f (l ++ l') = lsum f l + lsum f l'.
Proof. induction l as [|z l IH]; cbn [app]; [rewrite lsum_nil; ring|]. rewrite !lsum_cons, IH. ring. Qed.
Lemma lsum_perm f l l' : Permutation l l' -> lsum f l = lsum f l'.
Proof. induction 1; rewrite ?lsum_cons; [reflexivity| rewrite IHPermutation; reflexivity | ring | congruence]. Qed.
Lemma fold_lsum f l a : fold_left (fun acc z => acc + f z) l a = a + lsum f l.
Proof. revert a. induction l as [|z l IH]; intros a; cbn [fold_left]; [rewrite lsum_nil; ring|]. rewrite IH, lsum_cons. ring. Qed.
Lemma reduce_lsum f p : reduce_sum f p = lsum f (visited p).
Proof.
  unfold reduce_sum. induction p as [l|a IHa b IHb]; cbn [par_reduce visited].
  - num_R. rewrite fold_lsum. unfold Rdiv. ring.
  - rewrite lsum_app. rewrite IHa, IHb. reflexivity.
Qed.
Lemma sum_from_list a n f : sum_from a n f = fold_right Rplus 0 (map f (map (fun m => (a + Z.of_nat m)%Z) (seq 0 n))).
Proof.
  revert a. induction n as [|n IH]; intros a; [reflexivity|]. cbn [sum_from seq map fold_right]. rewrite Z.add_0_r. f_equal.
  rewrite IH, <- seq_shift, !map_map. f_equal. apply map_ext. intros x. f_equal. lia.
Qed.
Lemma sum_range_list a b f : sum_range a b f = fold_right Rplus 0 (map f (zrange a b)).
Proof. apply sum_from_list. Qed.
Lemma sum_map_prod {A C} (f : A * C -> R) l l' : fold_right Rplus 0 (map f (list_prod l l')) = fold_right Rplus 0 (map (fun x => fold_right Rplus 0 (map (fun y => f (x, y)) l')) l).
Proof.
  induction l as [|x l IH]; [reflexivity|]. cbn [list_prod map fold_right]. rewrite map_app, map_map.
  assert (Q : forall l1 l2, fold_right Rplus 0 (l1 ++ l2) = fold_right Rplus 0 l1 + fold_right Rplus 0 l2).
  { induction l1 as [|h l1 I1]; intros l2; cbn [app fold_right]; [ring|]. rewrite I1. ring. }
  rewrite Q, IH. reflexivity.
Qed.
Lemma total_list B f : total B f = fold_right Rplus 0 (map f (box_list B)).
Proof.
  unfold total, box_list. rewrite sum_map_prod, sum_map_prod, sum_range_list. f_equal. apply map_ext. intros k.
  rewrite sum_range_list. f_equal. apply map_ext. intros j. apply sum_range_list.
Qed.
Definition mesh_zones (nb : nat) (B : Box) : list Zone := list_prod (seq 0 nb) (box_list B).
Lemma lsum_map f l : lsum f l = fold_right Rplus 0 (map f l).
Proof. induction l as [|z l IH]; [reflexivity|]. rewrite lsum_cons. cbn [map fold_right]. rewrite IH. reflexivity. Qed.
Lemma mesh_total_list nb B f : mesh_total nb B f = lsum f (mesh_zones nb B).
Proof.
  unfold mesh_total, mesh_zones. rewrite lsum_map, sum_map_prod.
  assert (Q : forall n g, sum_blocks n g = fold_right Rplus 0 (map g (seq 0 n))).
  { induction n as [|n IH]; intros g; [reflexivity|]. cbn [sum_blocks]. rewrite seq_S, map_app, fold_right_app, IH. cbn [map fold_right Nat.add].
    generalize (map g (seq 0 n)). intros l. induction l as [|h l I1]; cbn [fold_right]; [ring|]. rewrite <- I1. ring. }
  rewrite Q. f_equal. apply map_ext. intros b. apply total_list.
Qed.
Lemma covers_perm nb B p : covers nb B p -> Permutation (visited p) (mesh_zones nb B).
Proof.
  intros [ND IN]. apply NoDup_Permutation; [exact ND|apply nodup_prod; [apply seq_NoDup|apply order_box_list]|].
  intros [b c]. rewrite IN. unfold mesh_zones. rewrite in_prod_iff, in_seq. destruct (order_box_list B) as [_ O]. rewrite O. intuition lia.
Qed.

(** However zones are spread over threads, partitions and ranks, the sum reduction is the sum
    over the interior zones of all blocks of the densitised variable times the coordinate
    volume (in exact arithmetic). *)
Theorem C35_sum : forall nb B var vol p, covers nb B p ->
  ReduceOneVar_sum var vol p = mesh_total nb B (fun z => var z * vol z).
Proof. intros nb B var vol p C. unfold ReduceOneVar_sum. rewrite reduce_lsum, mesh_total_list. apply lsum_perm, covers_perm, C. Qed.
Print Assumptions C35_sum.
(** two ranks, three blocks of 1x2x2 zones *)
Example C35_covers_case : covers 3 {| ks := 0; ke := 0; js := 0; je := 1; is_ := 0; ie := 1 |}%Z
  (Join (Run (list_prod [2%nat] (box_list {| ks := 0; ke := 0; js := 0; je := 1; is_ := 0; ie := 1 |}%Z)))
        (Join (Run (rev (list_prod [0%nat] (box_list {| ks := 0; ke := 0; js := 0; je := 1; is_ := 0; ie := 1 |}%Z)))) (Run (list_prod [1%nat] (box_list {| ks := 0; ke := 0; js := 0; je := 1; is_ := 0; ie := 1 |}%Z))))).
Proof.
  set (B := {| ks := 0; ke := 0; js := 0; je := 1; is_ := 0; ie := 1 |}%Z). destruct (order_box_list B) as [ND O].
  unfold covers. cbn [visited]. split.
  - apply nodup_app; [|apply nodup_app|].
    + apply nodup_prod; [repeat constructor; intros []|exact ND].
    + apply NoDup_rev, nodup_prod; [repeat constructor; intros []|exact ND].
    + apply nodup_prod; [repeat constructor; intros []|exact ND].
    + intros [b c]. rewrite <- in_rev, !in_prod_iff. cbn [In]. intuition congruence.
    + intros [b c]. rewrite in_app_iff, <- in_rev, !in_prod_iff. cbn [In]. intuition congruence.
  - intros b c. rewrite !in_app_iff, <- in_rev, !in_prod_iff, O. cbn [In].
    split; [intuition lia|]. intros [Hb Hc]. assert (b = 0 \/ b = 1 \/ b = 2)%nat as [->|[->| ->]] by lia; tauto.
Qed.

(** In binary64 the same zones in another order give another sum (addition rounds). *)
Definition b_of (n : Z) : B64 := b64_of_Z n.
Theorem C35_rounding_refuted : exists (var : Zone -> B64) (p p' : plan), Permutation (visited p) (visited p') /\ NoDup (visited p) /\
  let s := ReduceOneVar_sum var (fun _ => b_of 1) p in let s' := ReduceOneVar_sum var (fun _ => b_of 1) p' in
  is_finite s = true /\ is_finite s' = true /\ neqb s s' = false.
Proof.
  exists (fun z => match fst z with 0%nat => b_of (2 ^ 53) | 1%nat => b_of 1 | _ => b_of (- 2 ^ 53) end),
    (Run [(0%nat, (0, 0, 0)%Z); (1%nat, (0, 0, 0)%Z); (2%nat, (0, 0, 0)%Z)]),
    (Run [(0%nat, (0, 0, 0)%Z); (2%nat, (0, 0, 0)%Z); (1%nat, (0, 0, 0)%Z)]).
  split; [apply perm_skip, perm_swap|]. split; [repeat constructor; cbn; intuition congruence|].
  split; [|split]; vm_compute; reflexivity.
Qed.
Print Assumptions C35_rounding_refuted.

(** ** Maxima *)
Theorem C35_max : forall lowest var p, (exists z, In z (visited p) /\ lowest <= var z) ->
  let r := ReduceOneVar_max lowest var p in
  (forall z, In z (visited p) -> var z <= r) /\ exists z, In z (visited p) /\ var z = r.
Proof.
  intros lowest var p. unfold ReduceOneVar_max, reduce_max.
  assert (J : forall a b : R, (if nlt a b then b else a) = Rmax a b).
  { intros a b. num_R. destruct (Rlt_bool_spec a b) as [L|L]; [rewrite Rmax_right; lra | rewrite Rmax_left; lra]. }
  assert (One : forall z, nmul (var z) (nlit 1 1) = var z) by (intros z; num_R; field).
  assert (Run_ : forall l a, let r := fold_left (fun acc z => if nlt acc (nmul (var z) (nlit 1 1)) then nmul (var z) (nlit 1 1) else acc) l a in
     a <= r /\ (forall z, In z l -> var z <= r) /\ (r = a \/ exists z, In z l /\ var z = r)).
  { induction l as [|z l IH]; intros a; cbn [fold_left]; [repeat split; [lra|intros z []|left; reflexivity]|].
    rewrite J, One. destruct (IH (Rmax a (var z))) as (A & B & C). split; [|split].
    - eapply Rle_trans; [|exact A]. apply Rmax_l.
    - intros z' [->|I]; [eapply Rle_trans; [|exact A]; apply Rmax_r | apply B, I].
    - destruct C as [->|(z' & I & E)]; [|right; exists z'; split; [right; exact I|exact E]].
      destruct (Rle_dec a (var z)) as [L|L]; [right; exists z; rewrite Rmax_right by lra; split; [left|]; reflexivity | left; apply Rmax_left; lra]. }
  assert (All : let r := par_reduce lowest (fun a b => if nlt a b then b else a) (fun z => nmul (var z) (nlit 1 1)) p in
     lowest <= r /\ (forall z, In z (visited p) -> var z <= r) /\ (r = lowest \/ exists z, In z (visited p) /\ var z = r)).
  { induction p as [l|a IHa b IHb]; cbn [par_reduce visited]; [apply Run_|]. rewrite J.
    destruct IHa as (A1 & A2 & A3), IHb as (B1 & B2 & B3).
    set (x := par_reduce lowest _ _ a) in *. set (y := par_reduce lowest _ _ b) in *.
    pose proof (Rmax_l x y) as ML. pose proof (Rmax_r x y) as MR. split; [lra|]. split.
    - intros z I. apply in_app_or in I. destruct I as [I|I]; [specialize (A2 z I)|specialize (B2 z I)]; lra.
    - destruct (Rle_dec x y) as [L|L].
      + rewrite Rmax_right by exact L. destruct B3 as [B3|(z & I & E)]; [left; exact B3|right; exists z; split; [apply in_or_app; right; exact I|exact E]].
      + rewrite Rmax_left by lra. destruct A3 as [A3|(z & I & E)]; [left; exact A3|right; exists z; split; [apply in_or_app; left; exact I|exact E]]. }
  intros (z0 & I0 & L0). destruct All as (A & B & C). split; [exact B|]. destruct C as [C|C]; [|exact C].
  exists z0. split; [exact I0|]. specialize (B z0 I0). cbv zeta in B. rewrite C in *. lra.
Qed.
Print Assumptions C35_max.

(** ** The gain region *)
(** zones heated more than cooled and outside the proto-neutron star *)
Definition in_gain (heat cool entropy : Zone -> R) (nh op : R) (z : Zone) : Prop := heat z - cool z > nh /\ entropy z > op.
Definition gain_dec heat cool entropy nh op z : {in_gain heat cool entropy nh op z} + {~ in_gain heat cool entropy nh op z}.
Proof. unfold in_gain. destruct (Rgt_dec (heat z - cool z) nh), (Rgt_dec (entropy z) op); [left | right | right | right]; tauto. Defined.
Lemma indicator_gain heat cool entropy nh op z : indicator (Rlt_bool nh (heat z - cool z)) * indicator (Rlt_bool op (entropy z)) = if gain_dec heat cool entropy nh op z then 1 else 0.
Proof.
  destruct (gain_dec heat cool entropy nh op z) as [[A B]|N]; unfold indicator.
  - rewrite !Rlt_bool_true by lra. ring.
  - destruct (Rlt_bool_spec nh (heat z - cool z)); destruct (Rlt_bool_spec op (entropy z)); try ring. exfalso. apply N. split; lra.
Qed.
(** Integrals over the gain region: right for conserved (densitised) variables, and for other
    variables if the volume element of block 0 is that of every block. *)
Theorem C35_gain : forall nb B cons gdet heat cool entropy var vol nh op p, covers nb B p ->
  (cons = true \/ forall b c, (b < nb)%nat -> in_box B c -> gdet (b, c) = gdet (O, c)) ->
  ReduceInGain cons gdet heat cool entropy var vol nh op p =
  mesh_total nb B (fun z => if gain_dec heat cool entropy nh op z then var z * (if cons then 1 else gdet z) * vol z else 0).
Proof.
  intros nb B cons gdet heat cool entropy var vol nh op p C H. unfold ReduceInGain. rewrite reduce_lsum, mesh_total_list, (lsum_perm _ _ _ (covers_perm _ _ _ C)).
  assert (E : forall z, In z (mesh_zones nb B) -> (let gd := gdet (O, snd z) in
    let is_netheat := Rlt_bool nh (heat z - cool z) in let is_outside_pns := Rlt_bool op (entropy z) in
    if cons then vol z * indicator is_netheat * indicator is_outside_pns * var z else gd * vol z * indicator is_netheat * indicator is_outside_pns * var z)
    = if gain_dec heat cool entropy nh op z then var z * (if cons then 1 else gdet z) * vol z else 0).
  { intros z I. cbv zeta. rewrite !(Rmult_assoc _ (indicator _) (indicator _)), indicator_gain. destruct (gain_dec heat cool entropy nh op z); [|destruct cons; ring].
    destruct cons; [ring|]. destruct z as [b c]. unfold mesh_zones in I. apply in_prod_iff in I. destruct I as [Ib Ic]. apply in_seq in Ib. apply (order_box_list B) in Ic.
    destruct H as [H|H]; [discriminate|]. cbn [snd]. rewrite (H b c) by (lia || assumption). ring. }
  clear H C. induction (mesh_zones nb B) as [|z l IH]; [reflexivity|]. rewrite !lsum_cons. rewrite IH by (intros; apply E; right; assumption). f_equal. apply E. left. reflexivity.
Qed.
Print Assumptions C35_gain.
(** Two blocks with different volume elements: the integral of a variable that is not
    densitised uses the volume element of the wrong block. *)
Theorem C35_gain_refuted : exists gdet heat cool entropy var vol nh op, let B := {| ks := 0; ke := 0; js := 0; je := 0; is_ := 0; ie := 0 |}%Z in
  let p := Run [(0%nat, (0, 0, 0)%Z); (1%nat, (0, 0, 0)%Z)] in covers 2 B p /\
  ReduceInGain false gdet heat cool entropy var vol nh op p = 2 /\
  mesh_total 2 B (fun z => if gain_dec heat cool entropy nh op z then var z * gdet z * vol z else 0) = 4.
Proof.
  exists (fun z => match fst z with O => 1 | _ => 3 end), (fun _ => 2), (fun _ => 0), (fun _ => 2), (fun _ => 1), (fun _ => 1), 1, 1.
  intros B p. split; [split|split].
  - repeat constructor; cbn; intuition congruence.
  - intros b [[k j] i]. cbn -[Z.le]. split.
    + intros [E|[E|[]]]; inversion E; subst; lia.
    + intros [Hb Hc]. assert (k = 0 /\ j = 0 /\ i = 0)%Z as (-> & -> & ->) by lia. assert (b = 0 \/ b = 1)%nat as [->| ->] by lia; tauto.
  - unfold ReduceInGain. rewrite reduce_lsum. unfold p. cbn [visited]. rewrite !lsum_cons, lsum_nil. cbv zeta. unfold indicator. rewrite !Rlt_bool_true by lra. cbn [snd fst]. lra.
  - unfold mesh_total. cbn [sum_blocks].
    assert (T : forall f, total B f = f (0, 0, 0)%Z) by (intros f; unfold total, sum_range; cbn [ks ke js je is_ ie B]; change (Z.to_nat (0 - 0 + 1)) with 1%nat; cbn [sum_from]; ring). rewrite !T.
    destruct (gain_dec _ _ _ _ _ (0%nat, (0, 0, 0)%Z)) as [_|N]; [|exfalso; apply N; split; lra].
    destruct (gain_dec _ _ _ _ _ (1%nat, (0, 0, 0)%Z)) as [_|N]; [|exfalso; apply N; split; lra]. cbn [fst]. lra.
Qed.
Print Assumptions C35_gain_refuted.

(** ** Fluxes through the horizon *)
Lemma sum_range_single a b n f : (a <= n <= b)%Z -> (forall x, (a <= x <= b)%Z -> x <> n -> f x = 0) -> sum_range a b f = f n.
Proof.
  intros Hn Z. unfold sum_range. set (m := Z.to_nat (b - a + 1)). assert (Hm : (a + Z.of_nat m = b + 1)%Z) by lia. clearbody m.
  revert a Hn Z Hm. induction m as [|m IH]; intros a Hn Z Hm; [lia|]. cbn [sum_from]. destruct (Z.eq_dec a n) as [->|Ne].
  - rewrite (sum_from_ext _ _ _ (fun _ => 0)) by (intros x Hx; apply Z; lia). rewrite sum_from_zero. ring.
  - rewrite (Z a) by lia. rewrite IH; [ring|lia| |lia]. intros x Hx. apply Z. lia.
Qed.
(** the block's interior covers x1 = xh *)
Definition holds (a : XAxis) (B : Box) (xh : R) : Prop := Xf a (is_ B) <= xh < Xf a (ie B + 1).
Definition holds_dec a B xh : {holds a B xh} + {~ holds a B xh}.
Proof. unfold holds. destruct (Rle_dec (Xf a (is_ B)) xh), (Rlt_dec xh (Xf a (ie B + 1))); [left | right | right | right]; tauto. Defined.
Lemma Xf_lt a i j : 0 < x_width a -> (i < j)%Z -> Xf a i < Xf a j.
Proof. intros W H. apply IZR_lt in H. unfold Xf. nra. Qed.
Lemma Xf_le a i j : 0 < x_width a -> (i <= j)%Z -> Xf a i <= Xf a j.
Proof. intros W H. apply IZR_le in H. unfold Xf. nra. Qed.
Lemma zone_exists a xh lo n : 0 < x_width a -> Xf a lo <= xh < Xf a (lo + Z.of_nat n) -> exists i, (lo <= i < lo + Z.of_nat n)%Z /\ Xf a i <= xh < Xf a (i + 1).
Proof.
  intros W. induction n as [|n IH]; intros H.
  - replace (lo + Z.of_nat 0)%Z with lo in H by lia. lra.
  - destruct (Rlt_dec xh (Xf a (lo + Z.of_nat n))) as [L|L].
    + destruct IH as (i & Hi & E); [lra|]. exists i. split; [lia|exact E].
    + exists (lo + Z.of_nat n)%Z. split; [lia|]. replace (lo + Z.of_nat n + 1)%Z with (lo + Z.of_nat (S n))%Z by lia. lra.
Qed.

(** In every block that covers the horizon each column (k, j) is counted exactly once, blocks
    that do not cover it contribute nothing, and the contribution of a column is the flux at
    the horizon times the area, exactly if the flux is linear in x1 near it. *)
Section Horizon.
Variables (nb : nat) (B : Box) (ax : nat -> XAxis) (xh : R) (off : Z) (A Sl : nat -> Z -> Z -> R) (a2 a3 : nat -> R) (flux : Zone -> R).
Hypothesis W : forall b, (b < nb)%nat -> 0 < x_width (ax b).
Hypothesis Hoff : (0 <= off <= 1)%Z.
Hypothesis Hne : (is_ B <= ie B)%Z.
Hypothesis Lin : forall b k j i, (b < nb)%nat -> (is_ B - 1 <= i <= ie B + 1 + off)%Z -> flux (b, (k, j, i)) = A b k j + Sl b k j * Xc (ax b) i.
Let dx2 (z : Zone) := a2 (fst z).
Let dx3 (z : Zone) := a3 (fst z).
Lemma horizon_block b : (b < nb)%nat ->
  total B (fun c => horizon_term ax xh off (fun _ => true) dx2 dx3 flux (b, c)) =
  if holds_dec (ax b) B xh then sum_range (ks B) (ke B) (fun k => sum_range (js B) (je B) (fun j => (A b k j + Sl b k j * xh) * a2 b * a3 b)) else 0.
Proof.
  intros Hb. pose proof (W b Hb) as Wb. destruct (holds_dec (ax b) B xh) as [[H1 H2]|N].
  - destruct (zone_exists (ax b) xh (is_ B) (Z.to_nat (ie B + 1 - is_ B)) Wb) as (i & Hi & E1 & E2).
    { replace (is_ B + Z.of_nat (Z.to_nat (ie B + 1 - is_ B)))%Z with (ie B + 1)%Z by lia. split; assumption. }
    unfold total. apply sum_range_ext. intros k _. apply sum_range_ext. intros j _.
    rewrite (sum_range_single (is_ B) (ie B) i) by (first [lia | intros x Hx Ne; unfold horizon_term;
      destruct (Z.lt_total x i) as [L|[L|L]]; [|congruence|];
      [ pose proof (Xf_le (ax b) (x + 1) i Wb ltac:(lia)); rewrite (Rlt_bool_false xh (Xf (ax b) (x + 1))) by lra; rewrite andb_false_r; reflexivity
      | pose proof (Xf_le (ax b) (i + 1) x Wb ltac:(lia)); rewrite (Rle_bool_false (Xf (ax b) x) xh) by lra; reflexivity ]]).
    unfold horizon_term. rewrite Rle_bool_true by exact E1. rewrite Rlt_bool_true by exact E2. cbn [andb shift_i].
    rewrite !Lin by lia. unfold dx2, dx3. cbn [fst]. rewrite <- !Z.add_assoc in *.
    assert (M : (A b k j + Sl b k j * Xc (ax b) (i + (off + 1)) - (A b k j + Sl b k j * Xc (ax b) (i + (off - 1)))) / (2 * x_width (ax b)) = Sl b k j).
    { unfold Xc. rewrite !plus_IZR, minus_IZR. field. lra. }
    rewrite M. ring.
  - rewrite <- (total_zero B). apply total_ext. intros [[k j] i] (Hk & Hj & Hi). unfold horizon_term.
    destruct (Rle_bool_spec (Xf (ax b) i) xh) as [L1|L1]; [|reflexivity]. destruct (Rlt_bool_spec xh (Xf (ax b) (i + 1))) as [L2|L2]; [|reflexivity].
    exfalso. apply N. pose proof (Xf_le (ax b) (is_ B) i Wb ltac:(lia)). pose proof (Xf_le (ax b) (i + 1) (ie B + 1) Wb ltac:(lia)). split; lra.
Qed.
Definition horizon_integral : R :=
  sum_blocks nb (fun b => if holds_dec (ax b) B xh then sum_range (ks B) (ke B) (fun k => sum_range (js B) (je B) (fun j => (A b k j + Sl b k j * xh) * a2 b * a3 b)) else 0).
Lemma horizon_sum p : covers nb B p -> reduce_sum (horizon_term ax xh off (fun _ => true) dx2 dx3 flux) p = horizon_integral.
Proof.
  intros C. rewrite reduce_lsum, (lsum_perm _ _ _ (covers_perm _ _ _ C)), <- mesh_total_list. unfold mesh_total, horizon_integral.
  pose proof horizon_block as HB. clear Lin W Hoff C p. 
  assert (Q : forall n, (n <= nb)%nat -> sum_blocks n (fun b => total B (fun c => horizon_term ax xh off (fun _ => true) dx2 dx3 flux (b, c))) =
    sum_blocks n (fun b => if holds_dec (ax b) B xh then sum_range (ks B) (ke B) (fun k => sum_range (js B) (je B) (fun j => (A b k j + Sl b k j * xh) * a2 b * a3 b)) else 0)).
  { induction n as [|n IH]; intros Hn; [reflexivity|]. cbn [sum_blocks]. rewrite IH by lia. rewrite HB by lia. reflexivity. }
  apply Q. lia.
Qed.
End Horizon.
Theorem C35_horizon : forall nb B ax xh A Sl a2 a3 flux p, covers nb B p -> (forall b, (b < nb)%nat -> 0 < x_width (ax b)) -> (is_ B <= ie B)%Z ->
  (forall b k j i, (b < nb)%nat -> (is_ B - 1 <= i <= ie B + 2)%Z -> flux (b, (k, j, i)) = A b k j + Sl b k j * Xc (ax b) i) ->
  let exact := horizon_integral nb B ax xh A Sl a2 a3 in
  ReduceMassAccretionRate ax xh (fun z => a2 (fst z)) (fun z => a3 (fst z)) flux p = exact /\
  ReduceMagneticFluxPhi ax xh (fun z => a2 (fst z)) (fun z => a3 (fst z)) flux p = / 2 * exact.
Proof.
  intros nb B ax xh A Sl a2 a3 flux p C W Hne Lin exact. split.
  - unfold ReduceMassAccretionRate. apply horizon_sum; try assumption; [lia|]. intros b k j i Hb Hi. apply Lin; [exact Hb|lia].
  - unfold ReduceMagneticFluxPhi. f_equal. apply horizon_sum; try assumption; [lia|]. intros b k j i Hb Hi. apply Lin; [exact Hb|lia].
Qed.
Print Assumptions C35_horizon.
(** the jet fluxes count exactly the columns whose magnetization exceeds the cutoff in the
    zone that contains the horizon *)
Theorem C35_jet : forall nb B ax xh cut (sigma : Zone -> R) (keep : nat -> Z -> Z -> bool) A Sl a2 a3 flux p, covers nb B p -> (forall b, (b < nb)%nat -> 0 < x_width (ax b)) -> (is_ B <= ie B)%Z ->
  (forall b k j i, (b < nb)%nat -> (is_ B - 1 <= i <= ie B + 1)%Z -> flux (b, (k, j, i)) = A b k j + Sl b k j * Xc (ax b) i) ->
  (forall b k j i, Xf (ax b) i <= xh < Xf (ax b) (i + 1) -> keep b k j = true <-> cut < sigma (b, (k, j, i))) ->
  ReduceJetFlux ax xh cut sigma (fun z => a2 (fst z)) (fun z => a3 (fst z)) flux p =
  horizon_integral nb B ax xh (fun b k j => if keep b k j then A b k j else 0) (fun b k j => if keep b k j then Sl b k j else 0) a2 a3.
Proof.
  intros nb B ax xh cut sigma keep A Sl a2 a3 flux p C W Hne Lin K. unfold ReduceJetFlux.
  set (flux' := fun z : Zone => let '(b, (k, j, i)) := z in if keep b k j then flux (b, (k, j, i)) else 0).
  rewrite <- (horizon_sum nb B ax xh 0 (fun b k j => if keep b k j then A b k j else 0) (fun b k j => if keep b k j then Sl b k j else 0) a2 a3 flux' W ltac:(lia) Hne) with (p := p); [|intros b k j i Hb Hi; unfold flux'; destruct (keep b k j); [apply Lin; [exact Hb|lia]|ring]|exact C].
  rewrite !reduce_lsum. clear C. induction (visited p) as [|z l IH]; [reflexivity|]. rewrite !lsum_cons, IH. f_equal.
  destruct z as [b [[k j] i]]. unfold horizon_term, flux'. cbn [shift_i].
  destruct (Rle_bool_spec (Xf (ax b) i) xh) as [L1|L1]; [|reflexivity]. destruct (Rlt_bool_spec xh (Xf (ax b) (i + 1))) as [L2|L2]; [|reflexivity].
  cbn [andb]. pose proof (K b k j i (conj L1 L2)) as Kb. destruct (Rlt_bool_spec cut (sigma (b, (k, j, i)))) as [L3|L3].
  - rewrite (proj2 Kb L3). reflexivity.
  - destruct (keep b k j); [exfalso; pose proof (proj1 Kb eq_refl); lra|]. pose proof (Rmult_0_l 1). unfold Rdiv. ring.
Qed.
Print Assumptions C35_jet.
(** a magnetization that exceeds the cutoff only in the even columns *)
Example C35_jet_case : exists (sigma : Zone -> R) keep, (forall (ax : nat -> XAxis) xh b k j i, Xf (ax b) i <= xh < Xf (ax b) (i + 1) -> keep b k j = true <-> 1 < sigma (b, (k, j, i))) /\
  keep 0%nat 0%Z 0%Z = true /\ keep 0%nat 0%Z 1%Z = false.
Proof.
  exists (fun '(b, (k, j, i)) => if Z.even j then 2 else / 2), (fun (b : nat) (k j : Z) => Z.even j). split; [|split; reflexivity].
  intros ax xh b k j i _. destruct (Z.even j); split; intros; try reflexivity; try discriminate; lra.
Qed.
(** two blocks along x1, the second covers the horizon at 5/2; the flux is 10 + x1 *)
Example C35_horizon_case : exists nb B ax p, covers nb B p /\ (forall b, (b < nb)%nat -> 0 < x_width (ax b)) /\ (is_ B <= ie B)%Z /\
  ~ holds (ax 0%nat) B (5 / 2) /\ holds (ax 1%nat) B (5 / 2) /\
  horizon_integral nb B ax (5 / 2) (fun _ _ _ => 10) (fun _ _ _ => 1) (fun _ => 1) (fun _ => 1) = 25 / 2.
Proof.
  set (B := {| ks := 0; ke := 0; js := 0; je := 0; is_ := 0; ie := 1 |}%Z).
  exists 2%nat, B, (fun b => {| x_origin := match b with O => 0 | _ => 2 end; x_width := 1 |}), (Run (mesh_zones 2 B)).
  assert (Ho : holds {| x_origin := 2; x_width := 1 |} B (5 / 2)). { unfold holds, Xf. cbn [is_ ie x_origin x_width B]. change (1 + 1)%Z with 2%Z. lra. }
  assert (Hn : ~ holds {| x_origin := 0; x_width := 1 |} B (5 / 2)). { unfold holds, Xf. cbn [is_ ie x_origin x_width B]. change (1 + 1)%Z with 2%Z. lra. }
  split; [|split; [|split; [|split; [|split]]]]; [|intros; cbn [x_width]; lra|cbn; lia|exact Hn|exact Ho|].
  - unfold covers. cbn [visited]. split; [apply nodup_prod; [apply seq_NoDup|apply order_box_list]|]. intros b c. unfold mesh_zones. rewrite in_prod_iff, in_seq. destruct (order_box_list B) as [_ O]. rewrite O. intuition lia.
  - unfold horizon_integral. cbn [sum_blocks]. destruct (holds_dec _ B (5 / 2)) as [K|_]; [contradiction|]. destruct (holds_dec _ B (5 / 2)) as [_|K]; [|contradiction].
    unfold sum_range. cbn [ks ke js je B]. change (Z.to_nat (0 - 0 + 1)) with 1%nat. cbn [sum_from]. lra.
Qed.

(** ** The fluxes themselves *)
Section Fluxes.
Variables (alpha : R) (beta : vec) (g ginv gamma gi : mat) (sg sgg : R) (vp B : vec).
Hypothesis H : adm_consistent alpha beta g ginv gamma gi sg sgg.
Let T := adm_tpo _ _ _ _ _ _ _ _ H.
Let ap : 0 < alpha := tpo_lapse _ _ _ _ T.
Let W := GetLorentzFactor vp gamma.
Let u := GetFourVelocity vp gamma alpha beta.
Let b := comoving_field g W u B.
Let v : vec := fun i => vp i * (1 / W).
Let W1 : 1 <= W := W_pos _ _ _ _ _ _ _ _ H vp.
Lemma hist_bdv : sum3 (fun m => sum3 (fun n => gamma m n * B m * gratio (vp n) W)) = dot3 gamma B v.
Proof. unfold v, dot3, sum3. rewrite !gratio_nz by (pose proof W1; lra). field. pose proof W1. lra. Qed.
Lemma hist_u1 : vp 0%nat - beta 0%nat * W / alpha = u 1%nat.
Proof. assert (K : u 1%nat = vp 0%nat - W / alpha * beta 0%nat) by exact (uconS _ _ _ _ _ _ _ _ H vp 0). rewrite K. pose proof ap. field. lra. Qed.
Lemma hist_b0 : dot3 gamma B v * W / alpha = b 0%nat.
Proof. assert (K : b 0%nat = W * dot3 gamma B v / alpha) by exact (bcon0 _ _ _ _ _ _ _ _ H vp B). rewrite K. pose proof ap. field. lra. Qed.
Lemma hist_b1 : gratio (B 0%nat + alpha * b 0%nat * u 1%nat) W = b 1%nat.
Proof.
  assert (K : b 1%nat = B 0%nat / W + W * dot3 gamma B v * (v 0%nat - beta 0%nat / alpha)) by exact (bconS _ _ _ _ _ _ _ _ H vp B 0).
  assert (K0 : b 0%nat = W * dot3 gamma B v / alpha) by exact (bcon0 _ _ _ _ _ _ _ _ H vp B).
  assert (Ku : u 1%nat = W * (v 0%nat - beta 0%nat / alpha)) by exact (uconS' _ _ _ _ _ _ _ _ H vp 0).
  pose proof W1. pose proof ap. rewrite gratio_nz by lra. rewrite K, K0, Ku. field. split; lra.
Qed.
Lemma hist_bsq : GetMagneticFieldSquared gamma vp B W = bsquared g b.
Proof. exact (bsq_val _ _ _ _ vp T B). Qed.
Lemma hist_ucov1 : sum3 (fun n => gamma 0%nat n * vp n) = lower4 g u 1%nat.
Proof.
  assert (K : lower4 g u 1%nat = W * lower3 gamma v 0%nat) by exact (ucov_S _ _ _ _ _ _ _ _ H vp 0 ltac:(lia)).
  rewrite K. unfold lower3, sum3, v. pose proof W1. field. lra.
Qed.
Lemma hist_bcov1 : gratio (sum3 (fun n => gamma 0%nat n * B n) + alpha * b 0%nat * lower4 g u 1%nat) W = lower4 g b 1%nat.
Proof.
  assert (K : lower4 g b 1%nat = lower3 gamma B 0%nat / W + W * dot3 gamma B v * lower3 gamma v 0%nat) by exact (bcov_S _ _ _ _ _ _ _ _ H vp B 0 ltac:(lia)).
  assert (Ku : lower4 g u 1%nat = W * lower3 gamma v 0%nat) by exact (ucov_S _ _ _ _ _ _ _ _ H vp 0 ltac:(lia)).
  assert (K0 : b 0%nat = W * dot3 gamma B v / alpha) by exact (bcon0 _ _ _ _ _ _ _ _ H vp B).
  rewrite K, Ku, K0. pose proof W1. pose proof ap. rewrite gratio_nz by lra. unfold lower3. field. split; lra.
Qed.
End Fluxes.

(** The reduced mass flux is - sqrt(-g) rho u^1, the magnetisation is b^2 / rho and the
    momentum flux is - sqrt(-g) times the electromagnetic stress T^1_1, for every metric, fluid velocity and field;
    the magnetic flux density is sqrt(-g) |B^1|. *)
Theorem C35_flux_densities : forall alpha beta g ginv gamma gi sg sgg vp B rho, adm_consistent alpha beta g ginv gamma gi sg sgg ->
  let u := GetFourVelocity vp gamma alpha beta in
  let b := comoving_field g (GetLorentzFactor vp gamma) u B in
  CalcMassFlux sg alpha beta g rho vp = - (sgg * rho * u 1%nat) /\
  CalcMagnetization gamma rho vp B = bsquared g b / rho /\
  CalcEMMomentumFlux gamma sg alpha beta vp B = - (sgg * Tmixed g 0 0 0 u b 1 1) /\
  CalcMagneticFluxPhi alpha (sg * B 0%nat) = sgg * Rabs (B 0%nat).
Proof.
  intros alpha beta g ginv gamma gi sg sgg vp B rho H u b. pose proof (adm_dets _ _ _ _ _ _ _ _ H) as D.
  pose proof (tpo_lapse _ _ _ _ (adm_tpo _ _ _ _ _ _ _ _ H)) as ap.
  pose proof (W_pos _ _ _ _ _ _ _ _ H vp) as W1.
  repeat split.
  - unfold CalcMassFlux. rewrite (W_eq _ _ _ _ _ _ _ _ H vp). rewrite (hist_u1 _ _ _ _ _ _ _ _ vp H). fold u. rewrite D. ring.
  - unfold CalcMagnetization. rewrite (hist_bsq _ _ _ _ _ _ _ _ vp B H). reflexivity.
  - unfold CalcEMMomentumFlux. rewrite (hist_bsq _ _ _ _ _ _ _ _ vp B H), (hist_bdv _ _ _ _ _ _ _ _ vp B H), (hist_u1 _ _ _ _ _ _ _ _ vp H), (hist_b0 _ _ _ _ _ _ _ _ vp B H), (hist_b1 _ _ _ _ _ _ _ _ vp B H), (hist_ucov1 _ _ _ _ _ _ _ _ vp H), (hist_bcov1 _ _ _ _ _ _ _ _ vp B H).
    fold u. fold b. unfold Tmixed, delta. cbn [Nat.eqb]. rewrite D. field.
  - unfold CalcMagneticFluxPhi. rewrite Rabs_mult, D. rewrite (Rabs_pos_eq sg); [ring|]. destruct (adm_det3 _ _ _ _ _ _ _ _ H) as [K _]. lra.
Qed.
Print Assumptions C35_flux_densities.

(** The electromagnetic energy flux is not sqrt(-g) T^1_0: u_0 lacks its shift part and the
    contravariant b^0 stands where b_0 belongs. *)
Theorem C35_energy_flux_error : forall alpha beta g ginv gamma gi sg sgg vp B, adm_consistent alpha beta g ginv gamma gi sg sgg ->
  let W := GetLorentzFactor vp gamma in
  let u := GetFourVelocity vp gamma alpha beta in
  let b := comoving_field g W u B in
  CalcEMEnergyFlux gamma sg alpha beta vp B =
    sgg * (Tmixed g 0 0 0 u b 1 0 - bsquared g b * u 1%nat * dot3 gamma beta vp - b 1%nat * (b 0%nat - lower4 g b 0%nat)).
Proof.
  intros alpha beta g ginv gamma gi sg sgg vp B H W u b. pose proof (adm_dets _ _ _ _ _ _ _ _ H) as D.
  pose proof (adm_tpo _ _ _ _ _ _ _ _ H) as T. pose proof (tpo_lapse _ _ _ _ T) as ap.
  assert (L : lower4 g u 0%nat = - W * alpha + dot3 gamma beta vp).
  { assert (U0 : u 0%nat = W / alpha) by exact (ucon0 _ _ _ _ _ _ _ _ H vp).
    assert (US : forall i, u (S i) = vp i - W / alpha * beta i) by exact (uconS _ _ _ _ _ _ _ _ H vp).
    unfold lower4, sum4. rewrite (tpo_00 _ _ _ _ T), !(tpo_0i _ _ _ _ T) by lia. rewrite U0, !US. pose proof (tpo_gsym _ _ _ _ T) as Sy.
    unfold dot3, lower3, sum3. rewrite (Sy 1 0)%nat, (Sy 2 0)%nat, (Sy 2 1)%nat by lia. field. lra. }
  unfold CalcEMEnergyFlux. rewrite (hist_bsq _ _ _ _ _ _ _ _ vp B H), (hist_bdv _ _ _ _ _ _ _ _ vp B H), (hist_u1 _ _ _ _ _ _ _ _ vp H), (hist_b0 _ _ _ _ _ _ _ _ vp B H), (hist_b1 _ _ _ _ _ _ _ _ vp B H).
  fold W. fold u. fold b. unfold Tmixed, delta. cbn [Nat.eqb]. rewrite L, D. ring.
Qed.
Print Assumptions C35_energy_flux_error.
(** it is right without shift for a field orthogonal to the velocity *)
Theorem C35_energy_flux_noshift : forall alpha beta g ginv gamma gi sg sgg vp B, adm_consistent alpha beta g ginv gamma gi sg sgg ->
  (forall i, (i < 3)%nat -> beta i = 0) -> dot3 gamma B vp = 0 ->
  let u := GetFourVelocity vp gamma alpha beta in
  let b := comoving_field g (GetLorentzFactor vp gamma) u B in
  CalcEMEnergyFlux gamma sg alpha beta vp B = sgg * Tmixed g 0 0 0 u b 1 0.
Proof.
  intros alpha beta g ginv gamma gi sg sgg vp B H Z O u b. rewrite (C35_energy_flux_error _ _ _ ginv _ gi _ sgg _ _ H). fold u. fold b.
  pose proof (adm_tpo _ _ _ _ _ _ _ _ H) as T. pose proof (tpo_lapse _ _ _ _ T) as ap. pose proof (W_pos _ _ _ _ _ _ _ _ H vp) as W1.
  rewrite (dot3_zero gamma beta vp Z).
  assert (B0 : b 0%nat = 0).
  { pose proof (bcon0 _ _ _ _ _ _ _ _ H vp B) as K. fold u in K. fold b in K. rewrite K. rewrite <- (Bdotvp _ _ _ _ _ _ _ _ H vp B), O. field. lra. }
  assert (L : lower4 g b 0%nat = 0).
  { unfold lower4, sum4. rewrite B0, !(tpo_0i _ _ _ _ T) by lia. unfold lower3, sum3. rewrite !Z by lia. ring. }
  rewrite B0, L. ring.
Qed.
Print Assumptions C35_energy_flux_noshift.
(** In flat space, plasma streaming along its field carries no electromagnetic energy flux;
    the code reports - 2 W^2 v B^2. *)
Theorem C35_energy_flux_refuted : exists vp B,
  let u := GetFourVelocity vp delta 1 zero3 in
  let b := comoving_field eta4 (GetLorentzFactor vp delta) u B in
  Tmixed eta4 0 0 0 u b 1 0 = 0 /\ CalcEMEnergyFlux delta 1 1 zero3 vp B <> 0.
Proof.
  exists (v3 1 0 0), (v3 1 0 0). intros u b.
  assert (W2 : GetLorentzFactor (v3 1 0 0) delta = sqrt 2). { unfold GetLorentzFactor, sum3, delta, v3. cbn [Nat.eqb]. f_equal. ring. }
  assert (S2 : sqrt 2 * sqrt 2 = 2) by (apply sqrt_sqrt; lra). assert (P2 : 0 < sqrt 2) by (apply sqrt_lt_R0; lra).
  assert (U0 : u 0%nat = sqrt 2). { unfold u. rewrite (u0_val _ _ _ _ _ (adm_tpo _ _ _ _ _ _ _ _ eta4_consistent)), W2. field. }
  assert (US : forall i, u (S i) = v3 1 0 0 i). { intros i. unfold u. rewrite (uconS _ _ _ _ _ _ _ _ eta4_consistent). unfold zero3. ring. }
  assert (Bu : dot4 eta4 (spatial4 (v3 1 0 0)) u = 1). { unfold dot4, sum4. rewrite U0, !US. unfold eta4, spatial4, v3. cbn [Nat.eqb]. ring. }
  assert (B0 : b 0%nat = 1). { unfold b, comoving_field. rewrite Bu, U0, W2. cbn [spatial4]. field. lra. }
  assert (BS : forall i, b (S i) = 2 / sqrt 2 * v3 1 0 0 i). { intros i. unfold b, comoving_field. rewrite Bu, US, W2. cbn [spatial4]. field. lra. }
  assert (Q : 2 / sqrt 2 = sqrt 2) by (rewrite <- S2 at 1; field; lra).
  assert (Bq : bsquared eta4 b = 1). { unfold bsquared, dot4, sum4. rewrite B0, !BS, Q. unfold eta4, v3. cbn [Nat.eqb]. nra. }
  assert (LU : lower4 eta4 u 0%nat = - sqrt 2). { unfold lower4, sum4. rewrite U0. unfold eta4. cbn [Nat.eqb]. ring. }
  assert (LB : lower4 eta4 b 0%nat = -1). { unfold lower4, sum4. rewrite B0. unfold eta4. cbn [Nat.eqb]. ring. }
  assert (TZ : Tmixed eta4 0 0 0 u b 1 0 = 0). { unfold Tmixed. rewrite Bq, LU, LB, US, BS, Q. unfold v3, delta. cbn [Nat.eqb]. ring. }
  split; [exact TZ|].
  rewrite (C35_energy_flux_error _ _ _ eta4 _ delta _ 1 _ _ eta4_consistent). fold u. fold b. rewrite TZ, Bq, LB, US, BS, B0, Q.
  unfold v3, dot3, sum3, zero3, delta. cbn [Nat.eqb]. nra.
Qed.
Print Assumptions C35_energy_flux_refuted.

(** ** Mass accretion rate of the supernova diagnostics *)
(** The rate is the sum over the zones inside rc of the volume times the rate of change of the
    densitised density caused by the fluxes; over a whole block it is the net flux through
    the block's faces. *)
Theorem C35_mdot : forall ndim nb B rc (r : Zone -> R) heat cool nh ip (dx : Dir -> R) f p, covers nb B p -> (ndim = 1 \/ ndim = 2 \/ ndim = 3)%nat -> (forall d, dx d <> 0) ->
  let vol := dx D1 * dx D2 * dx D3 in
  let area (d : Dir) (_ : Cell) := vol / dx d in
  CalculateMdot ndim rc false false r heat cool nh ip area f p =
  mesh_total nb B (fun z => if Rle_dec (r z) rc then vol * gain ndim dx (f (fst z)) (snd z) else 0).
Proof.
  intros ndim nb B rc r heat cool nh ip dx f p C Hnd Hd vol area. unfold CalculateMdot. rewrite reduce_lsum, (lsum_perm _ _ _ (covers_perm _ _ _ C)), mesh_total_list.
  induction (mesh_zones nb B) as [|z l IH]; [reflexivity|]. rewrite !lsum_cons, IH. f_equal.
  destruct (Rle_bool_spec (r z) rc) as [L|L]; destruct (Rle_dec (r z) rc) as [L'|L']; try lra.
  destruct z as [b [[k j] i]]. unfold ComputeDivInPillbox, gain, area, next. cbn [fst snd]. pose proof (Hd D1). pose proof (Hd D2). pose proof (Hd D3).
  destruct Hnd as [->|[->| ->]]; cbn [Nat.leb Nat.ltb]; field; auto.
Qed.
Print Assumptions C35_mdot.
Theorem C35_mdot_block : forall B (r : Zone -> R) rc heat cool nh ip (dx : Dir -> R) f p, nonempty B -> covers 1 B p -> (forall d, dx d <> 0) ->
  (forall z, r z <= rc) ->
  let area (d : Dir) (_ : Cell) := dx D1 * dx D2 * dx D3 / dx d in
  CalculateMdot 1 rc false false r heat cool nh ip area f p =
  sum_range (ks B) (ke B) (fun k => sum_range (js B) (je B) (fun j => f 0%nat D1 (k, j, is_ B) - f 0%nat D1 (k, j, ie B + 1)%Z)) * (dx D2 * dx D3).
Proof.
  intros B r rc heat cool nh ip dx f p N C Hd Hr area. unfold area. rewrite (C35_mdot 1 1 B rc r heat cool nh ip dx f p C (or_introl eq_refl) Hd).
  unfold mesh_total. cbn [sum_blocks]. rewrite <- (total_d1 B (f 0%nat) N), <- total_scal. rewrite Rplus_0_l. apply total_ext. intros c _.
  destruct (Rle_dec (r (0%nat, c)) rc) as [_|K]; [|exfalso; apply K, Hr]. unfold gain. cbn [Nat.ltb Nat.leb fst snd]. field; repeat split; apply Hd.
Qed.
Print Assumptions C35_mdot_block.
(** hypotheses met: flat space with a moving magnetised fluid; three blocks, one of them outside *)
Example C35_flux_case : adm_consistent 1 zero3 eta4 eta4 delta delta 1 1 /\ dot3 delta (v3 0 1 0) (v3 1 0 0) = 0 /\
  CalcMassFlux 1 1 zero3 eta4 2 (v3 1 0 0) = -2.
Proof.
  split; [exact eta4_consistent|]. split; [unfold dot3, sum3, delta, v3; cbn [Nat.eqb]; ring|].
  unfold CalcMassFlux, zero3, v3. lra.
Qed.
