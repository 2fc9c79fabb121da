(** C64: the answer does not depend on how the mesh is cut into blocks. *)
From Coq Require Import ZArith List Bool Lia.
From Verif.Model Require Import Decomposition.
From Verif.Spec Require Import DecompositionSpec.
Import ListNotations.

Section Cut.
Context {Cell Block A B : Type}.
Variables (mine : Block -> Cell -> bool) (owner : Cell -> Block) (sees : Block -> Cell -> Prop) (reach near : Cell -> Cell -> Prop).
Hypothesis (HC : cut mine owner sees) (HW : wide owner sees reach near).

(** what each block holds of the zones it sees is the whole-mesh state *)
Definition agrees (M : MeshMem Cell Block A B) (w : BlockMem Cell A B) : Prop := forall b c, sees b c -> M b c = w c.

Lemma mine_owner c : mine (owner c) c = true.
Proof. apply (cut_mine _ _ _ HC). reflexivity. Qed.

Lemma whole_unfold (o : Ops Cell A B) w : whole_stage o w = second_pass (fun (_ : unit) _ => true) o tt (first_pass (fun (_ : unit) _ => true) o tt w).
Proof. reflexivity. Qed.
Lemma stage_agrees (o : Ops Cell A B) (M : MeshMem Cell Block A B) (w : BlockMem Cell A B) :
  looks_at reach (adv o) -> looks_at near (repair o) ->
  (forall c, bad o (after_update o w c) = true -> forall d, near c d -> owner d = owner c) ->
  (forall c, bad o (after_exchange o w c) = true -> forall b, sees b c -> b = owner c) ->
  agrees M w -> agrees (stage mine owner o M) (whole_stage o w).
Proof.
  intros La Lr F1 F2 HA.
  assert (S1 : forall c, fill o (advance mine o (owner c) (M (owner c))) c = fill o (advance (fun _ _ => true) o tt w) c).
  { intros c. unfold fill, advance; cbn [fst snd]. rewrite mine_owner.
    rewrite (La c (M (owner c)) w); [reflexivity|]. intros d Hd. apply HA, HW. left; exact Hd. }
  assert (S2 : forall c, first_pass mine o (owner c) (M (owner c)) c = first_pass (fun _ _ => true) o tt w c).
  { intros c. unfold first_pass, floor_all. f_equal. unfold fix_interior. rewrite mine_owner, S1. cbn [andb].
    change (snd (fill o (advance (fun (_ : unit) _ => true) o tt w) c)) with (after_update o w c).
    destruct (bad o (after_update o w c)) eqn:E; [|reflexivity].
    apply Lr. intros d Hd. rewrite <- (F1 c E d Hd). apply S1. }
  assert (S3 : forall b c, sees b c -> fill o (exchange mine owner (fun b => first_pass mine o b (M b)) b) c = fill o (first_pass (fun (_ : unit) _ => true) o tt w) c).
  { intros b c Hs. unfold fill. unfold exchange. destruct (mine b c) eqn:E.
    - apply (cut_mine _ _ _ HC) in E. subst b. rewrite S2. reflexivity.
    - cbn [fst snd]. rewrite S2. reflexivity. }
  intros b c Hs. rewrite whole_unfold. unfold stage, second_pass, floor_all. f_equal. unfold fix_interior.
  rewrite (S3 b c Hs). cbn [andb].
  change (snd (fill o (first_pass (fun (_ : unit) _ => true) o tt w) c)) with (after_exchange o w c).
  destruct (bad o (after_exchange o w c)) eqn:E; [|rewrite andb_false_r; reflexivity].
  assert (Eb : b = owner c) by exact (F2 c E b Hs). subst b. rewrite mine_owner. cbn [andb].
  apply Lr. intros d Hd. apply S3, HW. right; exact Hd.
Qed.
End Cut.

(** Every cut of the mesh into blocks whose ghost zones cover the stencils, every sequence of stages
    (any update, sources, inversion, repair and floors), every initial state: if in the whole-mesh
    run no zone that fails its inversion after an update has a neighbour in another block, and no
    zone that fails again after the exchange is some other block's ghost zone, then after every
    stage every block holds, in all zones it sees, exactly the whole-mesh state. *)
Theorem C64_cut : forall {Cell Block A B : Type} (mine : Block -> Cell -> bool) owner sees reach near (os : list (Ops Cell A B)) (M : MeshMem Cell Block A B) w,
  cut mine owner sees -> wide owner sees reach near ->
  (forall o, In o os -> looks_at reach (adv o) /\ looks_at near (repair o)) ->
  (forall o u, In (o, u) (history os w) ->
     (forall c, bad o (after_update o u c) = true -> forall d, near c d -> owner d = owner c) /\
     (forall c, bad o (after_exchange o u c) = true -> forall b, sees b c -> b = owner c)) ->
  (forall b c, sees b c -> M b c = w c) ->
  forall b c, sees b c -> run_stages mine owner os M b c = fold_left (fun u o => whole_stage o u) os w c.
Proof.
  intros Cell Block A B mine owner sees reach near os M w HC HW.
  revert M w. induction os as [|o os IH]; intros M w L F H; [exact H|].
  cbn [run_stages fold_left]. unfold run_stages in IH. apply IH.
  - intros o' I. apply L. right; exact I.
  - intros o' u I. apply F. right; exact I.
  - destruct (L o (or_introl eq_refl)) as [L1 L2]. destruct (F o w (or_introl eq_refl)) as [F1 F2].
    apply (stage_agrees mine owner sees reach near HC HW o M w L1 L2 F1 F2 H).
Qed.
Print Assumptions C64_cut.

(** In particular, when no inversion fails, any two cuts of the mesh give the same answer in every
    zone both look at. *)
Theorem C64_two_cuts : forall {Cell Block Block' A B : Type} (mine : Block -> Cell -> bool) owner sees (mine' : Block' -> Cell -> bool) owner' sees' reach near
    (os : list (Ops Cell A B)) (M : MeshMem Cell Block A B) (M' : MeshMem Cell Block' A B) w,
  cut mine owner sees -> wide owner sees reach near -> cut mine' owner' sees' -> wide owner' sees' reach near ->
  (forall o, In o os -> looks_at reach (adv o) /\ looks_at near (repair o)) ->
  (forall o u, In (o, u) (history os w) -> forall c, bad o (after_update o u c) = false /\ bad o (after_exchange o u c) = false) ->
  (forall b c, sees b c -> M b c = w c) -> (forall b c, sees' b c -> M' b c = w c) ->
  forall b b' c, sees b c -> sees' b' c -> run_stages mine owner os M b c = run_stages mine' owner' os M' b' c.
Proof.
  intros Cell Block Block' A B mine owner sees mine' owner' sees' reach near os M M' w C W C' W' L F H H' b b' c Hb Hb'.
  rewrite (C64_cut mine owner sees reach near os M w C W L) with (b := b); try assumption.
  - symmetry. apply (C64_cut mine' owner' sees' reach near os M' w C' W' L); try assumption.
    intros o u I. split; intros d E; destruct (F o u I d); congruence.
  - intros o u I. split; intros d E; destruct (F o u I d); congruence.
Qed.
Print Assumptions C64_two_cuts.

(** *** a one-dimensional gas at rest (in units of a thousandth of the mean density, rounded down):
    density advected to the right at half a zone per stage, with sources [s]; negative densities
    cannot be inverted; a failed zone takes the mean of its good neighbours, as C23_fluid_repair *)
Local Open Scope Z_scope.
Definition gas_mean (m : BlockMem Z Z (Z * bool)) (c : Z) : Z :=
  let '(l, r) := (snd (m (c - 1)), snd (m (c + 1))) in
  match snd l, snd r with true, true => (fst l + fst r) / 2 | true, false => fst l | false, true => fst r | false, false => 0 end.
Definition gas (s : Z -> Z) : Ops Z Z (Z * bool) := {|
  adv := fun m c => (fst (m (c - 1)) + fst (m c)) / 2 + s c;
  keep := fun c v => fst v;
  c2p := fun c D => (D, 0 <=? D);
  bad := fun p => negb (snd p);
  repair := fun m c => (gas_mean m c, (gas_mean m c, true));
  floors := fun c v => v |}.
Definition near1 (c d : Z) : Prop := c - 1 <= d <= c + 1.
(** two blocks that meet between the zones 0 and 1, two ghost zones each *)
Definition mine2 (b : bool) (c : Z) : bool := Bool.eqb b (1 <=? c).
Definition owner2 (c : Z) : bool := 1 <=? c.
Definition sees2 (b : bool) (c : Z) : Prop := if b then -1 <= c else c <= 2.
Lemma cut2 : cut mine2 owner2 sees2.
Proof.
  split.
  - intros b c. unfold mine2, owner2. rewrite Bool.eqb_true_iff. split; congruence.
  - intros c. unfold sees2, owner2. destruct (Z.leb_spec 1 c); lia.
Qed.
Lemma wide2 : wide owner2 sees2 near1 near1.
Proof. intros c d H. unfold near1, sees2, owner2 in *. destruct (Z.leb_spec 1 c); lia. Qed.
Lemma gas_adv s : looks_at near1 (adv (gas s)).
Proof. intros c m m' H. cbn [gas adv]. rewrite !H by (unfold near1; lia). reflexivity. Qed.
Lemma gas_repair s : looks_at near1 (repair (gas s)).
Proof. intros c m m' H. cbn [gas repair]. unfold gas_mean. rewrite !H by (unfold near1; lia). reflexivity. Qed.
Definition flat : BlockMem Z Z (Z * bool) := fun _ => (1000, (1000, true)).
(** zone z loses three times its content, its right neighbour doubles *)
Definition drain (z : Z) : Z -> Z := fun c => if c =? z then -3000 else if c =? z + 1 then 2000 else 0.

Lemma flat_update z c : after_update (gas (drain z)) flat c = (1000 + drain z c, 0 <=? 1000 + drain z c).
Proof. reflexivity. Qed.
Lemma flat_bad z c : bad (gas (drain z)) (after_update (gas (drain z)) flat c) = (c =? z).
Proof. rewrite flat_update. unfold drain; cbn [gas bad snd]. destruct (c =? z); [reflexivity|]. destruct (c =? z + 1); reflexivity. Qed.
Lemma flat_second z c : bad (gas (drain z)) (after_exchange (gas (drain z)) flat c) = false.
Proof.
  unfold after_exchange, first_pass, floor_all, fix_interior. cbn [gas floors andb].
  change (snd (fill (gas (drain z)) (advance (fun (_ : unit) _ => true) (gas (drain z)) tt flat) c)) with (after_update (gas (drain z)) flat c).
  rewrite flat_bad. destruct (Z.eqb_spec c z) as [->|N].
  - cbn [gas repair fst]. unfold gas_mean.
    change (snd (fill (gas (drain z)) (advance (fun (_ : unit) _ => true) (gas (drain z)) tt flat) (z - 1))) with (after_update (gas (drain z)) flat (z - 1)).
    change (snd (fill (gas (drain z)) (advance (fun (_ : unit) _ => true) (gas (drain z)) tt flat) (z + 1))) with (after_update (gas (drain z)) flat (z + 1)).
    rewrite !flat_update. replace (drain z (z - 1)) with 0 by (unfold drain; rewrite !(proj2 (Z.eqb_neq _ _)) by lia; reflexivity).
    replace (drain z (z + 1)) with 2000 by (unfold drain; rewrite Z.eqb_refl, (proj2 (Z.eqb_neq _ _)) by lia; reflexivity). reflexivity.
  - cbn. unfold drain. rewrite (proj2 (Z.eqb_neq _ _) N). destruct (c =? z + 1); reflexivity.
Qed.
(** zone 5 fails and is repaired from zones 4 and 6: both blocks hold what the whole mesh holds;
    the repaired density is 2 *)
Example C64_cut_nonvacuous :
  (forall b c, sees2 b c -> run_stages mine2 owner2 [gas (drain 5)] (fun _ => flat) b c = whole_stage (gas (drain 5)) flat c) /\
  fst (whole_stage (gas (drain 5)) flat 5) = 2000 /\ bad (gas (drain 5)) (after_update (gas (drain 5)) flat 5) = true.
Proof.
  split; [|split; reflexivity].
  apply (C64_cut mine2 owner2 sees2 near1 near1 [gas (drain 5)] (fun _ => flat) flat cut2 wide2).
  - intros o [<- | []]. split; [apply gas_adv|apply gas_repair].
  - intros o u [E|[]]. injection E as <- <-. split; intros c.
    + rewrite flat_bad. intros E d Hd. apply Z.eqb_eq in E. subst c. unfold near1 in Hd. unfold owner2.
      destruct (Z.leb_spec 1 d); [reflexivity|lia].
    + rewrite flat_second. discriminate.
  - reflexivity.
Qed.

(** VIOLATION: when the failed zone touches the neighbouring block, the first repair reads ghost
    zones that still hold the state before the update.  Zone 0, repaired from its neighbours -1
    (density 1) and 1 (density 3, before the update 1), gets density 2 on one block and density 1
    when the mesh is cut next to it.  Everything else is as in the example above. *)
Theorem C64_stale_repair_refuted : forall b c, (b, c) = (owner2 0, 0) ->
  sees2 b c /\ fst (whole_stage (gas (drain 0)) flat c) = 2000 /\ fst (run_stages mine2 owner2 [gas (drain 0)] (fun _ => flat) b c) = 1000 /\
  fst (whole_stage (gas (drain 0)) flat 1) = 3000 /\ fst (run_stages mine2 owner2 [gas (drain 0)] (fun _ => flat) (owner2 1) 1) = 3000.
Proof. intros b c E. injection E as -> ->. repeat split; try reflexivity. unfold sees2, owner2; cbn; lia. Qed.
Print Assumptions C64_stale_repair_refuted.
