(** Ghost zones. *)
From Coq Require Import ZArith Reals List Bool Lia Lra.
From Verif.Model Require Import Num ParFor FluxFix Geometry Boundary.
From Verif.Spec Require Import Tensor FluxSpec BoundarySpec.
From Verif.Proofs Require Import NumR GeomBase.
Import ListNotations.

(** a loop whose iterations write their own location from a location nobody writes *)
Section Loop.
Variables (rc : BLoc -> BLoc) (val : BLoc -> R -> R) (body : BLoc -> BMem -> BMem).
Hypothesis Hb : forall lc m l', body lc m l' = if BLoc_dec l' lc then val lc (m (rc lc)) else m l'.
Lemma loop_out o m l : ~ In l o -> par_for_bndry o body m l = m l.
Proof.
  unfold par_for_bndry. revert m. induction o as [|a o IH]; intros m N; cbn; [reflexivity|].
  rewrite IH by (intros K; apply N; right; exact K). rewrite Hb. destruct (BLoc_dec l a) as [->|]; [|reflexivity].
  exfalso. apply N. left. reflexivity.
Qed.
Lemma loop_in o m l : NoDup o -> (forall x, In x o -> ~ In (rc x) o) -> In l o -> par_for_bndry o body m l = val l (m (rc l)).
Proof.
  intros N K I. assert (G : forall o' m', incl o' o -> NoDup o' -> In l o' -> m' (rc l) = m (rc l) -> par_for_bndry o' body m' l = val l (m (rc l))).
  { induction o' as [|a o' IH]; intros m' S N' I' E; [destruct I'|]. inversion N' as [|? ? Na N'']; subst.
    unfold par_for_bndry. cbn. fold (par_for_bndry o' body (body a m')).
    destruct (BLoc_dec a l) as [->|D].
    - rewrite loop_out by exact Na. rewrite Hb. destruct (BLoc_dec l l); [|congruence]. now rewrite E.
    - destruct I' as [I'|I']; [congruence|]. apply IH; [intros x Hx; apply S; right; exact Hx|exact N''|exact I'|].
      rewrite Hb. destruct (BLoc_dec (rc l) a) as [Ea|]; [|exact E].
      exfalso. apply (K l I). rewrite Ea. apply S. left. reflexivity. }
  apply (G o m (incl_refl o) N I eq_refl).
Qed.
End Loop.

Section F.
Variables (cf : BConf) (I E : Box).
(** the zone read and the value written *)
Definition bref (b : BKind) (d : Dir) (inner : bool) (c : Cell) : Cell :=
  ref_cell I d inner (match b with BOutflow => false | _ => true end) c.
Definition bsign (b : BKind) (d : Dir) (l : nat) : R :=
  match b with
  | BOutflow => 1
  | BReflect => match vcomp cf l with Some d' => if Dir_dec d' d then -1 else 1 | None => 1 end
  | BPolar => if polar_odd cf l then -1 else 1
  end.
Definition bfac (c c0 : Cell) : R := if conserved cf then gratio (det cf c) (det cf c0) else 1.
Definition allowed (b : BKind) (d : Dir) : Prop := b = BPolar -> d = D2 /\ conserved cf = false.
Lemma body_form b d inner : allowed b d -> forall lc m l',
  bnd_body cf I b d inner lc m l' =
  if BLoc_dec l' lc then (bsign b d (fst lc) * bfac (snd lc) (bref b d inner (snd lc)) * m (fst lc, bref b d inner (snd lc)))%R else m l'.
Proof.
  intros A [l [[k j] i]] m l'. unfold bfac. destruct b.
  - destruct d; unfold bnd_body, outflow_x1_body, generic_body, bput, bref, bsign, ref_cell; cbn [fst snd];
      destruct (conserved cf); destruct (BLoc_dec l' _); try reflexivity; try ring.
  - unfold bnd_body, generic_body, bput, bref, bsign; cbn [fst snd]; destruct (conserved cf); destruct (BLoc_dec l' _); try reflexivity; ring.
  - destruct (A eq_refl) as [-> Ec]. rewrite Ec. unfold bnd_body, polar_body, bput, bref, bsign, ref_cell; cbn [fst snd].
    destruct (BLoc_dec l' _); [|reflexivity].
    destruct inner; [replace (- j + 2 * js I - 1)%Z with (2 * js I + -1 - j)%Z by lia|replace (- j + 2 * (je I + 1) - 1)%Z with (2 * je I + 1 - j)%Z by lia];
      destruct (polar_odd cf l); ring.
Qed.

(** ghost zones fit into the interior, which lies inside the block *)
Definition fits : Prop := forall d, (lo E d <= lo I d /\ lo I d <= hi I d /\ hi I d <= hi E d /\
  lo I d - lo E d <= hi I d - lo I d + 1 /\ hi E d - hi I d <= hi I d - lo I d + 1)%Z.
Hypothesis F : fits.
Lemma in_box_coord B c : in_box B c <-> forall d, (lo B d <= coord d c <= hi B d)%Z.
Proof.
  destruct c as [[k j] i]. unfold in_box. split.
  - intros H d. destruct d; cbn; lia.
  - intros H. pose proof (H D1). pose proof (H D2). pose proof (H D3). cbn in *. lia.
Qed.
Lemma in_ghost d inner c : in_box (ghost_box I E d inner) c <-> in_box E c /\ (if inner then coord d c < lo I d else hi I d < coord d c)%Z.
Proof.
  destruct c as [[k j] i]. pose proof (F d) as Fd. destruct d, inner; cbn in *; lia.
Qed.
Lemma bref_coord b d inner c d' : coord d' (bref b d inner c) =
  if Dir_dec d' d then (match b with BOutflow => if inner then lo I d else hi I d | _ => if inner then 2 * lo I d - 1 - coord d c else 2 * hi I d + 1 - coord d c end)%Z
  else coord d' c.
Proof.
  destruct c as [[k j] i]. unfold bref, ref_cell. destruct (Dir_dec d' d) as [->|D].
  - destruct b, d, inner; cbn; lia.
  - destruct b, d, d', inner; try congruence; reflexivity.
Qed.
Lemma bref_inside b d inner c : in_box (ghost_box I E d inner) c ->
  in_box E (bref b d inner c) /\ (lo I d <= coord d (bref b d inner c) <= hi I d)%Z.
Proof.
  intros G. apply in_ghost in G. destruct G as [GE Gd]. pose proof (proj1 (in_box_coord E c) GE) as Cc. pose proof (F d) as Fd.
  assert (K : (lo I d <= coord d (bref b d inner c) <= hi I d)%Z).
  { rewrite bref_coord. destruct (Dir_dec d d); [|congruence]. specialize (Cc d). destruct b, inner; lia. }
  split; [|exact K]. apply in_box_coord. intros d'. destruct (Dir_dec d' d) as [->|D]; [lia|].
  rewrite bref_coord. destruct (Dir_dec d' d); [congruence|]. apply Cc.
Qed.

Variables (nvar : nat) (face : Dir -> bool -> option BKind) (ord : Dir -> bool -> list BLoc).
Hypothesis Hord : forall d inner, bnd_order nvar (ghost_box I E d inner) (ord d inner).
Hypothesis Hal : forall d inner b, face d inner = Some b -> allowed b d.

Definition run (d : Dir) (inner : bool) (m : BMem) : BMem :=
  match face d inner with Some b => par_for_bndry (ord d inner) (bnd_body cf I b d inner) m | None => m end.
Lemma run_out d inner m l c : (in_box (ghost_box I E d inner) c -> ~ (l < nvar)%nat) -> run d inner m (l, c) = m (l, c).
Proof.
  intros K. unfold run. destruct (face d inner) as [b|] eqn:Ef; [|reflexivity].
  rewrite (loop_out (fun lc => (fst lc, bref b d inner (snd lc))) (fun lc x => (bsign b d (fst lc) * bfac (snd lc) (bref b d inner (snd lc)) * x)%R) _
    (body_form b d inner (Hal _ _ _ Ef))); [reflexivity|].
  intros In. apply (proj2 (Hord d inner)) in In. tauto.
Qed.
Lemma run_in d inner b m l c : face d inner = Some b -> in_box (ghost_box I E d inner) c -> (l < nvar)%nat ->
  run d inner m (l, c) = (bsign b d l * bfac c (bref b d inner c) * m (l, bref b d inner c))%R.
Proof.
  intros Ef G L. unfold run. rewrite Ef.
  rewrite (loop_in (fun lc => (fst lc, bref b d inner (snd lc))) (fun lc x => (bsign b d (fst lc) * bfac (snd lc) (bref b d inner (snd lc)) * x)%R) _
    (body_form b d inner (Hal _ _ _ Ef))); [reflexivity|apply (Hord d inner)| |apply (proj2 (Hord d inner)); tauto].
  intros [l' c'] In In'. cbn [fst snd] in In'. apply (proj2 (Hord d inner)) in In, In'. destruct In as [_ G1]. destruct In' as [_ G2].
  pose proof (bref_inside b d inner c' G1) as [_ K]. apply in_ghost in G2. destruct inner; lia.
Qed.

(** both faces of a direction *)
Definition src (d : Dir) (c : Cell) : Cell :=
  if (coord d c <? lo I d)%Z then match face d true with Some b => bref b d true c | None => c end
  else if (hi I d <? coord d c)%Z then match face d false with Some b => bref b d false c | None => c end
  else c.
Definition sg (d : Dir) (l : nat) (c : Cell) : R :=
  if (coord d c <? lo I d)%Z then match face d true with Some b => bsign b d l | None => 1 end
  else if (hi I d <? coord d c)%Z then match face d false with Some b => bsign b d l | None => 1 end
  else 1.
Definition fc (c c0 : Cell) : R := if conserved cf then det cf c / det cf c0 else 1.
Hypothesis Hdet : conserved cf = true -> forall c, in_box E c -> det cf c <> 0%R.
Lemma fc_refl c : in_box E c -> fc c c = 1%R.
Proof. intros H. unfold fc. destruct (conserved cf) eqn:Ec; [|reflexivity]. apply Rinv_r. now apply Hdet. Qed.
Lemma bfac_fc c c0 : in_box E c0 -> bfac c c0 = fc c c0.
Proof. intros H. unfold bfac, fc. destruct (conserved cf) eqn:Ec; [|reflexivity]. apply gratio_nz. now apply Hdet. Qed.
Lemma fc_trans a b c : in_box E b -> (fc a b * fc b c)%R = fc a c.
Proof.
  intros Hb. unfold fc. destruct (conserved cf) eqn:Ec; [|ring]. unfold Rdiv. rewrite Rmult_assoc, <- (Rmult_assoc (/ det cf b)), Rinv_l, Rmult_1_l by now apply Hdet. reflexivity.
Qed.
Lemma pair_run d m l c : (l < nvar)%nat -> in_box E c ->
  in_box E (src d c) /\ run d false (run d true m) (l, c) = (sg d l c * fc c (src d c) * m (l, src d c))%R.
Proof.
  intros L HE. unfold src, sg. pose proof (F d) as Fd.
  destruct (Z.ltb_spec (coord d c) (lo I d)) as [A|A].
  - assert (G : in_box (ghost_box I E d true) c) by (apply in_ghost; tauto).
    rewrite (run_out d false) by (intros G2; apply in_ghost in G2; lia).
    destruct (face d true) as [b|] eqn:Ef.
    + destruct (bref_inside b d true c G) as [B1 _]. split; [exact B1|].
      rewrite (run_in d true b m l c Ef G L), bfac_fc by exact B1. reflexivity.
    + split; [exact HE|]. unfold run. rewrite Ef. rewrite fc_refl by exact HE. ring.
  - destruct (Z.ltb_spec (hi I d) (coord d c)) as [B|B].
    + assert (G : in_box (ghost_box I E d false) c) by (apply in_ghost; tauto).
      destruct (face d false) as [b|] eqn:Ef.
      * destruct (bref_inside b d false c G) as [B1 B2]. split; [exact B1|].
        rewrite (run_in d false b _ l c Ef G L), bfac_fc by exact B1. f_equal.
        apply run_out. intros G2. apply in_ghost in G2. lia.
      * split; [exact HE|]. unfold run at 1. rewrite Ef. rewrite run_out by (intros G2; apply in_ghost in G2; lia).
        rewrite fc_refl by exact HE. ring.
    + split; [exact HE|]. rewrite !run_out by (intros G2; apply in_ghost in G2; lia). rewrite fc_refl by exact HE. ring.
Qed.
Lemma src_other d d' c : d' <> d -> coord d' (src d c) = coord d' c.
Proof.
  intros D. unfold src. destruct (coord d c <? lo I d)%Z; [|destruct (hi I d <? coord d c)%Z; [|reflexivity]];
    (match goal with |- context [face ?a ?b] => destruct (face a b) as [b'|] end; [|reflexivity]);
    rewrite bref_coord; destruct (Dir_dec d' d); congruence.
Qed.
Lemma sg_coord d l c c' : coord d c = coord d c' -> sg d l c = sg d l c'.
Proof. intros H. unfold sg. rewrite H. reflexivity. Qed.
Lemma src_supplies d c : supplies I face d c (src d c).
Proof.
  unfold supplies, src. pose proof (F d) as Fd. destruct (Z.ltb_spec (coord d c) (lo I d)) as [A|A].
  - right. left. split; [exact A|]. destruct (face d true) as [b|]; [|reflexivity].
    pose proof (bref_coord b d true c d) as K. destruct (Dir_dec d d); [|congruence]. destruct b; lia.
  - destruct (Z.ltb_spec (hi I d) (coord d c)) as [B|B].
    + right. right. split; [exact B|]. destruct (face d false) as [b|]; [|reflexivity].
      pose proof (bref_coord b d false c d) as K. destruct (Dir_dec d d); [|congruence]. destruct b; lia.
    + left. split; [lia|reflexivity].
Qed.
Lemma sg_flips d l c : (flips cf I face d l c -> sg d l c = (-1)%R) /\ (~ flips cf I face d l c -> sg d l c = 1%R).
Proof.
  pose proof (F d) as Fd. unfold flips, behind, sg. destruct (Z.ltb_spec (coord d c) (lo I d)) as [A|A].
  - destruct (face d true) as [b|] eqn:Ef.
    + destruct b; cbn [bsign].
      * split; [intros [[_ [[_ K]|[K _]]]|[_ [[_ K]|[K _]]]]; try congruence; lia|reflexivity].
      * destruct (vcomp cf l) as [d'|] eqn:Ev; [destruct (Dir_dec d' d) as [->|D]|]; (split; [try reflexivity|try reflexivity]).
        -- intros N. exfalso. apply N. left. tauto.
        -- intros [[K _]|[_ [[_ K]|[K _]]]]; try congruence; lia.
        -- intros [[K _]|[_ [[_ K]|[K _]]]]; try congruence; lia.
      * destruct (polar_odd cf l) eqn:Ep; (split; [try reflexivity|try reflexivity]).
        -- intros N. exfalso. apply N. right. tauto.
        -- intros [[_ [[_ K]|[K _]]]|[K _]]; try congruence; lia.
    + split; [intros [[_ [[_ K]|[K _]]]|[_ [[_ K]|[K _]]]]; try congruence; lia|reflexivity].
  - destruct (Z.ltb_spec (hi I d) (coord d c)) as [B|B].
    + destruct (face d false) as [b|] eqn:Ef.
      * destruct b; cbn [bsign].
        -- split; [intros [[_ [[K _]|[_ K]]]|[_ [[K _]|[_ K]]]]; try congruence; lia|reflexivity].
        -- destruct (vcomp cf l) as [d'|] eqn:Ev; [destruct (Dir_dec d' d) as [->|D]|]; (split; [try reflexivity|try reflexivity]).
           ++ intros N. exfalso. apply N. left. tauto.
           ++ intros [[K _]|[_ [[K _]|[_ K]]]]; try congruence; lia.
           ++ intros [[K _]|[_ [[K _]|[_ K]]]]; try congruence; lia.
        -- destruct (polar_odd cf l) eqn:Ep; (split; [try reflexivity|try reflexivity]).
           ++ intros N. exfalso. apply N. right. tauto.
           ++ intros [[_ [[K _]|[_ K]]]|[K _]]; try congruence; lia.
      * split; [intros [[_ [[K _]|[_ K]]]|[_ [[K _]|[_ K]]]]; try congruence; lia|reflexivity].
    + split; [intros [[_ [[K _]|[K _]]]|[_ [[K _]|[K _]]]]; lia|reflexivity].
Qed.
Definition run2 d m := run d false (run d true m).
Lemma apply_runs ndim m : ApplyBoundaryConditions cf I ndim face ord m =
  (let m1 := run2 D1 m in let m2 := if Nat.ltb 1 ndim then run2 D2 m1 else m1 in if Nat.ltb 2 ndim then run2 D3 m2 else m2).
Proof. unfold ApplyBoundaryConditions, faces_of. destruct (Nat.ltb 1 ndim), (Nat.ltb 2 ndim); reflexivity. Qed.
Lemma dead_run2 d m l c : (lo E d = lo I d /\ hi E d = hi I d)%Z -> in_box E c -> run2 d m (l, c) = m (l, c).
Proof.
  intros D HE. unfold run2. pose proof (proj1 (in_box_coord E c) HE d).
  rewrite !run_out by (intros G; apply in_ghost in G; lia). reflexivity.
Qed.
Lemma apply_val ndim m l c : (forall d, ~ live ndim d -> (lo E d = lo I d /\ hi E d = hi I d)%Z) -> (ndim = 1 \/ ndim = 2 \/ ndim = 3)%nat ->
  (l < nvar)%nat -> in_box E c ->
  let c0 := src D1 (src D2 (src D3 c)) in
  in_box E c0 /\ ApplyBoundaryConditions cf I ndim face ord m (l, c) = (sg D1 l c * sg D2 l c * sg D3 l c * fc c c0 * m (l, c0))%R.
Proof.
  intros Hd Hn L HE c0. rewrite apply_runs. cbv zeta.
  assert (E3 : in_box E (src D3 c)) by (apply (pair_run D3 m l c L HE)).
  assert (E2 : in_box E (src D2 (src D3 c))) by (apply (pair_run D2 m l _ L E3)).
  assert (E1 : in_box E c0) by (apply (pair_run D1 m l _ L E2)).
  split; [exact E1|].
  assert (Full : run2 D3 (run2 D2 (run2 D1 m)) (l, c) = (sg D1 l c * sg D2 l c * sg D3 l c * fc c c0 * m (l, c0))%R).
  { unfold run2 at 1. rewrite (proj2 (pair_run D3 (run2 D2 (run2 D1 m)) l c L HE)).
    unfold run2 at 1. rewrite (proj2 (pair_run D2 (run2 D1 m) l _ L E3)).
    unfold run2. rewrite (proj2 (pair_run D1 m l _ L E2)). fold c0.
    rewrite (sg_coord D2 l (src D3 c) c) by (apply src_other; discriminate).
    rewrite (sg_coord D1 l (src D2 (src D3 c)) c) by (rewrite !src_other by discriminate; reflexivity).
    rewrite <- (fc_trans c (src D3 c) c0) by exact E3. rewrite <- (fc_trans (src D3 c) (src D2 (src D3 c)) c0) by exact E2. ring. }
  destruct Hn as [-> | [-> | ->]]; cbn [Nat.ltb Nat.leb].
  - rewrite <- Full. rewrite (dead_run2 D3) by (first [exact HE|apply Hd; cbn; lia]). rewrite (dead_run2 D2) by (first [exact HE|apply Hd; cbn; lia]). reflexivity.
  - rewrite <- Full. rewrite (dead_run2 D3) by (first [exact HE|apply Hd; cbn; lia]). reflexivity.
  - exact Full.
Qed.
End F.
