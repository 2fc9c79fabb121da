(** C33: ghost zones at physical boundaries. *)
From Coq Require Import ZArith Reals List Bool Lia Lra Psatz FunctionalExtensionality.
From Flocq Require Import Core BinarySingleNaN.
From Verif.Model Require Import Num ParFor FluxFix Geometry Relativity Boundary.
From Verif.Spec Require Import Tensor GeomSpec Relativity FluxSpec BoundarySpec.
From Verif.Proofs Require Import NumR TensorTac GeomBase RelProofs RelativityProofs ParForProofs BoundaryProofs LinearAlgebraProofs FlatWitness.
Import ListNotations.
Local Open Scope R_scope.

(** the ghost zones of a block: between one and as many layers as interior zones (parthenon
    demands this), none in directions that do not exist *)
Definition block_extent (ndim : nat) (I E : Box) : Prop :=
  fits I E /\ (forall d, ~ live ndim d -> (lo E d = lo I d /\ hi E d = hi I d)%Z) /\ (ndim = 1 \/ ndim = 2 \/ ndim = 3)%nat.
(** the polar condition is registered for x2 only and aborts unless bc_vars is "primitive" *)
Definition accepted (cf : BConf) (face : Dir -> bool -> option BKind) : Prop :=
  forall d inner, face d inner = Some BPolar -> d = D2 /\ conserved cf = false.
Lemma accepted_allowed cf face d inner b : accepted cf face -> face d inner = Some b -> allowed cf b d.
Proof. intros A E ->. exact (A d inner E). Qed.

(** Every zone of the block, ghost zones on faces, edges and corners included, ends up with
    the value of the zone c0 it mirrors (or copies, for outflow) in each direction, times the
    product of the signs, and times the ratio of the volume elements when the variables are
    densitised; c0 is a zone that is not filled by a physical boundary.  Whatever the order
    of the loops and the stale contents of the ghost zones. *)
Theorem C33_ghost_zones : forall cf I E ndim face ord nvar (m : BMem) l c,
  block_extent ndim I E -> accepted cf face ->
  (forall d inner, bnd_order nvar (ghost_box I E d inner) (ord d inner)) ->
  (conserved cf = true -> forall c, in_box E c -> det cf c <> 0) ->
  (l < nvar)%nat -> in_box E c ->
  exists c0 s, in_box E c0 /\ (forall d, supplies I face d c c0) /\
    (forall d, face d true <> None -> (lo I d <= coord d c0)%Z) /\ (forall d, face d false <> None -> (coord d c0 <= hi I d)%Z) /\
    signed cf I face l c s /\
    ApplyBoundaryConditions cf I ndim face ord m (l, c) = s * (if conserved cf then det cf c / det cf c0 else 1) * m (l, c0).
Proof.
  intros cf I E ndim face ord nvar m l c (F & Hd & Hn) A Ho Hdet L HE.
  assert (Hal : forall d inner b, face d inner = Some b -> allowed cf b d) by (intros d inner b; apply accepted_allowed, A).
  destruct (apply_val cf I E F nvar face ord Ho Hal Hdet ndim m l c Hd Hn L HE) as [E0 V].
  set (c0 := src I face D1 (src I face D2 (src I face D3 c))) in *.
  assert (Sup : forall d, supplies I face d c c0).
  { intros d. destruct d.
    - pose proof (src_supplies I E F face D1 (src I face D2 (src I face D3 c))) as K. unfold supplies in *. fold c0 in K.
      rewrite !(src_other I face _ D1) in K by discriminate. exact K.
    - pose proof (src_supplies I E F face D2 (src I face D3 c)) as K. unfold supplies in *.
      rewrite (src_other I face D3 D2) in K by discriminate.
      replace (coord D2 c0) with (coord D2 (src I face D2 (src I face D3 c))) by (symmetry; unfold c0; apply src_other; discriminate). exact K.
    - pose proof (src_supplies I E F face D3 c) as K. unfold supplies in *.
      replace (coord D3 c0) with (coord D3 (src I face D3 c)) by (symmetry; unfold c0; rewrite !src_other by discriminate; reflexivity). exact K. }
  exists c0, (sg cf I face D1 l c * sg cf I face D2 l c * sg cf I face D3 l c). repeat apply conj.
  - exact E0.
  - exact Sup.
  - intros d Hf. pose proof (Sup d) as K. pose proof (F d) as Fd. unfold supplies in K. cbv zeta in K.
    pose proof (proj1 (in_box_coord E c) HE d) as Cc.
    destruct K as [K|[[K1 K2]|[K1 K2]]]; [lia| |].
    + destruct (face d true) as [[| |]|]; try congruence; lia.
    + destruct (face d false) as [[| |]|]; lia.
  - intros d Hf. pose proof (Sup d) as K. pose proof (F d) as Fd. unfold supplies in K. cbv zeta in K.
    pose proof (proj1 (in_box_coord E c) HE d) as Cc.
    destruct K as [K|[[K1 K2]|[K1 K2]]]; [lia| |].
    + destruct (face d true) as [[| |]|]; lia.
    + destruct (face d false) as [[| |]|]; try congruence; lia.
  - exists (sg cf I face D1 l c), (sg cf I face D2 l c), (sg cf I face D3 l c). split; [reflexivity|].
    intros d s [K|[K|K]]; inversion K; subst; apply (sg_flips cf I E F).
  - exact V.
Qed.
Print Assumptions C33_ghost_zones.

(** interior zones, and components that are not in the pack, keep their values *)
Theorem C33_interior_untouched : forall cf I E ndim face ord nvar (m : BMem) l c,
  block_extent ndim I E -> accepted cf face ->
  (forall d inner, bnd_order nvar (ghost_box I E d inner) (ord d inner)) ->
  in_box I c \/ (nvar <= l)%nat \/ ~ in_box E c -> ApplyBoundaryConditions cf I ndim face ord m (l, c) = m (l, c).
Proof.
  intros cf I E ndim face ord nvar m l c (F & Hd & Hn) A Ho K.
  assert (Hal : forall d inner b, face d inner = Some b -> allowed cf b d) by (intros d inner b; apply accepted_allowed, A).
  assert (R : forall d inner m, run cf I face ord d inner m (l, c) = m (l, c)).
  { intros d inner m'. apply (run_out cf I E nvar face ord Ho Hal). intros G L. apply (in_ghost I E F) in G.
    destruct K as [K|[K|K]]; [|lia|tauto]. pose proof (proj1 (in_box_coord I c) K d). destruct inner; lia. }
  rewrite apply_runs. unfold run2. cbv zeta. destruct (Nat.ltb 1 ndim), (Nat.ltb 2 ndim); rewrite ?R; reflexivity.
Qed.
Print Assumptions C33_interior_untouched.

(** the usual reading of a wall at the inner x1 face: layer n of ghost zones mirrors layer n
    of the interior, the normal component with the opposite sign *)
Theorem C33_wall : forall cf I E ndim face ord nvar (m : BMem) l k j n,
  block_extent ndim I E -> accepted cf face -> conserved cf = false ->
  (forall d inner, bnd_order nvar (ghost_box I E d inner) (ord d inner)) -> (l < nvar)%nat ->
  face D1 true = Some BReflect -> in_box I (k, j, is_ I) -> (0 <= n)%Z -> (is_ E <= is_ I - 1 - n)%Z ->
  let m' := ApplyBoundaryConditions cf I ndim face ord m in
  m' (l, (k, j, is_ I - 1 - n)%Z) = (if match vcomp cf l with Some D1 => true | _ => false end then - 1 else 1) * m (l, (k, j, is_ I + n)%Z).
Proof.
  intros cf I E ndim face ord nvar m l k j n X A Hc Ho L Hf Hi Hn He m'. pose proof X as (F & _).
  pose proof (F D1) as F1. pose proof (F D2) as F2. pose proof (F D3) as F3. cbn in F1, F2, F3. cbn in Hi.
  destruct (C33_ghost_zones cf I E ndim face ord nvar m l (k, j, is_ I - 1 - n)%Z X A Ho ltac:(congruence) L) as (c0 & s & _ & Sup & _ & _ & (s1 & s2 & s3 & -> & Hs) & V).
  { cbn. lia. }
  unfold m'. rewrite V, Hc.
  assert (Ec : c0 = (k, j, is_ I + n)%Z).
  { destruct c0 as [[k0 j0] i0]. pose proof (Sup D1) as S1. pose proof (Sup D2) as S2. pose proof (Sup D3) as S3. unfold supplies in S1, S2, S3. cbn [coord lo hi] in S1, S2, S3.
    rewrite Hf in S1. assert (i0 = is_ I + n)%Z by lia. assert (j0 = j) by lia. assert (k0 = k) by lia. subst. reflexivity. }
  rewrite Ec.
  assert (H2 : s2 = 1) by (apply (Hs D2 s2); [tauto|]; intros [[_ [[K _]|[K _]]]|[_ [[K _]|[K _]]]]; cbn in K; lia).
  assert (H3 : s3 = 1) by (apply (Hs D3 s3); [tauto|]; intros [[_ [[K _]|[K _]]]|[_ [[K _]|[K _]]]]; cbn in K; lia).
  assert (H1 : s1 = if match vcomp cf l with Some D1 => true | _ => false end then -1 else 1).
  { destruct (Hs D1 s1 (or_introl eq_refl)) as [Y N]. destruct (vcomp cf l) as [[| |]|] eqn:Ev.
    - apply Y. left. split; [exact Ev|]. left. cbn. split; [lia|exact Hf].
    - apply N. intros [[K _]|[_ [[_ K]|[K _]]]]; [congruence|congruence|cbn in K; lia].
    - apply N. intros [[K _]|[_ [[_ K]|[K _]]]]; [congruence|congruence|cbn in K; lia].
    - apply N. intros [[K _]|[_ [[_ K]|[K _]]]]; [congruence|congruence|cbn in K; lia]. }
  rewrite H1, H2, H3. ring.
Qed.
Print Assumptions C33_wall.

(** *** the inflow check at the outer x1 boundary *)
Lemma s33_dot (G : mat) (a : vec) : s33 (fun i j => G i j * a i * a j) = dot3 G a a.
Proof. unfold s33, dot3, sum3. num_R. lra. Qed.
Lemma lorentz_R (q : vec) (G : mat) : lorentz q G = GetLorentzFactor q G.
Proof. unfold lorentz, GetLorentzFactor. change (fun i j => (G i j * q i * q j)%num) with (fun i j => G i j * q i * q j). rewrite s33_dot. num_R. reflexivity. Qed.
(** where the gas flows out nothing changes; where it would flow in, u^1 becomes zero and the
    tangential velocities stay, provided the speed left is below that of light *)
Theorem C33_no_inflow : forall alpha beta gamma g (q : vec), three_plus_one alpha beta gamma g ->
  let q' := ox1_velocity q gamma alpha beta in
  let W := GetLorentzFactor q gamma in
  let v : vec := fun i => match i with O => beta 0%nat / alpha | _ => q i / W end in
  (0 <= GetFourVelocity q gamma alpha beta 1%nat -> q' = q) /\
  (GetFourVelocity q gamma alpha beta 1%nat < 0 -> dot3 gamma v v < 1 ->
     GetFourVelocity q' gamma alpha beta 1%nat = 0 /\
     forall i, (1 <= i < 3)%nat -> q' i / GetLorentzFactor q' gamma = q i / W).
Proof.
  intros alpha beta gamma g q T q' W v. pose proof (tpo_lapse _ _ _ _ T) as ap.
  pose proof (u0_val _ _ _ _ q T) as U0.
  assert (U1 : GetFourVelocity q gamma alpha beta 1%nat = q 0%nat - W * beta 0%nat / alpha).
  { change (GetFourVelocity q gamma alpha beta 1%nat) with (q 0%nat - GetFourVelocity q gamma alpha beta 0%nat * beta 0%nat). rewrite U0. fold W. field. lra. }
  assert (D : q' = if Rlt_bool (q 0%nat - W * beta 0%nat / alpha) 0 then (fun ii => 1 / sqrt (1 - dot3 gamma v v) * v ii) else q).
  { unfold q', ox1_velocity. rewrite lorentz_R. fold W.
    change (s33 (fun i j => (gamma i j * (match i with O => beta 0%nat / alpha | _ => q i / W end) * (match j with O => beta 0%nat / alpha | _ => q j / W end))%num))
      with (s33 (fun i j => gamma i j * v i * v j)). rewrite s33_dot. num_R. replace (1 / 1) with 1 by field. unfold v. reflexivity. }
  split.
  - intros P. rewrite D. rewrite Rlt_bool_false by lra. reflexivity.
  - intros P V. rewrite Rlt_bool_true in D by lra.
    set (W' := 1 / sqrt (1 - dot3 gamma v v)) in *.
    assert (Q : 0 < sqrt (1 - dot3 gamma v v)) by (apply sqrt_lt_R0; lra).
    assert (Q2 : sqrt (1 - dot3 gamma v v) * sqrt (1 - dot3 gamma v v) = 1 - dot3 gamma v v) by (apply sqrt_sqrt; lra).
    assert (Wp : 0 < W') by (unfold W'; apply Rdiv_lt_0_compat; lra).
    assert (Sq : W' * W' * (1 - dot3 gamma v v) = 1) by (rewrite <- Q2; unfold W'; field; lra).
    assert (L' : GetLorentzFactor q' gamma = W').
    { pose proof (lorentz_sq _ _ _ _ q' T) as E. pose proof (lorentz_ge1 _ _ _ _ q' T) as E1. rewrite D in E at 3 4.
      assert (E2 : dot3 gamma (fun ii => W' * v ii) (fun ii => W' * v ii) = W' * W' * dot3 gamma v v) by (unfold dot3, sum3; ring).
      rewrite E2 in E. assert (E3 : (GetLorentzFactor q' gamma - W') * (GetLorentzFactor q' gamma + W') = 0) by nra.
      apply Rmult_integral in E3. lra. }
    split.
    + change (GetFourVelocity q' gamma alpha beta 1%nat) with (q' 0%nat - GetFourVelocity q' gamma alpha beta 0%nat * beta 0%nat).
      rewrite (u0_val _ _ _ _ q' T), L', D. unfold v. field. lra.
    + intros i Hi. rewrite L', D. destruct i as [|i]; [lia|]. unfold v. field.
      pose proof (lorentz_ge1 _ _ _ _ q T). fold W in H. lra.
Qed.
Print Assumptions C33_no_inflow.

(** With fast tangential motion the speed left exceeds that of light and the velocity stored
    is NaN: unit spatial metric, lapse 1, shift 1/2, primitive velocity (0, 2, 0). *)
Definition b64n (z : Z) : B64 := b64_of_Z z.
Theorem C33_no_inflow_refuted :
  let gamma i j := if Nat.eqb i j then b64n 1 else b64n 0 in
  let beta i := match i with O => nlit 1 2 | _ => b64n 0 end in
  let q i := match i with 1%nat => b64n 2 | _ => b64n 0 end in
  is_nan (ox1_velocity q gamma (b64n 1) beta 0%nat) = true /\ is_nan (ox1_velocity q gamma (b64n 1) beta 1%nat) = true.
Proof. vm_compute. split; reflexivity. Qed.
Print Assumptions C33_no_inflow_refuted.

(** radiation: the contravariant normal component becomes non-negative; where it was
    negative the norm ends up at most 99/100; elsewhere nothing changes *)
Theorem C33_radiation_inflow : forall (qH : vec) (gamma gi : mat), symmetric3 gamma -> positive_definite3 gamma -> inverse3 gamma gi ->
  let q' := ox1_flux qH gamma gi in
  let raised (a : vec) : vec := fun i => sum3 (fun j => gi i j * a j) in
  0 <= raised q' 0%nat /\ (0 <= raised qH 0%nat -> q' = qH) /\
  (raised qH 0%nat < 0 -> raised q' 0%nat = 0 /\ dot3 gamma (raised q') (raised q') <= (99 / 100) * (99 / 100)).
Proof.
  intros qH gamma gi Sy Pd Inv q' raised.
  assert (RL : forall (a : vec) i, (i < 3)%nat -> raised (fun i => lower3 gamma a i) i = a i).
  { intros a i Hi. unfold raised, lower3. transitivity (sum3 (fun k => mul3 gi gamma i k * a k)); [unfold mul3, sum3; ring|].
    unfold sum3. rewrite !(inverse3_r _ _ Inv) by lia. unfold delta. idx; cbn; ring. }
  set (h0 := raised qH). set (h1 := fun ii => match ii with O => 0 | _ => h0 ii end : R).
  set (xi := sqrt (dot3 gamma h1 h1)).
  set (h2 := if Rlt_bool (99 / 100) xi then (fun ii => h1 ii * (99 / 100 / xi)) else h1).
  assert (E3 : forall f : nat -> R, s3 f = sum3 f) by (intros f; unfold s3, sum3; num_R; lra).
  assert (L0 : nlit 0 1 = 0 :> R) by (num_R; lra).
  assert (L99 : nlit 99 100 = 99 / 100 :> R) by (num_R; lra).
  assert (S3 : @s3 R _ = sum3) by (apply functional_extensionality; exact E3).
  assert (Hx : 0 <= dot3 gamma h1 h1).
  { destruct (Req_dec (h1 0%nat) 0) as [Z0|Z0]; [destruct (Req_dec (h1 1%nat) 0) as [Z1|Z1]; [destruct (Req_dec (h1 2%nat) 0) as [Z2|Z2]|]|].
    - unfold dot3, sum3. rewrite Z0, Z1, Z2. lra.
    - left. apply Pd. exists 2%nat. split; [lia|exact Z2].
    - left. apply Pd. exists 1%nat. split; [lia|exact Z1].
    - left. apply Pd. exists 0%nat. split; [lia|exact Z0]. }
  assert (D : forall ii, q' ii = if Rlt_bool (h0 0%nat) 0 then lower3 gamma h2 ii else qH ii).
  { intros ii. unfold q', ox1_flux. rewrite S3. rewrite L0, L99.
    change (sum3 (fun jj => (gi 0%nat jj * qH jj)%num)) with (h0 0%nat).
    change (nlt (h0 0%nat) 0) with (Rlt_bool (h0 0%nat) 0). destruct (Rlt_bool (h0 0%nat) 0); [|reflexivity].
    assert (K : s33 (fun i j => (gamma i j * h1 i * h1 j)%num) = dot3 gamma h1 h1) by (rewrite <- s33_dot; reflexivity).
    assert (K2 : nsqrt (s33 (fun i j => (gamma i j * h1 i * h1 j)%num)) = xi) by (rewrite K; reflexivity).
    unfold lower3, h2. rewrite <- K2. reflexivity. }
  assert (E : raised q' 0%nat = if Rlt_bool (h0 0%nat) 0 then h2 0%nat else h0 0%nat).
  { unfold raised at 1. unfold sum3. rewrite !D. destruct (Rlt_bool (h0 0%nat) 0); [|reflexivity]. exact (RL h2 0%nat ltac:(lia)). }
  assert (Z : h2 0%nat = 0) by (unfold h2; destruct (Rlt_bool (99 / 100) xi); unfold h1; lra).
  repeat apply conj.
  - rewrite E. destruct (Rlt_bool_spec (h0 0%nat) 0); lra.
  - intros P. apply functional_extensionality; intros ii. rewrite D. rewrite Rlt_bool_false; [reflexivity|exact P].
  - intros P. rewrite E. assert (B : Rlt_bool (h0 0%nat) 0 = true) by (apply Rlt_bool_true; exact P). rewrite B. split; [exact Z|].
    assert (X : dot3 gamma (raised q') (raised q') = dot3 gamma h2 h2).
    { assert (G : forall i, (i < 3)%nat -> raised q' i = h2 i).
      { intros i Hi. unfold raised, sum3. rewrite !D, B. exact (RL h2 i Hi). }
      unfold dot3, sum3. rewrite !G by lia. reflexivity. }
    rewrite X. assert (Sq : xi * xi = dot3 gamma h1 h1) by (apply sqrt_sqrt; exact Hx).
    assert (Xp : 0 <= xi) by apply sqrt_pos.
    unfold h2. destruct (Rlt_bool_spec (99 / 100) xi) as [Hl|Hl].
    + replace (dot3 gamma (fun ii => h1 ii * (99 / 100 / xi)) (fun ii => h1 ii * (99 / 100 / xi))) with (dot3 gamma h1 h1 * (99 / 100 / xi) * (99 / 100 / xi)) by (unfold dot3, sum3; ring).
      rewrite <- Sq. right. field. lra.
    + rewrite <- Sq. nra.
Qed.
Print Assumptions C33_radiation_inflow.

(** The polar condition looks only for component 1 of the velocity and of the magnetic field
    (the components with [polar_odd]): any other vector, such as the radiation flux H, keeps
    the sign of its x2 component across the axis. *)
Theorem C33_polar_radiation_refuted : forall cf I E ndim face ord nvar (m : BMem) l k i n,
  block_extent ndim I E -> accepted cf face ->
  (forall d inner, bnd_order nvar (ghost_box I E d inner) (ord d inner)) -> (l < nvar)%nat ->
  face D2 true = Some BPolar -> vcomp cf l = Some D2 -> polar_odd cf l = false ->
  in_box I (k, js I, i) -> (0 <= n)%Z -> (js E <= js I - 1 - n)%Z -> 0 < m (l, (k, js I + n, i)%Z) ->
  0 < ApplyBoundaryConditions cf I ndim face ord m (l, (k, js I - 1 - n, i)%Z).
Proof.
  intros cf I E ndim face ord nvar m l k i n X A Ho L Hf Hv Hodd Hi Hn He P. pose proof X as (F & _).
  pose proof (F D1) as F1. pose proof (F D2) as F2. pose proof (F D3) as F3. cbn in F1, F2, F3. cbn in Hi.
  destruct (A D2 true Hf) as [_ Hc].
  destruct (C33_ghost_zones cf I E ndim face ord nvar m l (k, js I - 1 - n, i)%Z X A Ho ltac:(congruence) L) as (c0 & s & _ & Sup & _ & _ & (s1 & s2 & s3 & -> & Hs) & V).
  { cbn. lia. }
  rewrite V, Hc.
  assert (Ec : c0 = (k, js I + n, i)%Z).
  { destruct c0 as [[k0 j0] i0]. pose proof (Sup D1) as S1. pose proof (Sup D2) as S2. pose proof (Sup D3) as S3. unfold supplies in S1, S2, S3. cbn [coord lo hi] in S1, S2, S3.
    rewrite Hf in S2. assert (j0 = js I + n)%Z by lia. assert (i0 = i) by lia. assert (k0 = k) by lia. subst. reflexivity. }
  rewrite Ec.
  assert (H1 : s1 = 1) by (apply (Hs D1 s1); [tauto|]; intros [[K _]|[K _]]; congruence).
  assert (H3 : s3 = 1) by (apply (Hs D3 s3); [tauto|]; intros [[K _]|[K _]]; congruence).
  assert (H2 : s2 = 1).
  { apply (Hs D2 s2); [tauto|]. intros [[_ [[_ K]|[K _]]]|[K _]]; [congruence|cbn in K; lia|congruence]. }
  rewrite H1, H2, H3. lra.
Qed.
Print Assumptions C33_polar_radiation_refuted.

(** *** the hypotheses are met: a 2D block of 8 x 8 zones with two layers of ghost zones,
    outflow at large x1, a wall at small x1, the axis at both ends of x2; components 0 to 2 are the
    velocity, 3 the density, 4 to 6 the radiation flux *)
Definition bI : Box := {| ks := 0; ke := 0; js := 2; je := 9; is_ := 2; ie := 9 |}.
Definition bE : Box := {| ks := 0; ke := 0; js := 0; je := 11; is_ := 0; ie := 11 |}.
Definition b_conf (cons : bool) : BConf :=
  {| vcomp := fun l => match l with 0%nat | 4%nat => Some D1 | 1%nat | 5%nat => Some D2 | 2%nat | 6%nat => Some D3 | _ => None end;
     polar_odd := Nat.eqb 1; det := fun c => IZR (1 + coord D1 c); conserved := cons |}.
Definition b_face (d : Dir) (inner : bool) : option BKind :=
  match d, inner with D1, true => Some BReflect | D1, false => Some BOutflow | D2, _ => Some BPolar | D3, _ => None end.
Definition b_ord (d : Dir) (inner : bool) : list BLoc := list_prod (seq 0 7) (box_list (ghost_box bI bE d inner)).
Lemma b_bnd_order d inner : bnd_order 7 (ghost_box bI bE d inner) (b_ord d inner).
Proof.
  destruct (order_box_list (ghost_box bI bE d inner)) as [N M]. split.
  - apply nodup_prod; [apply seq_NoDup|exact N].
  - intros l c. unfold b_ord. rewrite in_prod_iff, in_seq, M. split; intros [K1 K2]; split; try exact K2; lia.
Qed.
Example C33_nonvacuous :
  block_extent 2 bI bE /\ accepted (b_conf false) b_face /\ (forall d inner, bnd_order 7 (ghost_box bI bE d inner) (b_ord d inner)) /\
  accepted (b_conf true) (fun d i => match d with D1 => Some BReflect | _ => None end) /\ (forall c, in_box bE c -> det (b_conf true) c <> 0) /\
  vcomp (b_conf false) 5 = Some D2 /\ polar_odd (b_conf false) 5 = false /\ in_box bI (0, 2, 5)%Z /\ (js bE <= js bI - 1 - 1)%Z.
Proof.
  split; [|split; [|split; [|split; [|split]]]].
  - split; [intros d; destruct d; cbn; lia|]. split; [|tauto]. intros d. destruct d; cbn; lia.
  - intros d inner. destruct d, inner; cbn; try discriminate; intros _; split; reflexivity.
  - apply b_bnd_order.
  - intros d inner. destruct d; discriminate.
  - intros [[k j] i] H. cbn in H. unfold det, b_conf, coord. apply not_0_IZR. lia.
  - cbn. repeat split; lia.
Qed.
Example C33_corner : forall m : BMem,
  ApplyBoundaryConditions (b_conf false) bI 2 b_face b_ord m (0%nat, (0, 1, 0)%Z) = - m (0%nat, (0, 2, 3)%Z).
Proof.
  intros m. destruct C33_nonvacuous as (X & A & O & _).
  destruct (C33_ghost_zones (b_conf false) bI bE 2 b_face b_ord 7 m 0%nat (0, 1, 0)%Z X A O ltac:(discriminate) ltac:(lia)) as (c0 & s & _ & Sup & _ & _ & (s1 & s2 & s3 & -> & Hs) & ->).
  { cbn. lia. }
  assert (Ec : c0 = (0, 2, 3)%Z).
  { destruct c0 as [[k0 j0] i0]. pose proof (Sup D1) as S1. pose proof (Sup D2) as S2. pose proof (Sup D3) as S3. unfold supplies in S1, S2, S3. cbn [coord lo hi b_face bI js je is_ ie ks ke] in S1, S2, S3.
    assert (j0 = 2)%Z by lia. assert (i0 = 3)%Z by lia. assert (k0 = 0)%Z by lia. subst. reflexivity. }
  rewrite Ec. cbn [conserved b_conf].
  assert (H1 : s1 = -1) by (apply (Hs D1 s1); [tauto|]; left; split; [reflexivity|]; left; split; [cbn; lia|reflexivity]).
  assert (H2 : s2 = 1) by (apply (Hs D2 s2); [tauto|]; intros [[K _]|[K _]]; discriminate).
  assert (H3 : s3 = 1) by (apply (Hs D3 s3); [tauto|]; intros [[K _]|[K _]]; discriminate).
  rewrite H1, H2, H3. ring.
Qed.
Example C33_inflow_nonvacuous : let q : vec := fun i => match i with O => -1 | _ => 0 end in
  three_plus_one 1 zero3 delta eta4 /\ GetFourVelocity q delta 1 zero3 1%nat < 0 /\
  dot3 delta (fun i => match i with O => zero3 0%nat / 1 | _ => q i / GetLorentzFactor q delta end) (fun i => match i with O => zero3 0%nat / 1 | _ => q i / GetLorentzFactor q delta end) < 1.
Proof.
  intros q. pose proof (adm_tpo _ _ _ _ _ _ _ _ eta4_consistent) as T. split; [exact T|].
  pose proof (u0_val _ _ _ _ q T) as U0. split.
  - change (GetFourVelocity q delta 1 zero3 1%nat) with (q 0%nat - GetFourVelocity q delta 1 zero3 0%nat * zero3 0%nat). unfold zero3, q. lra.
  - unfold dot3, sum3, delta, zero3, q. cbn. unfold Rdiv. lra.
Qed.
