(** C61: seeding tracers in a disk, and removing them inside the horizon. *)
From Coq Require Import Reals ZArith Lra Lia Bool List Psatz.
From Flocq Require Import Core BinarySingleNaN.
From Verif.Model Require Import Num TracerSeed.
From Verif.Spec Require Import Tensor SeedSpec.
From Verif.Proofs Require Import NumB64.
Import ListNotations.
Local Open Scope R_scope.

(** ** the volume of the disk over the mesh *)
(** with one block on every rank the volume is that of the whole mesh *)
Theorem C61_mesh_volume : forall (vols : list R), vols <> [] ->
  MeshTracerNumber (map (fun v => [v]) vols) = Some (Rsum vols).
Proof.
  intros vols Hv. unfold MeshTracerNumber.
  assert (L : fold_right (fun (r : list R) m => Nat.max (length r) m) O (map (fun v => [v]) vols) = 1%nat).
  { destruct vols as [|v q]; [congruence|]. clear Hv. cbn [map fold_right length].
    induction q as [|w q IH]; [reflexivity|]. cbn [map fold_right length]. lia. }
  rewrite L.
  assert (A : forallb (fun r : list R => match r with [] => true | _ => false end) (map (fun v => [v]) vols) = false).
  { destruct vols; [congruence|reflexivity]. }
  assert (B : forallb (fun r : list R => match r with [] => false | _ => true end) (map (fun v => [v]) vols) = true).
  { clear. induction vols; [reflexivity|exact IHvols]. }
  assert (C : forallb (fun r : list R => match r with [] => true | _ => false end) (map (@tl R) (map (fun v => [v]) vols)) = true).
  { clear. induction vols; [reflexivity|exact IHvols]. }
  cbn [mesh_loop]. rewrite A, B. rewrite C.
  rewrite map_map. cbn [hd]. rewrite map_id. reflexivity.
Qed.
Print Assumptions C61_mesh_volume.

(** with several blocks on a rank all but the last are forgotten: the volume of two blocks
    of a single rank is that of the second *)
Theorem C61_mesh_volume_refuted : forall v w : R,
  MeshTracerNumber [[v; w]] = Some w /\ (v <> 0 -> Rsum [v; w] <> w).
Proof.
  intros v w. split.
  - unfold MeshTracerNumber. cbn. f_equal. ring.
  - intros Hv. unfold Rsum. cbn. intros E. apply Hv. lra.
Qed.
Print Assumptions C61_mesh_volume_refuted.

(** ranks with different numbers of blocks wait for each other for ever *)
Theorem C61_unbalanced_refuted : forall a b c : R, MeshTracerNumber [[a; b]; [c]] = None.
Proof. intros. reflexivity. Qed.
Print Assumptions C61_unbalanced_refuted.

(** the volume a block counts is part of the volume the mesh counts, and equal to it when the
    disk lies outside the horizon *)
Theorem C61_block_volume : forall rin xh b,
  Forall (fun z => 0 <= tz_detgamma z * tz_vol z) b ->
  0 <= number_block rin xh b <= disk_vol rin b /\
  (Forall (fun z => rin < tz_r z -> xh < tz_x1 z) b -> number_block rin xh b = disk_vol rin b).
Proof.
  intros rin xh b Hb. unfold number_block, disk_vol. split.
  - induction Hb as [|z b Hz Hb IH]; cbn [fold_right]; [lra|].
    destruct (Rlt_bool 0 (zone_lnh rin z)); cbn [andb]; [destruct (Rlt_bool xh (tz_x1 z))|]; lra.
  - intros Ho. clear Hb. induction Ho as [|z b Hz Hb IH]; cbn [fold_right]; [reflexivity|]. rewrite IH.
    unfold zone_lnh. destruct (Rlt_bool_spec rin (tz_r z)) as [L|L].
    + rewrite (Rlt_bool_true xh) by (apply Hz; exact L). rewrite andb_true_r. reflexivity.
    + rewrite (Rlt_bool_false 0) by lra. reflexivity.
Qed.
Print Assumptions C61_block_volume.

(** ** numbers *)
Lemma std_round_nearest x : nearest (std_round x) x.
Proof.
  unfold nearest, std_round. destruct (Rle_bool_spec 0 x) as [H|H].
  - pose proof (Zfloor_lb (x + / 2)). pose proof (Zfloor_ub (x + / 2)). apply Rabs_le. lra.
  - pose proof (Zfloor_lb (- x + / 2)). pose proof (Zfloor_ub (- x + / 2)). rewrite opp_IZR. apply Rabs_le. lra.
Qed.
Theorem C61_share : forall total nblock nmesh, nearest (num_tracers total nblock nmesh) (share total nblock nmesh).
Proof. intros. unfold num_tracers, share. apply std_round_nearest. Qed.
Print Assumptions C61_share.

Definition counts (total : Z) (vols : list R) (all : R) : list Z := map (fun v => num_tracers total v all) vols.
Definition Zsum (l : list Z) : Z := fold_right Z.add 0%Z l.
Lemma counts_sum total vols all :
  Rabs (IZR (Zsum (counts total vols all)) - IZR total * Rsum vols / all) <= INR (length vols) / 2.
Proof.
  induction vols as [|v q IH].
  - cbn. replace (0 - IZR total * 0 / all) with 0 by (unfold Rdiv; ring). rewrite Rabs_R0. lra.
  - cbn [counts map Zsum fold_right Rsum length]. rewrite plus_IZR, S_INR.
    change (fold_right Z.add 0%Z (map (fun v0 => num_tracers total v0 all) q)) with (Zsum (counts total q all)).
    change (fold_right Rplus 0 q) with (Rsum q).
    pose proof (C61_share total v all) as N. unfold nearest, share in N.
    replace (IZR (num_tracers total v all) + IZR (Zsum (counts total q all)) - IZR total * (v + Rsum q) / all)
      with ((IZR (num_tracers total v all) - IZR total * v / all)
            + (IZR (Zsum (counts total q all)) - IZR total * Rsum q / all)) by (unfold Rdiv; ring).
    eapply Rle_trans; [apply Rabs_triang|]. lra.
Qed.

(** one block per rank: the seeded number differs from the request by at most half a tracer
    per block *)
Theorem C61_total : forall total vols all,
  vols <> [] -> MeshTracerNumber (map (fun v => [v]) vols) = Some all -> all <> 0 ->
  Rabs (IZR (Zsum (counts total vols all)) - IZR total) <= INR (length vols) / 2.
Proof.
  intros total vols all Hv E Ha. rewrite (C61_mesh_volume vols Hv) in E. injection E as E.
  pose proof (counts_sum total vols all) as H.
  replace (IZR total * Rsum vols / all) with (IZR total) in H; [exact H|].
  rewrite E. field. exact Ha.
Qed.
Print Assumptions C61_total.

Lemma std_round_le x z : x <= IZR z -> (std_round x <= z)%Z.
Proof.
  intros H. pose proof (std_round_nearest x) as N. unfold nearest in N. apply Rabs_le_inv in N.
  destruct (Rle_bool_spec 0 x) as [P|P].
  - unfold std_round. rewrite Rle_bool_true by exact P.
    assert (Zfloor (x + / 2) < z + 1)%Z; [|lia].
    apply lt_IZR. rewrite plus_IZR. pose proof (Zfloor_lb (x + / 2)). lra.
  - assert (std_round x < z + 1)%Z; [|lia]. apply lt_IZR. rewrite plus_IZR. lra.
Qed.

(** two equal blocks on one rank: twice the requested number; a last block without disk:
    division by zero *)
Theorem C61_total_refuted : forall (total : Z) (v : R), (0 <= total)%Z -> 0 < v ->
  exists all, MeshTracerNumber [[v; v]] = Some all /\ Zsum (counts total [v; v] all) = (2 * total)%Z /\
  MeshTracerNumber [[v; 0]] = Some 0.
Proof.
  intros total v Ht Hv. exists v. destruct (C61_mesh_volume_refuted v v) as [E _].
  split; [exact E|]. split; [|apply (C61_mesh_volume_refuted v 0)].
  cbn [counts map Zsum fold_right]. 
  assert (N : num_tracers total v v = total).
  { unfold num_tracers. replace (IZR total * v / v) with (IZR total) by (field; lra).
    unfold std_round. rewrite Rle_bool_true by (apply IZR_le; exact Ht). apply Zfloor_imp. rewrite plus_IZR. lra. }
  rewrite N. lia.
Qed.
Print Assumptions C61_total_refuted.

(** ** names *)
Lemma nth_le_Rsum vols g : Forall (fun v => 0 <= v) vols -> nth g vols 0 <= Rsum vols.
Proof.
  revert g. induction vols as [|v q IH]; intros g H.
  - destruct g; cbn; lra.
  - inversion H as [|? ? Hv Hq]; subst. assert (0 <= Rsum q).
    { clear - Hq. induction Hq; cbn; [lra|]. change (fold_right Rplus 0 l) with (Rsum l). lra. }
    destruct g; cbn [nth]; change (Rsum (v :: q)) with (v + Rsum q); [lra|]. pose proof (IH g Hq). lra.
Qed.
(** one block per rank: names are unique over the mesh *)
Theorem C61_ids : forall total vols all,
  (0 <= total)%Z -> vols <> [] -> Forall (fun v => 0 <= v) vols ->
  MeshTracerNumber (map (fun v => [v]) vols) = Some all -> 0 < all ->
  distinct_ids (length vols) (fun g => num_tracers total (nth g vols 0) all)
    (fun g n => tracer_id total (Z.of_nat g) n).
Proof.
  intros total vols all Ht Hne Hv E Ha g h n m Hg Hh Hn Hm I.
  rewrite (C61_mesh_volume vols Hne) in E. injection E as E.
  assert (B : forall k, (num_tracers total (nth k vols 0%R) all <= total)%Z).
  { intros k. unfold num_tracers. apply std_round_le.
    pose proof (nth_le_Rsum vols k Hv) as N. rewrite E in N.
    assert (0 <= IZR total) by (apply IZR_le; exact Ht).
    apply Rmult_le_reg_r with all; [exact Ha|]. unfold Rdiv. rewrite Rmult_assoc, Rinv_l by lra.
    rewrite Rmult_1_r. apply Rmult_le_compat_l; assumption. }
  pose proof (B g). pose proof (B h). unfold tracer_id in I.
  assert (Z.of_nat g = Z.of_nat h /\ n = m) as [G N]; [|split; [lia|exact N]].
  assert (T : (0 < total)%Z) by lia.
  assert (Dg : ((total * Z.of_nat g + n) / total = Z.of_nat g)%Z).
  { replace (total * Z.of_nat g + n)%Z with (n + Z.of_nat g * total)%Z by ring. rewrite Z.div_add by lia.
    rewrite Z.div_small by lia. lia. }
  assert (Dh : ((total * Z.of_nat h + m) / total = Z.of_nat h)%Z).
  { replace (total * Z.of_nat h + m)%Z with (m + Z.of_nat h * total)%Z by ring. rewrite Z.div_add by lia.
    rewrite Z.div_small by lia. lia. }
  rewrite I, Dh in Dg. split; [congruence|]. rewrite Dg in I. lia.
Qed.
Print Assumptions C61_ids.

(** a rank with a large and a small block hands out the same name twice *)
Theorem C61_ids_refuted : forall total, (1 <= total)%Z ->
  exists vols all, MeshTracerNumber [vols] = Some all /\ 0 < all /\ Forall (fun v => 0 < v) vols /\
  ~ distinct_ids (length vols) (fun g => num_tracers total (nth g vols 0) all)
      (fun g n => tracer_id total (Z.of_nat g) n).
Proof.
  intros total Ht. exists [2; 1], 1. split; [apply C61_mesh_volume_refuted|]. split; [lra|].
  split; [repeat constructor; lra|]. intros D.
  assert (N : forall k v, num_tracers k v 1 = std_round (IZR k * v)) by (intros; unfold num_tracers; f_equal; field).
  assert (R0 : forall k, (0 <= k)%Z -> std_round (IZR k) = k).
  { intros k Hk. unfold std_round. rewrite Rle_bool_true by (apply IZR_le; exact Hk). apply Zfloor_imp. rewrite plus_IZR. lra. }
  assert (A0 : num_tracers total 2 1 = (2 * total)%Z).
  { rewrite N, <- (R0 (2 * total)%Z) by lia. f_equal. rewrite mult_IZR. ring. }
  assert (A1 : num_tracers total 1 1 = total).
  { rewrite N. transitivity (std_round (IZR total)); [f_equal; ring|apply R0; lia]. }
  assert (Q : 0%nat = 1%nat /\ total = 0%Z); [|destruct Q as [Q _]; discriminate Q].
  apply (D 0%nat 1%nat total 0%Z); cbn [length]; [lia|lia| | |unfold tracer_id; lia].
  - change (nth 0 [2; 1] 0) with 2. rewrite A0. lia.
  - change (nth 1 [2; 1] 0) with 1. rewrite A1. lia.
Qed.
Print Assumptions C61_ids_refuted.

(** ** positions *)
(** an accepted tracer lies in its block and in the disk *)
Theorem C61_placement : forall fuel rin x_min x_max y_min y_max radius lnh_at draws x y,
  x_min <= x_max -> y_min <= y_max ->
  (forall n, 0 <= fst (draws n) < 1 /\ 0 <= snd (draws n) < 1) ->
  DistributeTracer fuel rin x_min x_max y_min y_max radius lnh_at draws = Some (x, y) ->
  x_min <= x <= x_max /\ y_min <= y <= y_max /\ rin < radius x /\ 0 <= lnh_at x y.
Proof.
  intros fuel rin x_min x_max y_min y_max radius lnh_at draws x y Hx Hy. unfold DistributeTracer.
  assert (G : forall fuel draws lnh p,
    (forall n, 0 <= fst (draws n) < 1 /\ 0 <= snd (draws n) < 1) ->
    (lnh < 0 \/ (x_min <= fst p <= x_max /\ y_min <= snd p <= y_max /\ rin < radius (fst p) /\ 0 <= lnh_at (fst p) (snd p))) ->
    sample fuel rin x_min x_max y_min y_max radius lnh_at draws lnh p = Some (x, y) ->
    x_min <= x <= x_max /\ y_min <= y <= y_max /\ rin < radius x /\ 0 <= lnh_at x y).
  { clear draws fuel. induction fuel as [|k IH]; intros draws lnh p Hd Hp E; cbn [sample] in E.
    - destruct (Rlt_bool_spec lnh 0) as [L|L]; [discriminate E|].
      injection E as E. subst p. destruct Hp as [Hp|Hp]; [lra|exact Hp].
    - destruct (Rlt_bool_spec lnh 0) as [L|L].
      + cbv zeta in E. refine (IH _ _ _ _ _ E); [intros n; apply (Hd (S n))|].
        destruct (Hd O) as [[U0 U1] [V0 V1]]. unfold place. cbn [fst snd].
        destruct (Rlt_bool_spec rin (radius (x_min + fst (draws 0%nat) * (x_max - x_min)))) as [Q|Q]; [|left; exact L].
        set (px := x_min + fst (draws 0%nat) * (x_max - x_min)) in *. set (py := y_min + snd (draws 0%nat) * (y_max - y_min)) in *.
        destruct (Rlt_or_le (lnh_at px py) 0) as [W|W]; [left; exact W|right].
        split; [unfold px; nra|]. split; [unfold py; nra|]. split; assumption.
      + injection E as E. subst p. destruct Hp as [Hp|Hp]; [lra|exact Hp]. }
  intros Hd E. apply (G fuel draws (-1) (0, 0) Hd); [left; lra|exact E].
Qed.
Print Assumptions C61_placement.

(** ** masses *)
Lemma carried_sum (cm : zone -> R) (k : zone -> nat) after c :
  carried zone_eq_dec (combine after (map (fun z => cm z / INR (k z)) after)) c
  = INR (count_at after c) * (cm c / INR (k c)).
Proof.
  unfold count_at. induction after as [|z q IH]; [cbn; ring|].
  cbn [map combine carried fold_right fst snd count_occ].
  change (fold_right _ 0 (combine q (map (fun z0 => cm z0 / INR (k z0)) q))) with
    (carried zone_eq_dec (combine q (map (fun z0 => cm z0 / INR (k z0)) q)) c).
  rewrite IH. destruct (zone_eq_dec z c) as [->|N]; [rewrite S_INR; ring|ring].
Qed.
(** were the particles counted where they end up, the tracers of a zone would carry its mass *)
Theorem C61_mass_if_counted : forall before after detgamma rho vol c,
  (forall z, count_at before z = count_at after z) -> In c after ->
  carried zone_eq_dec (combine after (SeedMasses before after detgamma rho vol)) c = detgamma c * rho c * vol c.
Proof.
  intros before after dg rho vol c Hc Hin. unfold SeedMasses.
  rewrite (carried_sum (fun z => dg z * rho z * vol z) (count_at before)). rewrite Hc.
  assert (Np : INR (count_at after c) <> 0).
  { apply not_0_INR. unfold count_at. apply (count_occ_In zone_eq_dec) in Hin. lia. }
  field. exact Np.
Qed.
Print Assumptions C61_mass_if_counted.

(** but they are counted before they are placed, when all sit where the pool put them: the
    zone p of the pool carries only its fraction of the mass, and any other zone's count is
    zero, an infinite mass *)
Theorem C61_mass_refuted : forall (p c : zone) detgamma rho vol, p <> c ->
  let before := [p; p] in let after := [p; c] in
  carried zone_eq_dec (combine after (SeedMasses before after detgamma rho vol)) p
    = detgamma p * rho p * vol p / 2 /\
  count_at before c = 0%nat.
Proof.
  intros p c dg rho vol N before after. unfold SeedMasses. split.
  - rewrite (carried_sum (fun z => dg z * rho z * vol z) (count_at before)).
    unfold count_at, before, after. cbn [count_occ].
    destruct (zone_eq_dec p p) as [_|Q]; [|congruence].
    destruct (zone_eq_dec c p) as [Q|_]; [congruence|]. cbn [INR]. field.
  - unfold count_at, before. cbn [count_occ]. destruct (zone_eq_dec p c); [congruence|reflexivity].
Qed.
Print Assumptions C61_mass_refuted.
Theorem C61_mass_infinite_refuted : forall m : B64, is_finite m = true -> 0 < B2R m ->
  ndiv m (b64_of_Z 0) = B754_infinity false.
Proof.
  intros m F P. assert (Z0 : b64_of_Z 0 = B754_zero false) by (apply B2SF_inj; vm_compute; reflexivity).
  rewrite Z0. destruct m as [s|s| |s mm e B]; try discriminate F; cbn in P; [lra|].
  destruct s; [|reflexivity]. exfalso.
  assert (F2R (Float radix2 (Z.neg mm) e) < 0) by (apply F2R_lt_0; reflexivity). cbn in *. lra.
Qed.
Print Assumptions C61_mass_infinite_refuted.

(** ** the horizon *)
Lemma max_active_spec p : forall n acc, (acc < Z.of_nat n)%Z ->
  let m := max_active p n acc in
  (acc <= m < Z.of_nat (n + length p))%Z /\
  (forall k, (k < length p)%nat -> fst (nth k p (false, 0)) = true -> (Z.of_nat (n + k) <= m)%Z).
Proof.
  induction p as [|s q IH]; intros n acc Ha; cbn [max_active length].
  - split; [lia|]. intros k Hk. lia.
  - destruct (IH (S n) (if fst s then Z.of_nat n else acc)) as [I1 I2]; [destruct (fst s); lia|].
    split; [destruct (fst s); lia|].
    intros [|k] Hk Hs; cbn [nth] in Hs.
    + rewrite Hs in I1 |- *. lia.
    + pose proof (I2 k ltac:(lia) Hs). replace (n + S k)%nat with (S n + k)%nat by lia. assumption.
Qed.
Lemma purge_nth p : forall n last xh k, (k < length p)%nat ->
  nth k (purge_from p n last xh) (false, 0)
  = ((if (Z.leb (Z.of_nat (n + k)) (last - 1) && fst (nth k p (false, 0)) && Rle_bool (snd (nth k p (false, 0))) xh)%bool
      then false else fst (nth k p (false, 0))), snd (nth k p (false, 0))).
Proof.
  induction p as [|[a x] q IH]; intros n last xh k Hk; [cbn in Hk; lia|].
  destruct k as [|k]; cbn [purge_from nth fst snd].
  - rewrite Nat.add_0_r. reflexivity.
  - rewrite IH by (cbn in Hk; lia). replace (n + S k)%nat with (S n + k)%nat by lia. reflexivity.
Qed.
Lemma purge_length p : forall n last xh, length (purge_from p n last xh) = length p.
Proof. induction p as [|[a x] q IH]; intros; cbn; [reflexivity|]. rewrite IH. reflexivity. Qed.
Lemma inside_ln Rh x : 0 < Rh -> (inside Rh x <-> x <= ln Rh).
Proof.
  intros H. unfold inside. split; intros I.
  - rewrite <- (ln_exp x). destruct I as [I|I]; [left; apply ln_increasing; [apply exp_pos|exact I]|rewrite I; lra].
  - rewrite <- (exp_ln Rh H). destruct I as [I|I]; [left; apply exp_increasing, I|rewrite I; lra].
Qed.

Definition is_active (p : list slot) (k : nat) : Prop := fst (nth k p (false, 0)) = true.
Definition pos_of (p : list slot) (k : nat) : R := snd (nth k p (false, 0)).

(** no slot is created or moved, nothing outside the horizon is removed, and everything
    inside it is, except possibly the last active particle of the block *)
Theorem C61_purge : forall Rh p k, 0 < Rh -> (k < length p)%nat ->
  pos_of (PurgeParticles Rh p) k = pos_of p k /\
  (is_active (PurgeParticles Rh p) k -> is_active p k) /\
  (is_active p k -> ~ inside Rh (pos_of p k) -> is_active (PurgeParticles Rh p) k) /\
  (is_active p k -> inside Rh (pos_of p k) -> (exists j, (k < j < length p)%nat /\ is_active p j) ->
   ~ is_active (PurgeParticles Rh p) k).
Proof.
  intros Rh p k Hr Hk. unfold is_active, pos_of, PurgeParticles. rewrite purge_nth by exact Hk. cbn [fst snd].
  rewrite Nat.add_0_l. rewrite (inside_ln Rh) by exact Hr.
  destruct (max_active_spec p 0 (-1) ltac:(lia)) as [_ M]. unfold GetMaxActiveIndex.
  set (a := fst (nth k p (false, 0))). set (x := snd (nth k p (false, 0))).
  split; [reflexivity|]. split; [|split].
  - destruct (_ && _ && _)%bool; [discriminate|tauto].
  - intros Ha Hx. rewrite Rle_bool_false by lra. rewrite andb_false_r. exact Ha.
  - intros Ha Hx (j & Hj & Hja). pose proof (M j ltac:(lia) Hja) as Mj. cbn [Nat.add] in Mj.
    rewrite Ha, Rle_bool_true by exact Hx. rewrite (proj2 (Z.leb_le _ _)) by lia. cbn. discriminate.
Qed.
Print Assumptions C61_purge.

(** the last particle is never examined: a block whose only tracer, or whose last tracer, is
    inside the horizon keeps it for ever *)
Theorem C61_purge_refuted : forall Rh p k n,
  (k < length p)%nat -> is_active p k -> (forall j, (k < j)%nat -> ~ is_active p j) ->
  is_active (Nat.iter n (PurgeParticles Rh) p) k.
Proof.
  intros Rh p k n Hk Ha Hlast.
  assert (G : length (Nat.iter n (PurgeParticles Rh) p) = length p /\
    is_active (Nat.iter n (PurgeParticles Rh) p) k /\
    forall j, (k < j)%nat -> ~ is_active (Nat.iter n (PurgeParticles Rh) p) j).
  { induction n as [|n (L & A & Z)]; [split; [reflexivity|split; assumption]|].
    change (Nat.iter (S n) (PurgeParticles Rh) p) with (PurgeParticles Rh (Nat.iter n (PurgeParticles Rh) p)).
    set (q := Nat.iter n (PurgeParticles Rh) p) in *. clearbody q.
    assert (Lq : length (PurgeParticles Rh q) = length q) by apply purge_length.
    assert (Ub : (GetMaxActiveIndex q <= Z.of_nat k)%Z).
    { unfold GetMaxActiveIndex. clear - Z A.
      assert (H : forall (r : list slot) n0 acc, (acc <= Z.of_nat k)%Z ->
        (forall j, (j < length r)%nat -> fst (nth j r (false, 0)) = true -> (n0 + j <= k)%nat) ->
        (max_active r n0 acc <= Z.of_nat k)%Z).
      { induction r as [|s r IH]; intros n0 acc H0 H1; cbn [max_active]; [exact H0|].
        apply IH.
        - destruct (fst s) eqn:F; [|exact H0]. pose proof (H1 0%nat ltac:(cbn; lia) F). lia.
        - intros j Hj F. pose proof (H1 (S j) ltac:(cbn; lia) F). lia. }
      apply H; [lia|]. intros j Hj F. destruct (Nat.le_gt_cases j k) as [?|Q]; [lia|]. exfalso. exact (Z j Q F). }
    split; [congruence|]. split.
    - unfold is_active, PurgeParticles in *. rewrite purge_nth by lia. cbn [fst].
      rewrite (proj2 (Z.leb_gt _ _)) by (cbn [Nat.add]; lia). cbn. exact A.
    - intros j Hj Hq. destruct (Nat.lt_ge_cases j (length q)) as [Q|Q].
      + unfold is_active, PurgeParticles in Hq. rewrite purge_nth in Hq by exact Q. cbn [fst] in Hq.
        destruct (_ && _ && _)%bool; [discriminate Hq|]. exact (Z j Hj Hq).
      + unfold is_active in Hq. rewrite nth_overflow in Hq by lia. discriminate Hq. }
  exact (proj1 (proj2 G)).
Qed.
Print Assumptions C61_purge_refuted.

(** ** the advection problem *)
(** volume of the zones of the block whose centre is closer to the origin than rin *)
Definition covered (rin : R) (b : list AZone) : R :=
  fold_right Rplus 0 (map (fun z => az_dx z 0%nat * az_dx z 1%nat * az_dx z 2%nat)
    (filter (fun z => Rlt_bool (sqrt (az_x z 0%nat ^ 2 + az_x z 1%nat ^ 2 + az_x z 2%nat ^ 2)) rin) b)).
Lemma covered_ball rin b : 0 < rin -> ball_volume rin b = covered rin b.
Proof.
  intros P. induction b as [|z b IH]; [reflexivity|]. unfold ball_volume, covered. cbn [fold_right filter]. fold (ball_volume rin b). rewrite IH. unfold covered.
  set (x := az_x z 0%nat). set (y := az_x z 1%nat). set (w := az_x z 2%nat).
  assert (N : 0 <= x ^ 2 + y ^ 2 + w ^ 2) by nra. set (q := sqrt (x ^ 2 + y ^ 2 + w ^ 2)). assert (Q : q * q = x ^ 2 + y ^ 2 + w ^ 2) by (apply sqrt_sqrt; exact N).
  assert (Q0 : 0 <= q) by apply sqrt_pos.
  destruct (Rlt_bool_spec q rin) as [L|L].
  - rewrite Rlt_bool_true by nra. cbn [map fold_right]. reflexivity.
  - rewrite Rlt_bool_false by nra. ring.
Qed.
(** the seeded number never exceeds the block's share, and is short of it by less than one *)
Theorem C61_advection_share : forall ndim rin total b,
  0 < rin -> (0 <= total)%Z -> Forall (fun z => 0 <= az_dx z 0%nat * az_dx z 1%nat * az_dx z 2%nat) b ->
  let reference := match ndim with 3%nat => 4 / 3 * PI * rin ^ 3 | 2%nat => PI * rin ^ 2 | _ => rin end in
  let s := share total (covered rin b) reference in
  IZR (adv_tracers ndim rin total b) <= s < IZR (adv_tracers ndim rin total b) + 1.
Proof.
  intros ndim rin total b Hr Ht Hb. cbv zeta. rewrite <- covered_ball by exact Hr.
  replace (match ndim with 3%nat => 4 / 3 * PI * rin ^ 3 | 2%nat => PI * rin ^ 2 | _ => rin end) with (v_inner ndim rin)
    by (unfold v_inner; destruct ndim as [|[|[|[|n]]]]; ring). unfold adv_tracers, share.
  assert (B0 : 0 <= ball_volume rin b).
  { unfold ball_volume. induction Hb as [|z b Hz Hb IH]; cbn [fold_right]; [lra|]. destruct (Rlt_bool _ _); lra. }
  assert (V0 : 0 < v_inner ndim rin).
  { pose proof PI_RGT_0. assert (0 < rin * rin) by (apply Rmult_lt_0_compat; assumption).
    unfold v_inner. destruct ndim as [|[|[|[|n]]]]; try assumption.
    - rewrite Rmult_assoc. apply Rmult_lt_0_compat; assumption.
    - apply Rmult_lt_0_compat; [lra|]. apply Rmult_lt_0_compat; assumption. }
  replace (IZR total * ball_volume rin b / v_inner ndim rin) with (ball_volume rin b / v_inner ndim rin * IZR total) by (field; lra).
  set (x := ball_volume rin b / v_inner ndim rin * IZR total).
  assert (0 <= x).
  { unfold x. apply Rmult_le_pos; [|apply IZR_le; exact Ht]. apply Rmult_le_pos; [exact B0|]. apply Rlt_le, Rinv_0_lt_compat, V0. }
  rewrite Ztrunc_floor by assumption. split; [apply Zfloor_lb|apply Zfloor_ub].
Qed.
Print Assumptions C61_advection_share.

(** in three dimensions the share is the request times the fraction of the ball's volume; in one
    dimension the interval has length 2 rin but is taken to have length rin: two zones that
    exactly cover it get twice the request *)
Theorem C61_advection_1d_refuted : forall rin total, 0 < rin -> (0 <= total)%Z ->
  let zone s := mkAZone (fun i => match i with O => s * rin / 2 | _ => 0 end) (fun i => match i with O => rin | _ => 1 end) in
  adv_tracers 1 rin total [zone (-1); zone 1] = (2 * total)%Z.
Proof.
  intros rin total Hr Ht zn. unfold adv_tracers, ball_volume, v_inner, zn. cbn [fold_right az_x az_dx].
  rewrite !Rlt_bool_true by nra.
  replace ((rin * 1 * 1 + (rin * 1 * 1 + 0)) / rin * IZR total) with (IZR (2 * total)) by (rewrite mult_IZR; field; lra).
  apply Ztrunc_IZR.
Qed.
Print Assumptions C61_advection_1d_refuted.

(** ** hypotheses are met *)
Example C61_counts_nonvacuous :
  MeshTracerNumber [[1]; [3]] = Some 4 /\ num_tracers 100 1 4 = 25%Z /\ num_tracers 100 3 4 = 75%Z /\
  num_tracers 10 1 4 = 3%Z.
Proof.
  split; [change [[1]; [3]] with (map (fun v => [v]) [1; 3]); rewrite C61_mesh_volume by discriminate; unfold Rsum; cbn; f_equal; ring|].
  assert (R0 : forall z x, IZR z <= x + / 2 < IZR (z + 1) -> 0 <= x -> std_round x = z).
  { intros z x H P. unfold std_round. rewrite Rle_bool_true by exact P. apply Zfloor_imp, H. }
  unfold num_tracers. split; [|split]; apply R0; rewrite ?plus_IZR; lra.
Qed.
Example C61_placement_nonvacuous :
  DistributeTracer 3 1 0 4 0 1 (fun x => x) (fun x y => x - 2)
    (fun n => match n with O => (0, 0) | 1%nat => (3 / 8, 0) | _ => (3 / 4, 1 / 2) end)
  = Some (3, 1 / 2).
Proof.
  unfold DistributeTracer. cbn [sample]. unfold place. cbn [fst snd].
  rewrite (Rlt_bool_true (-1)) by lra. cbv zeta.
  rewrite (Rlt_bool_false 1 (0 + 0 * (4 - 0))) by lra. rewrite (Rlt_bool_true (-1)) by lra. cbv zeta.
  rewrite (Rlt_bool_true 1 (0 + 3 / 8 * (4 - 0))) by lra.
  rewrite (Rlt_bool_true (0 + 3 / 8 * (4 - 0) - 2)) by lra. cbv zeta.
  rewrite (Rlt_bool_true 1 (0 + 3 / 4 * (4 - 0))) by lra.
  rewrite (Rlt_bool_false (0 + 3 / 4 * (4 - 0) - 2)) by lra. apply f_equal, f_equal2; lra.
Qed.
Example C61_purge_nonvacuous :
  PurgeParticles 2 [(true, -1); (true, 1); (false, -1); (true, -1)]
  = [(false, -1); (true, 1); (false, -1); (true, -1)].
Proof.
  assert (L : 0 < ln 2 < 1).
  { split; [rewrite <- ln_1; apply ln_increasing; lra|]. rewrite <- (ln_exp 1). apply ln_increasing; [lra|].
    pose proof (exp_ineq1 1 ltac:(lra)). lra. }
  unfold PurgeParticles. cbn [GetMaxActiveIndex max_active fst purge_from]. 
  change (GetMaxActiveIndex [(true, -1); (true, 1); (false, -1); (true, -1)]) with 3%Z.
  rewrite (Rle_bool_true (-1)) by lra. rewrite (Rle_bool_false 1) by lra. reflexivity.
Qed.
