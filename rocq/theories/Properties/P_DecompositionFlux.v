(** C64, second part: the fluid update meets the stencil hypothesis with three ghost zones. *)
From Coq Require Import ZArith Reals List Bool Arith Lra Lia FunctionalExtensionality.
From Verif.Model Require Import Num ParFor Reconstruction Relativity Riemann FluxFix FluxKernel.
From Verif.Spec Require Import Tensor FluxSpec.
From Verif.Proofs Require Import ParForProofs FluxFixProofs FluxCTProofs.
From Verif.Properties Require Import P_FluxCT P_FluxKernel.
Import ListNotations.
Local Open Scope R_scope.

(** zone d lies within n zones of zone c in every direction of the mesh *)
Definition within (ndim : nat) (n : Z) (c d : Cell) : Prop :=
  let '(k, j, i) := c in let '(k', j', i') := d in
  (i - n <= i' <= i + n /\ (if Nat.ltb 1 ndim then j - n <= j' <= j + n else j' = j) /\ (if Nat.ltb 2 ndim then k - n <= k' <= k + n else k' = k))%Z.
(** the block that consists of zone c alone *)
Definition just (c : Cell) : Box := let '(k, j, i) := c in {| ks := k; ke := k; js := j; je := j; is_ := i; ie := i |}.
Lemma just_in c : in_box (just c) c.
Proof. destruct c as [[k j] i]. cbn. lia. Qed.
Lemma just_computed ndim B c d f : (ndim = 1 \/ ndim = 2 \/ ndim = 3)%nat -> in_box B c -> computed ndim (just c) d f -> computed ndim B d f.
Proof. intros Hn. destruct c as [[k j] i], f as [[k' j'] i']. unfold computed, in_box, flux_box, just. destruct Hn as [->|[->| ->]]; destruct d; cbn; lia. Qed.
Lemma just_zones ndim c d f m : (ndim = 1 \/ ndim = 2 \/ ndim = 3)%nat -> live_dir ndim d = true -> computed ndim (just c) d f -> (-3 <= m <= 2)%Z -> within ndim 3 c (shift d m f).
Proof.
  intros Hn. destruct c as [[k j] i], f as [[k' j'] i']. unfold computed, in_box, flux_box, just, within, live_dir.
  destruct Hn as [->|[->| ->]]; destruct d; cbn; intros; try discriminate; lia.
Qed.

(** Two blocks, in the same numbering of the zones, whatever their extents, loop orders and stale
    arrays: if both own zone c and hold the same primitive variables in the zones within three of
    it, they compute the same rate of change of every fluid variable of c -- constrained transport
    of the magnetic field included -- and the same signal speeds at its faces. *)
Theorem C64_zone_update : forall cf B B' v v' o1 o2 o3 o4 p1 p2 p3 p4 q0 q1 m0 m1 e0 e1 c, (kndim cf = 1 \/ kndim cf = 2 \/ kndim cf = 3)%nat ->
  order_of (flux_box (kndim cf) B) o1 -> order_of (flux_box (kndim cf) B) o2 -> order_of (ct_box (kndim cf) B) o3 -> order_of (ct_box (kndim cf) B) o4 ->
  order_of (flux_box (kndim cf) B') p1 -> order_of (flux_box (kndim cf) B') p2 -> order_of (ct_box (kndim cf) B') p3 -> order_of (ct_box (kndim cf) B') p4 ->
  in_box B c -> in_box B' c -> (forall n z, within (kndim cf) 3 c z -> v n z = v' n z) ->
  (forall x cv dx, cons_of cf x = Some cv ->
     gain (kndim cf) dx (fun d f => fluxes_after cf o1 o2 o3 o4 v q0 m0 e0 (d, x, f)) c = gain (kndim cf) dx (fun d f => fluxes_after cf p1 p2 p3 p4 v' q1 m1 e1 (d, x, f)) c) /\
  (forall d, live_dir (kndim cf) d = true ->
     snd (CalculateFluxes cf o1 o2 v q0 m0) d c = snd (CalculateFluxes cf p1 p2 v' q1 m1) d c /\
     snd (CalculateFluxes cf o1 o2 v q0 m0) d (next d c) = snd (CalculateFluxes cf p1 p2 v' q1 m1) d (next d c)).
Proof.
  intros cf B B' v v' o1 o2 o3 o4 p1 p2 p3 p4 q0 q1 m0 m1 e0 e1 c Hn O1 O2 O3 O4 P1 P2 P3 P4 Hc Hc' HV.
  assert (SP : same_physics cf cf) by (unfold same_physics; auto).
  assert (SH : forall d f, live_dir (kndim cf) d = true -> computed (kndim cf) (just c) d f ->
     (forall x cv, cons_of cf x = Some cv -> fst (CalculateFluxes cf o1 o2 v q0 m0) (d, x, f) = fst (CalculateFluxes cf p1 p2 v' q1 m1) (d, x, f)) /\
     snd (CalculateFluxes cf o1 o2 v q0 m0) d f = snd (CalculateFluxes cf p1 p2 v' q1 m1) d f).
  { intros d f Hl Hf. apply (C46_shared_face cf cf B B'); auto; try (eapply just_computed; eassumption).
    - unfold same_face; auto.
    - intros n m Hm. apply HV. apply (just_zones _ _ _ _ _ Hn Hl Hf Hm). }
  split.
  2:{ intros d Hl. destruct (zone_computed _ _ _ _ Hn Hl (just_in c)) as (C1 & C2). split; apply SH; assumption. }
  intros x cv dx Ex. unfold fluxes_after.
  assert (Eq : forall d x f cv, cons_of cf x = Some cv -> live_dir (kndim cf) d = true -> computed (kndim cf) (just c) d f ->
     fst (CalculateFluxes cf o1 o2 v q0 m0) (d, x, f) = fst (CalculateFluxes cf p1 p2 v' q1 m1) (d, x, f)).
  { intros d y f cy Ey Hl Hf. apply (proj1 (SH d f Hl Hf) y cy Ey). }
  clear SH. set (F := fst (CalculateFluxes cf o1 o2 v q0 m0)) in *. set (G := fst (CalculateFluxes cf p1 p2 v' q1 m1)) in *. clearbody F G.
  apply gain_ext. intros d Hl. destruct (zone_computed _ _ _ _ Hn Hl (just_in c)) as (C1 & C2).
  destruct (khas_B cf) eqn:HB; [|split; apply (Eq d x _ cv Ex Hl); assumption].
  destruct Hn as [E|Hn]; [rewrite E; cbn; split; apply (Eq d x _ cv Ex Hl); assumption|].
  assert (L : live (kndim cf) d) by (apply live_live; tauto).
  assert (K : forall f, (f = c \/ f = next d c) -> computed (kndim cf) (just c) d f -> fst (FluxCT (kndim cf) o3 o4 e0 F) (d, x, f) = fst (FluxCT (kndim cf) p3 p4 e1 G) (d, x, f)).
  { intros f Hf Cf.
    assert (If : forall B, in_box B c -> in_box (ct_box (kndim cf) B) f).
    { intros B0 H0. destruct c as [[k j] i]. destruct Hn as [E | E]; rewrite E in *; destruct d; try discriminate Hl; destruct Hf as [-> | ->]; cbn in *; lia. }
    destruct x as [| |i|n| |s|s i]; try (rewrite (ct_other _ B o3 o4 e0 F d _ f Hn O4 (If B Hc)), (ct_other _ B' p3 p4 e1 G d _ f Hn P4 (If B' Hc')) by (intros; discriminate); apply (Eq d _ _ cv Ex Hl Cf)).
    assert (ZF : zone_face B d f) by (exists c; split; assumption). assert (ZF' : zone_face B' d f) by (exists c; split; assumption).
    assert (ZFj : zone_face (just c) d f) by (exists c; split; [apply just_in|assumption]).
    assert (EqB : forall d n y, (n < 3)%nat -> live_dir (kndim cf) d = true -> computed (kndim cf) (just c) d y -> F (d, CB n, y) = G (d, CB n, y)).
    { intros d' n' y Hn' Hl' Cy. apply (Eq d' (CB n') y (vB n')); [|exact Hl'|exact Cy]. cbn. rewrite HB. change (n' <=? 2)%nat with (n' <? 3)%nat. rewrite (proj2 (Nat.ltb_lt n' 3) Hn'). reflexivity. }
    cbn in Ex. rewrite HB in Ex. cbn in Ex. change (n <=? 2)%nat with (n <? 3)%nat in Ex. destruct (Nat.ltb_spec n 3) as [N3|N3]; [|discriminate Ex].
    destruct (Nat.ltb_spec n (kndim cf)) as [Nn|Nn].
    - rewrite (ct_val (kndim cf) B o3 o4 e0 F d n f Hn O3 O4 L ZF Nn), (ct_val (kndim cf) B' p3 p4 e1 G d n f Hn P3 P4 L ZF' Nn).
      apply (ct_flux_ext _ (just c)); assumption.
    - rewrite (ct_other _ B o3 o4 e0 F d _ f Hn O4 (If B Hc)), (ct_other _ B' p3 p4 e1 G d _ f Hn P4 (If B' Hc')) by (intros n' E'; inversion E'; subst; assumption). apply EqB; assumption. }
  split; apply K; auto.
Qed.
Print Assumptions C64_zone_update.
(** two blocks of different extent that own the same zone *)
Example C64_zone_update_nonvacuous : exists B B' : Box, B <> B' /\ in_box B (0, 0, 1)%Z /\ in_box B' (0, 0, 1)%Z /\
  within 1 3 (0, 0, 1)%Z (0, 0, -2)%Z /\ ~ within 1 3 (0, 0, 1)%Z (0, 0, 5)%Z.
Proof.
  exists {| ks := 0; ke := 0; js := 0; je := 0; is_ := -8; ie := 8 |}%Z, {| ks := 0; ke := 0; js := 0; je := 0; is_ := 1; ie := 8 |}%Z.
  split; [intros E; injection E; discriminate|]. cbn. lia.
Qed.
