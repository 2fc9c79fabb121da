(** C38: constrained transport keeps the divergence of the magnetic field.
    C39: the time step obeys the CFL condition. *)
From Coq Require Import ZArith Reals List Bool Lia Lra Psatz Permutation.
From Flocq Require Import Core BinarySingleNaN.
From Verif.Model Require Import Num ParFor FluxFix.
From Verif.Spec Require Import FluxSpec.
From Verif.Proofs Require Import NumR ParForProofs FluxFixProofs FluxCTProofs SumProofs.
Import ListNotations.
Local Open Scope R_scope.

(** A mesh block in one stage: its interior, its fluxes after CalculateFluxes, the stale
    content of its emf array, the orders in which its loops run, and its boundary
    configuration.  The driver runs FluxCT and then FixFluxes (phoebus_driver.cpp:344-366). *)
Record Block := { bx : Box; bflux : FluxMem R; bemf : Emf R; bo1 : list Cell; bo2 : list Cell; bcf : FixConf; bord : Dir -> bool -> list Cell }.
Definition after_ct (ndim : nat) (b : Block) : FluxMem R := fst (FluxCT ndim (bo1 b) (bo2 b) (bemf b) (bflux b)).
Definition after_fix (ndim : nat) (b : Block) : FluxMem R := FixFluxes (bcf b) (bord b) (after_ct ndim b).
Definition block_ok (ndim : nat) (b : Block) : Prop :=
  nonempty (bx b) /\ fndim (bcf b) = ndim /\ order_of (ct_box ndim (bx b)) (bo1 b) /\ order_of (ct_box ndim (bx b)) (bo2 b) /\
  (forall d inner, order_of (face_box (bx b) d inner) (bord b d inner)).
(** one zone wider than the interior *)
Definition grown (ndim : nat) (B : Box) : Box :=
  {| ks := (if Nat.eqb ndim 2 then ks B else ks B - 1)%Z; ke := (if Nat.eqb ndim 2 then ke B else ke B + 1)%Z;
     js := (js B - 1)%Z; je := (je B + 1)%Z; is_ := (is_ B - 1)%Z; ie := (ie B + 1)%Z |}.
(** the block's magnetic fluxes are those of one mesh-wide flux field, ghost zones included *)
Definition copies (ndim : nat) (G : FluxMem R) (b : Block) : Prop :=
  forall d n c, in_box (grown ndim (bx b)) c -> bflux b (d, CB n, c) = G (d, CB n, c).
(** Update of a zone by the flux differences (parthenon's FluxDivergence on a uniform mesh,
    then an explicit step dt) *)
Definition updated (ndim : nat) (dx : Dir -> R) (dt : R) (F : FluxMem R) (b : BField R) (n : nat) (c : Cell) : R :=
  b n c + dt * gain ndim dx (fun d c => F (d, CB n, c)) c.
(** zones that touch the node at the lower corner of (k, j, i) *)
Definition touches (ndim : nat) (c node : Cell) : Prop :=
  let '(k, j, i) := c in let '(k0, j0, i0) := node in
  (if Nat.eqb ndim 2 then k = k0 else k = k0 \/ k = k0 - 1)%Z /\ (j = j0 \/ j = j0 - 1)%Z /\ (i = i0 \/ i = i0 - 1)%Z.
(** electric field at the edges of a polar boundary *)
Definition axis_quiet (ndim : nat) (G : FluxMem R) (b : Block) : Prop :=
  forall inner, user (bcf b) D2 inner = true -> bc (bcf b) D2 inner = Polar ->
  let f := (if inner then js (bx b) else je (bx b) + 1)%Z in
  forall k i, (ks (bx b) <= k <= ke (bx b) + (if Nat.eqb ndim 3 then 1 else 0))%Z -> (is_ (bx b) <= i <= ie (bx b) + 1)%Z ->
    emf_z G (k, f, i) = 0 /\ (ndim = 3%nat -> emf_x G (k, f, i) = 0).

Lemma divB_ext ndim dx (b b' : BField R) c : (forall n c', touches ndim c' c -> b n c' = b' n c') -> divB ndim dx b c = divB ndim dx b' c.
Proof.
  intros E. destruct c as [[k j] i]. unfold divB. destruct (Nat.eqb ndim 2) eqn:En.
  - rewrite !(fun n c' H => E n c' H) by (cbn; rewrite En; lia). reflexivity.
  - rewrite !(fun n c' H => E n c' H) by (cbn; rewrite En; lia). reflexivity.
Qed.
Lemma emf_ext ndim G b c : (ndim = 2 \/ ndim = 3)%nat -> copies ndim G b -> in_box (ct_box ndim (bx b)) c ->
  emf_z (bflux b) c = emf_z G c /\ (ndim = 3%nat -> emf_x (bflux b) c = emf_x G c /\ emf_y (bflux b) c = emf_y G c).
Proof.
  intros Hnd C I. destruct c as [[k j] i]. unfold emf_z, emf_x, emf_y. split.
  - rewrite !C; [reflexivity| | | |]; destruct Hnd as [-> | ->]; cbn in *; lia.
  - intros ->. rewrite !C; [split; reflexivity| | | | | | | |]; cbn in *; lia.
Qed.
Lemma zone_face_box ndim B d c : (ndim = 2 \/ ndim = 3)%nat -> live ndim d -> zone_face B d c -> in_box (ct_box ndim B) c /\ (forall d', d' <> d -> live ndim d' -> in_box (ct_box ndim B) (next d' c)).
Proof.
  intros Hnd L (c0 & I0 & F). destruct c0 as [[k j] i]. split.
  - destruct Hnd as [-> | ->]; destruct d; destruct F as [-> | ->]; cbn in *; lia.
  - intros d' K L'. destruct Hnd as [-> | ->]; destruct d, d'; try congruence; destruct F as [-> | ->]; cbn in *; lia.
Qed.
Lemma ct_flux_ext ndim B f g d n c : (ndim = 2 \/ ndim = 3)%nat -> live ndim d -> zone_face B d c -> (n < ndim)%nat ->
  (forall c, in_box (ct_box ndim B) c -> emf_z f c = emf_z g c /\ (ndim = 3%nat -> emf_x f c = emf_x g c /\ emf_y f c = emf_y g c)) ->
  ct_flux ndim (emf_x f) (emf_y f) (emf_z f) d n c = ct_flux ndim (emf_x g) (emf_y g) (emf_z g) d n c.
Proof.
  intros Hnd L Z Hn E. destruct (zone_face_box ndim B d c Hnd L Z) as [I In]. destruct (E c I) as [Ez E3].
  assert (En : forall d', d' <> d -> live ndim d' -> emf_z f (next d' c) = emf_z g (next d' c) /\ (ndim = 3%nat -> emf_x f (next d' c) = emf_x g (next d' c) /\ emf_y f (next d' c) = emf_y g (next d' c)))
    by (intros d' K L'; apply E, In; assumption).
  unfold ct_flux. destruct Hnd as [-> | ->]; cbn [Nat.eqb].
  - destruct d; [| |discriminate L]; (destruct n as [|[|n]]; [| |lia]); try reflexivity.
    + rewrite Ez, (proj1 (En D2 ltac:(discriminate) (or_introl eq_refl))). reflexivity.
    + rewrite Ez, (proj1 (En D1 ltac:(discriminate) Logic.I)). reflexivity.
  - destruct (E3 eq_refl) as [Ex Ey].
    assert (E1 : d <> D1 -> _) by (intros K; exact (En D1 (not_eq_sym K) Logic.I)).
    assert (E2 : d <> D2 -> _) by (intros K; exact (En D2 (not_eq_sym K) (or_intror eq_refl))).
    assert (E3' : d <> D3 -> _) by (intros K; exact (En D3 (not_eq_sym K) eq_refl)).
    destruct d; (destruct n as [|[|[|n]]]; [| | |lia]); try reflexivity.
    + rewrite Ez, (proj1 (E2 ltac:(discriminate))). reflexivity.
    + rewrite Ey, (proj2 (proj2 (E3' ltac:(discriminate)) eq_refl)). reflexivity.
    + rewrite Ez, (proj1 (E1 ltac:(discriminate))). reflexivity.
    + rewrite Ex, (proj1 (proj2 (E3' ltac:(discriminate)) eq_refl)). reflexivity.
    + rewrite Ey, (proj2 (proj2 (E1 ltac:(discriminate)) eq_refl)). reflexivity.
    + rewrite Ex, (proj1 (proj2 (E2 ltac:(discriminate)) eq_refl)). reflexivity.
Qed.

(** what one block's zones see *)
Lemma block_flux ndim G b d n c : (ndim = 2 \/ ndim = 3)%nat -> block_ok ndim b -> copies ndim G b -> live ndim d -> zone_face (bx b) d c -> (n < ndim)%nat ->
  after_ct ndim b (d, CB n, c) = ct_flux ndim (emf_x G) (emf_y G) (emf_z G) d n c.
Proof.
  intros Hnd (Hne & Hf & H1 & H2 & Ho) C L Z Hn. unfold after_ct. rewrite (ct_val ndim (bx b) _ _ _ _ d n c Hnd H1 H2 L Z Hn).
  apply (ct_flux_ext ndim (bx b) _ _ d n c Hnd L Z Hn). intros c' I'. apply (emf_ext ndim G b c' Hnd C I').
Qed.
Lemma block_flux_fix ndim G b d n c : (ndim = 2 \/ ndim = 3)%nat -> block_ok ndim b -> copies ndim G b -> axis_quiet ndim G b -> live ndim d -> zone_face (bx b) d c -> (n < ndim)%nat ->
  after_fix ndim b (d, CB n, c) = ct_flux ndim (emf_x G) (emf_y G) (emf_z G) d n c.
Proof.
  intros Hnd Ok C Q L Z Hn. rewrite <- (block_flux ndim G b d n c Hnd Ok C L Z Hn). pose proof Ok as (Hne & Hf & _ & _ & Ho).
  unfold after_fix. destruct (enabled (bcf b)) eqn:En; [|unfold FixFluxes; rewrite En; reflexivity].
  assert (Hnd' : (fndim (bcf b) = 1 \/ fndim (bcf b) = 2 \/ fndim (bcf b) = 3)%nat) by (rewrite Hf; tauto).
  destruct (fix_cases (bcf b) (bx b) (bord b) Hne Ho Hnd' (after_ct ndim b) d (CB n) c En) as [(inner & L' & F & NG & E)|[(inner & L' & P & G' & E)|(_ & _ & E)]].
  3: exact E.
  2:{ exfalso. clear E. cbn in G'. destruct G' as (Kd & _ & _ & F). destruct Z as ([[k0 j0] i0] & I0 & Z).
      unfold nonempty in Hne. destruct d; [|congruence|]; destruct Z as [-> | ->]; destruct inner; cbn in F, I0; lia. }
  rewrite E. unfold side_val. destruct (user (bcf b) d inner) eqn:U; [|reflexivity]. destruct (bc (bcf b) d inner) eqn:Eb; [| | |reflexivity].
  - destruct (CVar_dec (CB n) CD); [discriminate|reflexivity].
  - assert (NI : forall l, (forall v, In v l -> forall n, v <> CB n) -> zval l (CB n) (after_ct ndim b (d, CB n, c)) = after_ct ndim b (d, CB n, c)).
    { intros l Hl. unfold zval. destruct (in_dec CVar_dec (CB n) l) as [J|J]; [exfalso; apply (Hl _ J n); reflexivity|reflexivity]. }
    assert (R2 : forall v, In v (rad_vars2 (bcf b)) -> forall n, v <> CB n).
    { intros v J n'. unfold rad_vars2 in J. apply in_flat_map in J. destruct J as (s & _ & J). cbn in J. intuition congruence. }
    assert (R1 : forall v, In v (reflect_vars (bcf b)) -> forall n, v <> CB n).
    { intros v J n'. unfold reflect_vars in J. apply in_app_or in J. destruct J as [J|J]; [cbn in J; intuition congruence|].
      destruct (has_E (bcf b)); [|destruct J]. apply in_flat_map in J. destruct J as (s & _ & J). cbn in J. intuition congruence. }
    destruct d; apply NI; try exact R1. intros v J. unfold reflect2_vars in J. apply in_app_or in J. destruct J as [J|J]; [intros n'; cbn in J; intuition congruence|].
    destruct (if inner then _ else _); [exact (R2 v J)|destruct J].
  - destruct d; [reflexivity| |reflexivity]. unfold zval. destruct (in_dec CVar_dec (CB n) (polar_all (bcf b))) as [J|J]; [|reflexivity].
    rewrite (block_flux ndim G b D2 n c Hnd Ok C L Z Hn). specialize (Q inner U Eb). cbv zeta in Q.
    destruct c as [[k j] i]. cbn in F. destruct F as [[Fk Fi] ->]. set (f := (if inner then js (bx b) else je (bx b) + 1)%Z) in *.
    unfold ct_flux. cbn [next]. destruct Hnd as [-> | ->]; cbn [Nat.eqb] in Q |- *.
    + destruct n as [|[|n]]; [| |lia].
      * rewrite (proj1 (Q k i ltac:(lia) ltac:(lia))), (proj1 (Q k (i + 1)%Z ltac:(lia) ltac:(lia))). num_R. field.
      * num_R. field.
    + destruct n as [|[|[|n]]]; [| | |lia].
      * rewrite (proj1 (Q k i ltac:(lia) ltac:(lia))), (proj1 (Q k (i + 1)%Z ltac:(lia) ltac:(lia))). num_R. field.
      * num_R. field.
      * rewrite (proj2 (Q k i ltac:(lia) ltac:(lia)) eq_refl), (proj2 (Q (k + 1)%Z i ltac:(lia) ltac:(lia)) eq_refl). num_R. field.
Qed.
Lemma div_update ndim (dx : Dir -> R) dt (b : BField R) (F : Cell -> FluxMem R) (Ex Ey Ez : Cell -> R) node : (ndim = 2 \/ ndim = 3)%nat -> (forall d, dx d <> 0) ->
  (forall c d n, touches ndim c node -> live ndim d -> (n < ndim)%nat ->
     F c (d, CB n, c) = ct_flux ndim Ex Ey Ez d n c /\ F c (d, CB n, next d c) = ct_flux ndim Ex Ey Ez d n (next d c)) ->
  divB ndim (fun d _ => dx d) (fun n c => updated ndim dx dt (F c) b n c) node = divB ndim (fun d _ => dx d) b node.
Proof.
  intros Hnd Hdx HF. rewrite <- (div_curl ndim dx Ex Ey Ez b dt node Hnd Hdx).
  assert (E : forall n c, touches ndim c node -> (n < ndim)%nat -> updated ndim dx dt (F c) b n c = b n c + dt * gain ndim dx (fun d c => ct_flux ndim Ex Ey Ez d n c) c).
  { intros n c T Hn. unfold updated. f_equal. f_equal. unfold gain.
    destruct (HF c D1 n T I Hn) as [-> ->]. f_equal; [f_equal|].
    - destruct (Nat.ltb 1 ndim) eqn:E2; [|reflexivity]. apply Nat.ltb_lt in E2. destruct (HF c D2 n T ltac:(cbn; lia) Hn) as [-> ->]. reflexivity.
    - destruct (Nat.ltb 2 ndim) eqn:E3; [|reflexivity]. apply Nat.ltb_lt in E3. destruct (HF c D3 n T ltac:(cbn; lia) Hn) as [-> ->]. reflexivity. }
  destruct node as [[k j] i]. unfold divB. destruct Hnd as [-> | ->]; cbn [Nat.eqb].
  - rewrite !(fun n c T => E n c T) by (cbn; lia). reflexivity.
  - rewrite !(fun n c T => E n c T) by (cbn; lia). reflexivity.
Qed.

(** The divergence at a node does not change in an update of all zones that touch it,
    whatever the fluxes, each zone being updated by the block that owns it.  The blocks may
    be different: nodes on block faces, edges and corners are included.  Physical boundaries
    other than the polar axis are allowed, and the axis when the electric field vanishes on
    it. *)
Theorem C38_divb_preserved : forall ndim G (owner : Cell -> Block) (dx : Dir -> R) dt (b : BField R) node,
  (ndim = 2 \/ ndim = 3)%nat -> (forall d, dx d <> 0) ->
  (forall c, touches ndim c node -> let B := owner c in in_box (bx B) c /\ block_ok ndim B /\ copies ndim G B /\ axis_quiet ndim G B) ->
  divB ndim (fun d _ => dx d) (fun n c => updated ndim dx dt (after_fix ndim (owner c)) b n c) node = divB ndim (fun d _ => dx d) b node.
Proof.
  intros ndim G owner dx dt b node Hnd Hdx HB.
  apply (div_update ndim dx dt b (fun c => after_fix ndim (owner c)) (emf_x G) (emf_y G) (emf_z G) node Hnd Hdx).
  intros c d n T L Hn. destruct (HB c T) as (I & Ok & C & Q).
  split; apply (block_flux_fix ndim G (owner c) d n _ Hnd Ok C Q L); try exact Hn; exists c; (split; [exact I|tauto]).
Qed.
Print Assumptions C38_divb_preserved.
(** Mirror-symmetric fluxes give a vanishing electric field on the axis: this is what
    ghost zones filled across the axis produce. *)
Theorem C38_symmetric_axis : forall (G : FluxMem R) k j i,
  (G (D1, CB 1, (k, (j - 1)%Z, i)) = - G (D1, CB 1, (k, j, i)) -> G (D2, CB 0, (k, j, i)) = 0 -> G (D2, CB 0, (k, j, (i - 1)%Z)) = 0 -> emf_z G (k, j, i) = 0) /\
  (G (D3, CB 1, (k, (j - 1)%Z, i)) = - G (D3, CB 1, (k, j, i)) -> G (D2, CB 2, (k, j, i)) = 0 -> G (D2, CB 2, ((k - 1)%Z, j, i)) = 0 -> emf_x G (k, j, i) = 0).
Proof.
  intros G k j i. split; intros E1 E2 E3; [unfold emf_z|unfold emf_x]; rewrite E1, E2, E3; num_R; unfold quarter; num_R; field.
Qed.
Print Assumptions C38_symmetric_axis.
(** Uniform fluxes of the ideal induction equation pass unchanged; no other variable is
    touched. *)
Theorem C38_consistent : forall ndim b (E : Dir -> nat -> R) d n c, (ndim = 2 \/ ndim = 3)%nat -> block_ok ndim b ->
  E D1 0%nat = 0 -> E D2 1%nat = 0 -> E D3 2%nat = 0 -> E D2 0%nat = - E D1 1%nat -> E D3 0%nat = - E D1 2%nat -> E D3 1%nat = - E D2 2%nat ->
  (forall d n c, bflux b (d, CB n, c) = E d n) ->
  live ndim d -> zone_face (bx b) d c -> (n < ndim)%nat -> after_ct ndim b (d, CB n, c) = E d n.
Proof.
  intros ndim b E d n c Hnd Ok Z1 Z2 Z3 A1 A2 A3 U L Z Hn.
  rewrite (block_flux ndim (bflux b) b d n c Hnd Ok (fun _ _ _ _ => eq_refl) L Z Hn).
  unfold ct_flux, emf_x, emf_y, emf_z, quarter. destruct c as [[k j] i]. cbn [next].
  destruct Hnd as [-> | ->]; cbn [Nat.eqb].
  - destruct d; [| |discriminate L]; (destruct n as [|[|n]]; [| |lia]); rewrite ?U; num_R; lra.
  - destruct d; (destruct n as [|[|[|n]]]; [| | |lia]); rewrite ?U; num_R; lra.
Qed.
Print Assumptions C38_consistent.
Theorem C38_others_untouched : forall ndim b d v c, (ndim = 2 \/ ndim = 3)%nat -> block_ok ndim b -> (forall n, v <> CB n) ->
  after_ct ndim b (d, v, c) = bflux b (d, v, c).
Proof.
  intros ndim b d v c Hnd (_ & _ & H1 & H2 & _) K. unfold after_ct. rewrite (ct_run ndim _ _ _ _ Hnd). cbn [fst].
  apply (flux_nonB ndim (bx b)); assumption.
Qed.
Print Assumptions C38_others_untouched.

(** FluxCT runs before FixFluxes, so on a polar axis FixFluxes sets the x2 flux of B1 to zero
    without adjusting the x1 flux of B2 made from the same electric field: where that field
    does not vanish on the axis, the divergence one zone away changes. *)
Definition polar2 : FixConf :=
  {| enabled := true; fndim := 2; num_species := 0; has_E := false; moments_active := false; has_B := true;
     user := fun d inner => match d, inner with D2, true => true | _, _ => false end; bc := fun _ _ => Polar |}.
Definition box44 : Box := {| ks := 0; ke := 0; js := 0; je := 3; is_ := 0; ie := 3 |}.
Definition fluxi : FluxMem R := fun l => match l with (D1, CB 1, (_, _, i)) => IZR i | _ => 0 end.
Definition blk44 : Block := {| bx := box44; bflux := fluxi; bemf := fun _ => 0; bo1 := box_list (ct_box 2 box44); bo2 := box_list (ct_box 2 box44);
  bcf := polar2; bord := fun d inner => box_list (face_box box44 d inner) |}.
Lemma blk44_ok : block_ok 2 blk44.
Proof. split; [unfold nonempty; cbn; lia|]. split; [reflexivity|]. split; [apply order_box_list|]. split; [apply order_box_list|]. intros. apply order_box_list. Qed.
Theorem C38_axis_refuted :
  block_ok 2 blk44 /\ copies 2 fluxi blk44 /\ in_box (bx blk44) (0, 1, 1)%Z /\
  divB 2 (fun _ _ => 1) (fun n c => updated 2 (fun _ => 1) 1 (after_ct 2 blk44) (fun _ _ => 0) n c) (0, 1, 1)%Z = 0 /\
  divB 2 (fun _ _ => 1) (fun n c => updated 2 (fun _ => 1) 1 (after_fix 2 blk44) (fun _ _ => 0) n c) (0, 1, 1)%Z = 1 / 4.
Proof.
  split; [exact blk44_ok|]. split; [intros d n c _; reflexivity|]. split; [cbn; lia|].
  assert (CT : forall d n c, live 2 d -> zone_face (bx blk44) d c -> (n < 2)%nat -> after_ct 2 blk44 (d, CB n, c) = ct_flux 2 (emf_x fluxi) (emf_y fluxi) (emf_z fluxi) d n c)
    by (intros; apply (block_flux 2 fluxi blk44); [tauto|apply blk44_ok|intros ? ? ? _; reflexivity|assumption|assumption|assumption]).
  split.
  - rewrite (div_update 2 (fun _ => 1) 1 (fun _ _ => 0) (fun _ => after_ct 2 blk44) (emf_x fluxi) (emf_y fluxi) (emf_z fluxi) (0, 1, 1)%Z); [|tauto|intros; lra|].
    + unfold divB, half_. cbn [Nat.eqb]. num_R. field.
    + intros [[k j] i] d n T L Hn. cbn in T. split; apply CT; try assumption; exists (k, j, i); cbn; (split; [lia|tauto]).
  - pose proof blk44_ok as (Hne & Hf & _ & _ & Ho).
    assert (Zero : forall i n, (0 <= i <= 3)%Z -> (n < 2)%nat -> after_fix 2 blk44 (D2, CB n, (0, 0, i)%Z) = 0).
    { intros i n Hi Hn. unfold after_fix.
      rewrite (fix_val polar2 box44 _ Hne Ho (or_intror (or_introl eq_refl)) _ D2 true (CB n) (0, 0, i)%Z eq_refl (or_introl eq_refl)); [|cbn; lia|apply axis_ghost_d2].
      unfold side_val. cbn [user bc polar2]. unfold zval. destruct (in_dec CVar_dec (CB n) (polar_all polar2)) as [J|J]; [num_R; field|].
      exfalso. apply J. destruct n as [|[|n]]; [cbn; tauto|cbn; tauto|lia]. }
    assert (Keep : forall d n k j i, (d = D1 \/ (d = D2 /\ 0 < j))%Z -> live 2 d -> zone_face box44 d (k, j, i) -> (n < 2)%nat ->
      after_fix 2 blk44 (d, CB n, (k, j, i)) = ct_flux 2 (emf_x fluxi) (emf_y fluxi) (emf_z fluxi) d n (k, j, i)).
    { intros d n k j i Hd L Z Hn. rewrite <- (CT d n (k, j, i) L Z Hn). unfold after_fix.
      destruct (fix_cases polar2 box44 _ Hne Ho (or_intror (or_introl eq_refl)) (after_ct 2 blk44) d (CB n) (k, j, i) eq_refl) as [(inner & L' & F & NG & E)|[(inner & L' & P & G' & E)|(_ & _ & E)]]; [| |exact E].
      - etransitivity; [exact E|]. unfold side_val. destruct d; [reflexivity| |discriminate L]. destruct inner; [|reflexivity].
        exfalso. cbn in F. destruct Hd as [K|[_ K]]; [discriminate|]. lia.
      - exfalso. clear E. destruct P as (_ & U & _). destruct inner; [|discriminate U]. cbn in G'. destruct G' as (Kd & _ & _ & F).
        destruct Z as ([[k0 j0] i0] & I0 & Z). destruct d; [|congruence|discriminate L]. destruct Z as [Z|Z]; inversion Z; subst; cbn in I0, F; lia. }
    unfold divB, half_, updated, gain. cbn [Nat.eqb Nat.ltb Nat.leb next]. 
    replace (1 - 1)%Z with 0%Z by reflexivity. replace (1 + 1)%Z with 2%Z by reflexivity. replace (0 + 1)%Z with 1%Z by reflexivity.
    assert (ZF : forall d j i, (0 <= j <= 3)%Z -> (0 <= i <= 3)%Z -> zone_face box44 d (0, j, i)%Z) by (intros d j i Hj Hi; exists (0, j, i)%Z; cbn; split; [lia|tauto]).
    rewrite !(Zero 0%Z), !(Zero 1%Z) by lia.
    rewrite !Keep by (first [apply ZF; lia | exact Logic.I | cbn; lia | left; reflexivity | right; split; [reflexivity|lia] | lia]).
    unfold ct_flux, emf_z, quarter, fluxi. cbn [next]. num_R.
    change (Z.pos (1 + 1)) with 2%Z. change (1 + 1)%Z with 2%Z. change (1 - 1)%Z with 0%Z. change (0 + 1)%Z with 1%Z. change (0 - 1)%Z with (-1)%Z.
    lra.
Qed.
Print Assumptions C38_axis_refuted.

(** two blocks side by side and a node on the face between them; any fluxes *)
Definition free_conf : FixConf :=
  {| enabled := true; fndim := 2; num_species := 0; has_E := false; moments_active := false; has_B := true; user := fun _ _ => false; bc := fun _ _ => OtherBC |}.
Definition blk_at (G : FluxMem R) (s : Z) : Block :=
  let B := {| ks := 0; ke := 0; js := 0; je := 3; is_ := s; ie := s + 3 |} in
  {| bx := B; bflux := G; bemf := fun _ => 1; bo1 := box_list (ct_box 2 B); bo2 := box_list (ct_box 2 B); bcf := free_conf; bord := fun d inner => box_list (face_box B d inner) |}.
Example C38_nonvacuous : forall G, let owner (c : Cell) := let '(_, _, i) := c in blk_at G (if (i <? 4)%Z then 0 else 4)%Z in
  forall c, touches 2 c (0, 1, 4)%Z -> let B := owner c in in_box (bx B) c /\ block_ok 2 B /\ copies 2 G B /\ axis_quiet 2 G B.
Proof.
  intros G owner [[k j] i] T B. cbn in T. assert (Hi : (i = 3 \/ i = 4)%Z) by lia.
  unfold B, owner. destruct Hi as [-> | ->]; cbn [Z.ltb Z.compare Pos.compare Pos.compare_cont].
  - split; [cbn; lia|]. split; [split; [unfold nonempty; cbn; lia|]; split; [reflexivity|]; split; [apply order_box_list|]; split; [apply order_box_list|]; intros; apply order_box_list|].
    split; [intros d n c _; reflexivity|intros inner U; discriminate U].
  - split; [cbn; lia|]. split; [split; [unfold nonempty; cbn; lia|]; split; [reflexivity|]; split; [apply order_box_list|]; split; [apply order_box_list|]; intros; apply order_box_list|].
    split; [intros d n c _; reflexivity|intros inner U; discriminate U].
Qed.

(** *** C39 *)
Definition fold_min (f : Cell -> R) (o : list Cell) (big : R) : R := fold_left (fun lmin c => std_min lmin (f c)) o big.
Lemma fold_min_le f o : forall big, fold_min f o big <= big /\ forall c, In c o -> fold_min f o big <= f c.
Proof.
  unfold fold_min. induction o as [|a o IH]; intros big; cbn [fold_left]; [split; [lra|intros c []]|].
  rewrite std_min_R. destruct (IH (Rmin big (f a))) as [A1 A2]. split.
  - eapply Rle_trans; [exact A1|apply Rmin_l].
  - intros c [<-|Hc]; [eapply Rle_trans; [exact A1|apply Rmin_r]|apply A2, Hc].
Qed.
Lemma fold_min_in f o : forall big, fold_min f o big = big \/ exists c, In c o /\ fold_min f o big = f c.
Proof.
  unfold fold_min. induction o as [|a o IH]; intros big; cbn [fold_left]; [left; reflexivity|].
  rewrite std_min_R. destruct (IH (Rmin big (f a))) as [A|(c & Hc & A)].
  - rewrite A. destruct (Rle_dec big (f a)) as [K|K]; [left; apply Rmin_left, K|right; exists a; split; [left; reflexivity|apply Rmin_right; lra]].
  - right. exists c. split; [right; exact Hc|exact A].
Qed.
(** the speeds the time step must resolve in zone c, direction d *)
Definition speeds (faces : bool) (csig fsig : Dir -> Cell -> R) (d : Dir) (c : Cell) : list R :=
  csig d c :: (if faces then [fsig d c; fsig d (next d c)] else nil).
Definition fastest (faces : bool) (csig fsig : Dir -> Cell -> R) (d : Dir) (c : Cell) : R :=
  fold_right Rmax (csig d c) (speeds faces csig fsig d c).
Lemma up_next d c : up d c = next d c.
Proof. destruct c as [[k j] i], d; reflexivity. Qed.
Lemma fastest_val (faces : bool) (csig fsig : Dir -> Cell -> R) d c : (if faces then std_max (csig d c) (std_max (fsig d c) (fsig d (up d c))) else csig d c) = fastest faces csig fsig d c.
Proof.
  unfold fastest, speeds. rewrite up_next. destruct faces; cbn [fold_right].
  - rewrite !std_max_R. rewrite (Rmax_comm (fsig d (next d c)) (csig d c)).
    unfold Rmax. repeat destruct (Rle_dec _ _); lra.
  - unfold Rmax. destruct (Rle_dec _ _); lra.
Qed.
Lemma fastest_ge faces csig fsig d c s : In s (speeds faces csig fsig d c) -> s <= fastest faces csig fsig d c.
Proof.
  unfold fastest. generalize (csig d c) as a. generalize (speeds faces csig fsig d c) as l. intros l a. induction l as [|x l IH]; cbn; [intros []|].
  intros [<-|I]; [apply Rmax_l|]. eapply Rle_trans; [apply IH, I|apply Rmax_r].
Qed.
Lemma rate_val faces ndim (csig fsig dx : Dir -> Cell -> R) c : (ndim = 1 \/ ndim = 2 \/ ndim = 3)%nat ->
  zone_rate faces ndim csig fsig dx c = fastest faces csig fsig D1 c / dx D1 c +
    (if Nat.ltb 1 ndim then fastest faces csig fsig D2 c / dx D2 c else 0) + (if Nat.ltb 2 ndim then fastest faces csig fsig D3 c / dx D3 c else 0).
Proof.
  intros Hnd. unfold zone_rate, dirs. destruct Hnd as [-> | [-> | ->]]; cbn [firstn fold_left Nat.ltb Nat.leb]; rewrite !fastest_val; num_R; unfold Rdiv; lra.
Qed.

Definition positive_mesh (dx : Dir -> Cell -> R) : Prop := forall d c, 0 < dx d c.
(** Every zone of the block, every direction: no signal (cell speed, and, once face speeds
    exist, the speeds of both faces) crosses more than cfl zone widths in a step, also when
    the directions are added up; the step is positive; some zone, or the largest
    representable number, determines it; the order of the reduction does not matter. *)
Theorem C39_cfl : forall faces ndim csig fsig dx tiny big cfl B o,
  (ndim = 1 \/ ndim = 2 \/ ndim = 3)%nat -> order_of B o -> positive_mesh dx -> 0 < tiny -> 0 < big -> 0 < cfl ->
  (forall d c, in_box B c -> 0 <= fastest faces csig fsig d c) ->
  let dt := EstimateTimestep faces ndim csig fsig dx tiny big cfl o in
  0 < dt /\
  (forall d c s, in_box B c -> live ndim d -> In s (speeds faces csig fsig d c) -> dt * s <= cfl * dx d c) /\
  (forall c, in_box B c -> dt * (fastest faces csig fsig D1 c / dx D1 c + (if Nat.ltb 1 ndim then fastest faces csig fsig D2 c / dx D2 c else 0) +
                                 (if Nat.ltb 2 ndim then fastest faces csig fsig D3 c / dx D3 c else 0)) <= cfl) /\
  (dt = cfl * big \/ exists c, in_box B c /\ dt = cfl / (fastest faces csig fsig D1 c / dx D1 c + (if Nat.ltb 1 ndim then fastest faces csig fsig D2 c / dx D2 c else 0) +
                                 (if Nat.ltb 2 ndim then fastest faces csig fsig D3 c / dx D3 c else 0) + tiny)) /\
  (forall o', order_of B o' -> EstimateTimestep faces ndim csig fsig dx tiny big cfl o' = dt).
Proof.
  intros faces ndim csig fsig dx tiny big cfl B o Hnd Ho Hdx Ht Hb Hc Hs dt.
  set (rate c := fastest faces csig fsig D1 c / dx D1 c + (if Nat.ltb 1 ndim then fastest faces csig fsig D2 c / dx D2 c else 0) +
                                 (if Nat.ltb 2 ndim then fastest faces csig fsig D3 c / dx D3 c else 0)).
  set (f c := 1 / (rate c + tiny)).
  assert (Ev : forall o', EstimateTimestep faces ndim csig fsig dx tiny big cfl o' = cfl * fold_min f o' big).
  { intros o'. unfold EstimateTimestep, fold_min. cbn [nmul Num_R]. f_equal. generalize big as z. clear -Hnd.
    induction o' as [|a l IH]; intros z; cbn [fold_left]; [reflexivity|]. rewrite <- IH. f_equal. f_equal. unfold f, rate. rewrite rate_val by exact Hnd. num_R.
    reflexivity. }
  assert (Rpos : forall c, in_box B c -> 0 <= rate c).
  { intros c Ic. unfold rate. assert (K : forall d, 0 <= fastest faces csig fsig d c / dx d c).
    { intros d. apply Rmult_le_pos; [apply Hs, Ic|left; apply Rinv_0_lt_compat, Hdx]. }
    pose proof (K D1). pose proof (K D2). pose proof (K D3). destruct (Nat.ltb 1 ndim), (Nat.ltb 2 ndim); lra. }
  assert (Fpos : forall c, in_box B c -> 0 < f c).
  { intros c Ic. unfold f. pose proof (Rpos c Ic). apply Rdiv_lt_0_compat; lra. }
  assert (Mpos : forall o', order_of B o' -> 0 < fold_min f o' big).
  { intros o' [_ O']. destruct (fold_min_in f o' big) as [->|(c & Ic & ->)]; [exact Hb|apply Fpos, O', Ic]. }
  assert (Edt : dt = cfl * fold_min f o big) by apply Ev. pose proof (Mpos o Ho) as Hm.
  assert (Sum : forall c, in_box B c -> dt * rate c <= cfl).
  { intros c Ic. rewrite Edt. destruct (fold_min_le f o big) as [_ M]. pose proof (M c (proj2 (proj2 Ho c) Ic)) as M1. pose proof (Rpos c Ic) as Hr.
    assert (Fr : f c * rate c <= 1). { unfold f. apply Rmult_le_reg_r with (rate c + tiny); [lra|]. field_simplify; lra. }
    assert (fold_min f o big * rate c <= 1) by (eapply Rle_trans; [apply Rmult_le_compat_r; [exact Hr|exact M1]|exact Fr]). nra. }
  split; [rewrite Edt; apply Rmult_lt_0_compat; assumption|]. split; [|split; [exact Sum|split]].
  - intros d c s Ic L Is. pose proof (fastest_ge faces csig fsig d c s Is) as G. pose proof (Hdx d c) as Hd.
    assert (Hdt : 0 < dt) by (rewrite Edt; apply Rmult_lt_0_compat; assumption).
    assert (K : fastest faces csig fsig d c / dx d c <= rate c).
    { assert (P : forall d, 0 <= fastest faces csig fsig d c / dx d c) by (intros d'; apply Rmult_le_pos; [apply Hs, Ic|left; apply Rinv_0_lt_compat, Hdx]).
      pose proof (P D1) as P1. pose proof (P D2) as P2. pose proof (P D3) as P3. unfold rate. destruct d.
      - destruct (Nat.ltb 1 ndim), (Nat.ltb 2 ndim); lra.
      - assert (E : Nat.ltb 1 ndim = true) by (apply Nat.ltb_lt; cbn in L; lia). rewrite E. destruct (Nat.ltb 2 ndim); lra.
      - assert (E : Nat.ltb 1 ndim = true) by (apply Nat.ltb_lt; cbn in L; lia). assert (E' : Nat.ltb 2 ndim = true) by (apply Nat.ltb_lt; cbn in L; lia). rewrite E, E'. lra. }
    pose proof (Sum c Ic) as S. assert (S2 : dt * (fastest faces csig fsig d c / dx d c) <= cfl) by (eapply Rle_trans; [apply Rmult_le_compat_l; [lra|exact K]|exact S]).
    apply Rle_trans with (dt * (fastest faces csig fsig d c / dx d c) * dx d c); [|apply Rmult_le_compat_r; lra].
    replace (dt * (fastest faces csig fsig d c / dx d c) * dx d c) with (dt * fastest faces csig fsig d c) by (field; lra). nra.
  - rewrite Edt. destruct (fold_min_in f o big) as [->|(c & Ic & ->)]; [left; reflexivity|]. right. exists c. split; [apply Ho, Ic|]. unfold f. fold (rate c). unfold Rdiv. ring.
  - intros o' Ho'. rewrite Ev, Edt. f_equal.
    assert (Le : forall o1 o2, order_of B o1 -> order_of B o2 -> fold_min f o1 big <= fold_min f o2 big).
    { intros o1 o2 [_ O1] [_ O2]. destruct (fold_min_in f o2 big) as [->|(c & Ic & ->)]; [apply fold_min_le|]. apply fold_min_le. apply O1, O2, Ic. }
    apply Rle_antisym; apply Le; assumption.
Qed.
Print Assumptions C39_cfl.
(** In floating point a zone whose speed is NaN does not limit the step at all: std::min
    keeps its first argument. *)
Theorem C39_nan_refuted : forall (ndim : nat) (fsig dx : Dir -> Cell -> B64) tiny big cfl c, (ndim = 1 \/ ndim = 2 \/ ndim = 3)%nat ->
  EstimateTimestep false ndim (fun _ _ => B754_nan) fsig dx tiny big cfl [c] = nmul cfl big.
Proof.
  intros ndim fsig dx tiny big cfl c Hnd. unfold EstimateTimestep. cbn [fold_left]. f_equal.
  assert (Z : zone_rate false ndim (fun _ _ => B754_nan) fsig dx c = B754_nan).
  { unfold zone_rate, dirs. destruct Hnd as [-> | [-> | ->]]; cbn [firstn fold_left]; cbn; reflexivity. }
  rewrite Z. unfold std_min. replace (nlt _ big) with false; [reflexivity|]. cbn. destruct big as [[|]|[|]| |[|] ? ? ?]; reflexivity.
Qed.
Print Assumptions C39_nan_refuted.
Example C39_nonvacuous : let dt := EstimateTimestep true 1 (fun _ _ => 1) (fun _ _ => 2) (fun _ _ => / 10) (/ 100) 1000 (1 / 2) [(0, 0, 0)%Z] in dt = 50 / 2001.
Proof.
  cbv zeta. unfold EstimateTimestep. cbn [fold_left zone_rate dirs firstn]. unfold zone_rate. cbn [dirs firstn fold_left]. rewrite !std_max_R, std_min_R. num_R.
  rewrite (Rmax_left 2 2), (Rmax_right 1 2) by lra. rewrite Rmin_right; lra.
Qed.
