(** C33, second part: conserved and primitive variables in the ghost zones. *)
From Coq Require Import ZArith Reals List Bool Lia Lra.
From Flocq Require Import Core.
From Verif.Model Require Import Num ParFor FluxFix Relativity Prim2Con Boundary BoundaryConvert.
From Verif.Spec Require Import Tensor GeomSpec Relativity FluxSpec BoundarySpec.
From Verif.Proofs Require Import NumR TensorTac ParForProofs BoundaryProofs RelProofs FlatWitness.
From Verif.Properties Require Import P_Boundary.
Import ListNotations.
Local Open Scope R_scope.

(** * Specification *)
(** the fluid part of a zone is consistent: its conserved variables are those of its
    primitive ones (the parts that exist in the run) *)
Definition fluid_consistent (cf : CConf) (c : Cell) (z : PZone) : Prop :=
  let C := p2c (use_valencia cf) (z_rho z) (z_vel z) (if has_b cf then z_B z else fun _ => 0) (z_eng z)
             (if has_ye cf then z_ye z else 0) (z_prs z) (z_gm1 z) (gcov cf c) (gcon3 cf c) (shift cf c) (lapse cf c) (gdet3 cf c) in
  cD (z_cons z) = cD C /\ cS (z_cons z) = cS C /\ ctau (z_cons z) = ctau C /\
  (has_b cf = true -> cB (z_cons z) = cB C) /\ (has_ye cf = true -> cye (z_cons z) = cye C) /\
  (forall d, (d < ndim_ cf)%nat -> csig (z_cons z) d = csig C d).
Definition rad_consistent (cf : CConf) (c : Cell) (z : PZone) : Prop :=
  forall s, (s < num_species cf)%nat -> z_rad z s = rp2c cf c z s.
(** what MomentPrim2Con computes depends only on the primitive variables of the zone *)
Definition reads_primitives (cf : CConf) : Prop := forall c z z' s,
  z_rho z = z_rho z' -> z_vel z = z_vel z' -> z_J z = z_J z' -> z_H z = z_H z' -> rp2c cf c z s = rp2c cf c z' s.
(** a zone of the ghost region of a flagged face *)
Definition exposed (cf : CConf) (I E : Box) (flagged : Dir -> bool -> bool) (c : Cell) : Prop :=
  exists d inner, live (ndim_ cf) d /\ flagged d inner = true /\ in_box (ghost_box I E d inner) c.
Definition same_primitives (z z' : PZone) : Prop :=
  z_rho z = z_rho z' /\ z_vel z = z_vel z' /\ z_B z = z_B z' /\ z_eng z = z_eng z' /\ z_ye z = z_ye z' /\ z_prs z = z_prs z' /\
  z_gm1 z = z_gm1 z' /\ z_J z = z_J z' /\ z_H z = z_H z'.

(** * Loops *)
Lemma each_spec o f m c : NoDup o -> each o f m c = if in_dec Cell_dec c o then f c (m c) else m c.
Proof.
  intros N. unfold each, par_for. revert m. induction N as [|a o Ha N IH]; intros m; cbn [fold_left]; [reflexivity|].
  rewrite IH. destruct (in_dec Cell_dec c o) as [I|I].
  - assert (c <> a) by (intros ->; contradiction). destruct (Cell_dec c a); [contradiction|].
    destruct (in_dec Cell_dec c (a :: o)) as [J|J]; [reflexivity|]. exfalso. apply J. right. exact I.
  - destruct (Cell_dec c a) as [->|Ne].
    + destruct (in_dec Cell_dec a (a :: o)) as [J|J]; [reflexivity|]. exfalso. apply J. left. reflexivity.
    + destruct (in_dec Cell_dec c (a :: o)) as [[J|J]|J]; [congruence|contradiction|reflexivity].
Qed.
Section Run.
Variables (cf : CConf) (I E : Box) (flagged : Dir -> bool -> bool) (ord : nat -> Dir -> bool -> list Cell).
Hypothesis Hord : forall n d inner, order_of (ghost_box I E d inner) (ord n d inner).

Lemma each_ghost n d inner f m c : (in_box (ghost_box I E d inner) c -> each (ord n d inner) f m c = f c (m c)) /\
  (~ in_box (ghost_box I E d inner) c -> each (ord n d inner) f m c = m c).
Proof.
  destruct (Hord n d inner) as [N S]. rewrite each_spec by exact N.
  destruct (in_dec Cell_dec c (ord n d inner)) as [J|J]; split; intros K; try reflexivity; exfalso; [apply K, S, J|apply J, S, K].
Qed.

(** a sweep over all flagged faces with an idempotent zone function *)
Definition sweep (n : nat) (f : Cell -> PZone -> PZone) (l : list (Dir * bool)) (m : PMem) : PMem :=
  fold_left (fun m fc => if flagged (fst fc) (snd fc) then each (ord n (fst fc) (snd fc)) f m else m) l m.
Lemma sweep_spec n f l m c : (forall z, f c (f c z) = f c z) ->
  ((exists fc, In fc l /\ flagged (fst fc) (snd fc) = true /\ in_box (ghost_box I E (fst fc) (snd fc)) c) -> sweep n f l m c = f c (m c)) /\
  (~ (exists fc, In fc l /\ flagged (fst fc) (snd fc) = true /\ in_box (ghost_box I E (fst fc) (snd fc)) c) -> sweep n f l m c = m c).
Proof.
  intros Id. unfold sweep.
  assert (Gen : forall l m, (forall z, m c = f c z -> fold_left (fun m fc => if flagged (fst fc) (snd fc) then each (ord n (fst fc) (snd fc)) f m else m) l m c = m c)).
  { induction l0 as [|fc l0 IH]; intros m0 z Hz; cbn [fold_left]; [reflexivity|].
    assert (S : (if flagged (fst fc) (snd fc) then each (ord n (fst fc) (snd fc)) f m0 else m0) c = m0 c).
    { destruct (flagged (fst fc) (snd fc)); [|reflexivity]. destruct (each_ghost n (fst fc) (snd fc) f m0 c) as [P Q].
      destruct (Hord n (fst fc) (snd fc)) as [N Sx].
      destruct (in_dec Cell_dec c (ord n (fst fc) (snd fc))) as [J|J].
      - rewrite P by (apply Sx; exact J). rewrite Hz. apply Id.
      - apply Q. intros K. apply J, Sx, K. }
    rewrite (IH _ z); [exact S|]. rewrite S. exact Hz. }
  revert m. induction l as [|fc l IH]; intros m; cbn [fold_left].
  - split; [intros (x & [] & _)|reflexivity].
  - destruct (each_ghost n (fst fc) (snd fc) f m c) as [P Q]. destruct (Hord n (fst fc) (snd fc)) as [N Sx].
    destruct (flagged (fst fc) (snd fc)) eqn:Fl.
    + destruct (in_dec Cell_dec c (ord n (fst fc) (snd fc))) as [J|J].
      * assert (K : in_box (ghost_box I E (fst fc) (snd fc)) c) by (apply Sx; exact J).
        split; [intros _|intros Ne; exfalso; apply Ne; exists fc; split; [left; reflexivity|split; assumption]].
        rewrite (Gen l _ (m c)); [exact (P K)|exact (P K)].
      * assert (K : ~ in_box (ghost_box I E (fst fc) (snd fc)) c) by (intros K; apply J, Sx, K).
        destruct (IH (each (ord n (fst fc) (snd fc)) f m)) as [A B]. rewrite (Q K) in A, B. split.
        -- intros (x & [<-|Hx] & H1 & H2); [contradiction|]. apply A. exists x. tauto.
        -- intros Ne. apply B. intros (x & H0 & H1 & H2). apply Ne. exists x. split; [right; exact H0|tauto].
    + destruct (IH m) as [A B]. split.
      * intros (x & [<-|Hx] & H1 & H2); [congruence|]. apply A. exists x. tauto.
      * intros Ne. apply B. intros (x & H0 & H1 & H2). apply Ne. exists x. split; [right; exact H0|tauto].
Qed.
Lemma faces_live d inner : (1 <= ndim_ cf <= 3)%nat -> (In (d, inner) (faces_of (ndim_ cf)) <-> live (ndim_ cf) d).
Proof.
  clear. intros Hn. unfold faces_of, live. destruct (ndim_ cf) as [|[|[|[|n]]]]; try lia; destruct d, inner; cbn; intuition (try congruence; try lia).
Qed.
Lemma exposed_iff c : (1 <= ndim_ cf <= 3)%nat -> ((exists fc, In fc (faces_of (ndim_ cf)) /\ flagged (fst fc) (snd fc) = true /\ in_box (ghost_box I E (fst fc) (snd fc)) c) <-> exposed cf I E flagged c).
Proof.
  clear Hord. intros Hn. split.
  - intros ([d inner] & H0 & H1 & H2). exists d, inner. cbn [fst snd] in *. rewrite (faces_live d inner Hn) in H0. tauto.
  - intros (d & inner & H0 & H1 & H2). exists (d, inner). cbn [fst snd]. rewrite (faces_live d inner Hn). tauto.
Qed.
End Run.
Lemma p2c_zone_idem cf c z : p2c_zone cf c (p2c_zone cf c z) = p2c_zone cf c z.
Proof.
  unfold p2c_zone. cbn [z_rho z_vel z_B z_eng z_ye z_prs z_gm1 z_cons z_J z_H z_rad cD cS cB ctau cye csig]. f_equal.
  set (C := p2c _ _ _ _ _ _ _ _ _ _ _ _ _). f_equal.
  - destruct (has_b cf); reflexivity.
  - destruct (has_ye cf); reflexivity.
  - apply FunctionalExtensionality.functional_extensionality. intros d. destruct (Nat.ltb d (ndim_ cf)); reflexivity.
Qed.
Lemma rp2c_zone_idem cf c z : reads_primitives cf -> rp2c_zone cf c (rp2c_zone cf c z) = rp2c_zone cf c z.
Proof.
  intros Hr. unfold rp2c_zone. cbn [z_rho z_vel z_B z_eng z_ye z_prs z_gm1 z_cons z_J z_H z_rad]. f_equal.
  apply FunctionalExtensionality.functional_extensionality. intros s. destruct (Nat.ltb s (num_species cf)); [|reflexivity].
  apply Hr; reflexivity.
Qed.
Lemma p2c_zone_consistent cf c z : fluid_consistent cf c (p2c_zone cf c z).
Proof.
  unfold fluid_consistent, p2c_zone. cbn [z_rho z_vel z_B z_eng z_ye z_prs z_gm1 z_cons z_J z_H z_rad cD cS cB ctau cye csig].
  set (C := p2c _ _ _ _ _ _ _ _ _ _ _ _ _).
  split; [reflexivity|]. split; [reflexivity|]. split; [reflexivity|]. split; [intros ->; reflexivity|].
  split; [intros ->; reflexivity|]. intros d Hd. apply Nat.ltb_lt in Hd. rewrite Hd. reflexivity.
Qed.

(** * Theorems *)
(** c lies in the ghost zones the inflow check visits *)
Definition checked (cf : CConf) (I E : Box) (flagged : Dir -> bool -> bool) (c : Cell) : Prop :=
  fmks_check cf = true /\ flagged D1 false = true /\ in_box (ghost_box I E D1 false) c.
(** With primitive boundary variables: in every ghost zone of every physical boundary - faces,
    edges and corners, in any order of the loops - the conserved variables end up as those of
    the primitive ones, for the fluid and for every radiation species; the primitive ones are
    those the boundary conditions set, except that the inflow check has been applied to the
    outer x1 zones; all other zones are untouched. *)
Theorem C33_converted : forall cf I E flagged ord m c,
  (forall n d inner, order_of (ghost_box I E d inner) (ord n d inner)) -> reads_primitives cf ->
  (1 <= ndim_ cf <= 3)%nat -> bc_conserved cf = false -> fluid_active cf = true ->
  let z' := ConvertBoundaryConditions cf flagged ord m c in
  (exposed cf I E flagged c -> fluid_consistent cf c z' /\ (rad_active cf = true -> moments_active cf = true -> rad_consistent cf c z')) /\
  (checked cf I E flagged c -> same_primitives z' (check_zone cf c (m c))) /\
  (~ checked cf I E flagged c -> same_primitives z' (m c)) /\
  (~ exposed cf I E flagged c -> z' = m c).
Proof.
  intros cf I E flagged ord m c Hord Hr Hn Hb Hf z'.
  pose (m1 := if fmks_check cf && flagged D1 false then each (ord 2%nat D1 false) (p2c_zone cf) (each (ord 1%nat D1 false) (check_zone cf) m) else m).
  set (m2 := sweep flagged ord 3 (p2c_zone cf) (faces_of (ndim_ cf)) m1).
  assert (Ez : z' = (if rad_active cf && moments_active cf then sweep flagged ord 4 (rp2c_zone cf) (faces_of (ndim_ cf)) m2 else m2) c).
  { unfold z', m2, sweep, m1, ConvertBoundaryConditions. rewrite Hb, Hf. cbn [negb andb]. rewrite andb_true_r. reflexivity. }
  clearbody z'.
  destruct (sweep_spec I E flagged ord Hord 3 (p2c_zone cf) (faces_of (ndim_ cf)) m1 c (p2c_zone_idem cf c)) as [A3 B3].
  destruct (sweep_spec I E flagged ord Hord 4 (rp2c_zone cf) (faces_of (ndim_ cf)) m2 c (fun z => rp2c_zone_idem cf c z Hr)) as [A4 B4].
  rewrite (exposed_iff cf I E flagged c Hn) in A3, B3, A4, B4. fold m2 in A3, B3.
  assert (C1 : checked cf I E flagged c -> m1 c = p2c_zone cf c (check_zone cf c (m c))).
  { intros (F & G & K). unfold m1. rewrite F, G. cbn [andb].
    destruct (each_ghost I E ord Hord 2 D1 false (p2c_zone cf) (each (ord 1%nat D1 false) (check_zone cf) m) c) as [P _]. rewrite (P K).
    destruct (each_ghost I E ord Hord 1 D1 false (check_zone cf) m c) as [Q _]. rewrite (Q K). reflexivity. }
  assert (C0 : ~ checked cf I E flagged c -> m1 c = m c).
  { intros Nc. unfold m1. destruct (fmks_check cf && flagged D1 false) eqn:F; [|reflexivity]. apply andb_prop in F. destruct F as [F G].
    assert (K : ~ in_box (ghost_box I E D1 false) c) by (intros K; apply Nc; repeat split; assumption).
    destruct (each_ghost I E ord Hord 2 D1 false (p2c_zone cf) (each (ord 1%nat D1 false) (check_zone cf) m) c) as [_ P]. rewrite (P K).
    destruct (each_ghost I E ord Hord 1 D1 false (check_zone cf) m c) as [_ Q]. exact (Q K). }
  assert (Ck : checked cf I E flagged c -> exposed cf I E flagged c).
  { intros (F & G & K). exists D1, false. split; [unfold live; lia|]. split; assumption. }
  assert (X : exposed cf I E flagged c -> z' = (if rad_active cf && moments_active cf then rp2c_zone cf c else fun z => z) (p2c_zone cf c (m1 c))).
  { intros Hx. rewrite Ez. destruct (rad_active cf && moments_active cf); [rewrite (A4 Hx), (A3 Hx)|rewrite (A3 Hx)]; reflexivity. }
  assert (Nx : ~ exposed cf I E flagged c -> z' = m1 c).
  { intros Hx. rewrite Ez. destruct (rad_active cf && moments_active cf); [rewrite (B4 Hx), (B3 Hx)|rewrite (B3 Hx)]; reflexivity. }
  assert (SP : forall z, same_primitives ((if rad_active cf && moments_active cf then rp2c_zone cf c else fun z => z) (p2c_zone cf c z)) z).
  { intros z. destruct (rad_active cf && moments_active cf); repeat split; reflexivity. }
  split; [|split; [|split]].
  - intros Hx. rewrite (X Hx). split.
    + destruct (rad_active cf && moments_active cf); [|apply p2c_zone_consistent]. exact (p2c_zone_consistent cf c (m1 c)).
    + intros R1 R2 s Hs. rewrite R1, R2. cbn [andb]. unfold rp2c_zone at 1. cbn [z_rad].
      apply Nat.ltb_lt in Hs. rewrite Hs. apply Hr; reflexivity.
  - intros Hc. rewrite (X (Ck Hc)), (C1 Hc). destruct (SP (p2c_zone cf c (check_zone cf c (m c)))) as (a1 & a2 & a3 & a4 & a5 & a6 & a7 & a8 & a9).
    repeat split; [etransitivity; [exact a1|]|etransitivity; [exact a2|]|etransitivity; [exact a3|]|etransitivity; [exact a4|]|etransitivity; [exact a5|]
      |etransitivity; [exact a6|]|etransitivity; [exact a7|]|etransitivity; [exact a8|]|etransitivity; [exact a9|]]; reflexivity.
  - intros Hc. destruct (Classical_Prop.classic (exposed cf I E flagged c)) as [Hx|Hx].
    + rewrite (X Hx), (C0 Hc). apply SP.
    + rewrite (Nx Hx), (C0 Hc). repeat split; reflexivity.
  - intros Hx. rewrite (Nx Hx). apply C0. intros Hc. exact (Hx (Ck Hc)).
Qed.
Print Assumptions C33_converted.

(** With conserved boundary variables only the zones of the inflow check are converted: their
    fluid variables are inverted, checked and converted back, whatever the inversion. *)
Theorem C33_converted_conserved : forall cf I E flagged ord m c,
  (forall n d inner, order_of (ghost_box I E d inner) (ord n d inner)) -> bc_conserved cf = true ->
  let z' := ConvertBoundaryConditions cf flagged ord m c in
  (checked cf I E flagged c -> fluid_consistent cf c z' /\ same_primitives z' (check_zone cf c (c2p cf c (m c))) /\ z_rad z' = z_rad (c2p cf c (m c))) /\
  (~ checked cf I E flagged c -> z' = m c).
Proof.
  intros cf I E flagged ord m c Hord Hb z'.
  unfold z', ConvertBoundaryConditions. clear z'. rewrite Hb. cbn [negb]. rewrite !andb_false_r. cbv zeta.
  split.
  - intros (F & G & K). rewrite F, G. cbn [andb].
    destruct (each_ghost I E ord Hord 2 D1 false (p2c_zone cf) (each (ord 1%nat D1 false) (check_zone cf) (each (ord 0%nat D1 false) (c2p cf) m)) c) as [P _]. rewrite (P K).
    destruct (each_ghost I E ord Hord 1 D1 false (check_zone cf) (each (ord 0%nat D1 false) (c2p cf) m) c) as [Q _]. rewrite (Q K).
    destruct (each_ghost I E ord Hord 0 D1 false (c2p cf) m c) as [Z _]. rewrite (Z K).
    split; [apply p2c_zone_consistent|]. split; [repeat split; reflexivity|reflexivity].
  - intros Nc. destruct (fmks_check cf && flagged D1 false) eqn:F; [|reflexivity]. apply andb_prop in F. destruct F as [F G].
    assert (K : ~ in_box (ghost_box I E D1 false) c) by (intros K; apply Nc; repeat split; assumption).
    destruct (each_ghost I E ord Hord 2 D1 false (p2c_zone cf) (each (ord 1%nat D1 false) (check_zone cf) (each (ord 0%nat D1 false) (c2p cf) m)) c) as [_ P]. rewrite (P K).
    destruct (each_ghost I E ord Hord 1 D1 false (check_zone cf) (each (ord 0%nat D1 false) (c2p cf) m) c) as [_ Q]. rewrite (Q K).
    destruct (each_ghost I E ord Hord 0 D1 false (c2p cf) m c) as [_ Z]. exact (Z K).
Qed.
Print Assumptions C33_converted_conserved.

(** In either mode the checked zones hold no infalling gas afterwards, if the speed left after
    the check is below that of light (the other case is C33_no_inflow_refuted). *)
Theorem C33_checked_outflow : forall cf I E flagged ord m c,
  (forall n d inner, order_of (ghost_box I E d inner) (ord n d inner)) -> reads_primitives cf ->
  (1 <= ndim_ cf <= 3)%nat -> fluid_active cf = true -> checked cf I E flagged c ->
  three_plus_one (lapse cf c) (shift cf c) (gamma3 cf c) (gcov cf c) ->
  let z := if bc_conserved cf then c2p cf c (m c) else m c in
  let v : vec := fun i => match i with O => shift cf c 0%nat / lapse cf c | _ => z_vel z i / GetLorentzFactor (z_vel z) (gamma3 cf c) end in
  dot3 (gamma3 cf c) v v < 1 ->
  let z' := ConvertBoundaryConditions cf flagged ord m c in
  fluid_consistent cf c z' /\ 0 <= GetFourVelocity (z_vel z') (gamma3 cf c) (lapse cf c) (shift cf c) 1%nat.
Proof.
  intros cf I E flagged ord m c Hord Hr Hn Hf Hc H3 z v Hv z'.
  assert (Ez : z_vel z' = ox1_velocity (z_vel z) (gamma3 cf c) (lapse cf c) (shift cf c) /\ fluid_consistent cf c z').
  { unfold z', z. destruct (bc_conserved cf) eqn:Hb.
    - destruct (C33_converted_conserved cf I E flagged ord m c Hord Hb) as [A _]. destruct (A Hc) as (B & S & _).
      split; [|exact B]. destruct S as (_ & S & _). exact S.
    - destruct (C33_converted cf I E flagged ord m c Hord Hr Hn Hb Hf) as (X & A & _). split.
      + destruct (A Hc) as (_ & S & _). exact S.
      + apply X. destruct Hc as (F & G & K). exists D1, false. split; [unfold live; lia|]. split; assumption. }
  destruct Ez as [Ez Hcons]. split; [exact Hcons|].
  destruct (C33_no_inflow (lapse cf c) (shift cf c) (gamma3 cf c) (gcov cf c) (z_vel z) H3) as [P Q].
  rewrite Ez. destruct (Rle_lt_dec 0 (GetFourVelocity (z_vel z) (gamma3 cf c) (lapse cf c) (shift cf c) 1%nat)) as [L|L].
  - rewrite (P L). exact L.
  - destruct (Q L Hv) as [Q1 _]. rewrite Q1. lra.
Qed.
Print Assumptions C33_checked_outflow.

(** VIOLATION: with conserved boundary variables the check of the radiation flux has no effect
    on what is evolved: it changes H but never the conserved moments, so wherever it acts the
    two no longer agree (MomentPrim2Con is only called for primitive boundary variables, and
    H itself was not recomputed from the conserved moments before the check). *)
Theorem C33_conserved_radiation_refuted : exists cf I E flagged ord (m : PMem) c,
  (forall n d inner, order_of (ghost_box I E d inner) (ord n d inner)) /\ reads_primitives cf /\ bc_conserved cf = true /\
  checked cf I E flagged c /\ rad_consistent cf c (m c) /\
  let z' := ConvertBoundaryConditions cf flagged ord m c in
  z_H z' 0%nat 0%nat = 0 /\ snd (z_rad z' 0%nat) 0%nat = -1 /\ ~ rad_consistent cf c z'.
Proof.
  pose (B := {| ks := 0; ke := 0; js := 0; je := 0; is_ := 0; ie := 0 |}%Z).
  pose (E := {| ks := 0; ke := 0; js := 0; je := 0; is_ := -1; ie := 1 |}%Z).
  pose (cf := mkCC (fun _ => eta4) (fun _ => delta) (fun _ => delta) (fun _ => zero3) (fun _ => 1) (fun _ => 1) true false false 1 true true true true true 1
                (fun _ z => z) (fun _ z s => (z_J z s, z_H z s))).
  pose (c := (0, 0, 1)%Z).
  pose (z := mkPZ 1 zero3 zero3 1 0 1 1 {| cD := 1; cS := zero3; cB := zero3; ctau := 1; cye := 0; csig := zero3 |} (fun _ => 2) (fun _ => v3 (-1) 0 0) (fun _ => (2, v3 (-1) 0 0))).
  exists cf, B, E, (fun _ _ => true), (fun _ d inner => box_list (ghost_box B E d inner)), (fun _ => z), c.
  assert (Ho : forall (n : nat) d inner, order_of (ghost_box B E d inner) (box_list (ghost_box B E d inner))) by (intros; apply order_box_list).
  assert (Hc : checked cf B E (fun _ _ => true) c).
  { split; [reflexivity|]. split; [reflexivity|]. unfold c, ghost_box, B, E, in_box. cbn. lia. }
  split; [exact Ho|]. split. { intros c' z1 z2 s _ _ EJ EH. cbn. rewrite EJ, EH. reflexivity. }
  split; [reflexivity|]. split; [exact Hc|]. split. { intros s _. reflexivity. }
  intros z'.
  destruct (C33_converted_conserved cf B E (fun _ _ => true) (fun _ d inner => box_list (ghost_box B E d inner)) (fun _ => z) c Ho eq_refl) as [A _].
  destruct (A Hc) as (_ & S & Rd). fold z' in S, Rd.
  assert (H0 : z_H z' 0%nat 0%nat = 0).
  { destruct S as (_ & _ & _ & _ & _ & _ & _ & _ & SH). rewrite SH. unfold check_zone. cbn [z_H c2p cf rad_active num_species gamma3 gcon3 z].
    change (Nat.ltb 0 1) with true. cbv iota.
    unfold ox1_flux, s3, s33; num_R. unfold delta, v3. cbn [Nat.eqb row3]. unfold row3.
    rewrite (Rlt_bool_true (0 + 1 * -1 + 0 * 0 + 0 * 0) 0) by lra.
    match goal with |- context [Rlt_bool (99 / 100) ?x] => destruct (Rlt_bool (99 / 100) x) end; cbn; lra. }
  assert (Hf : snd (z_rad z' 0%nat) 0%nat = -1) by (rewrite Rd; reflexivity).
  split; [exact H0|]. split; [exact Hf|]. intros K. specialize (K 0%nat ltac:(cbn; lia)).
  assert (K2 : snd (z_rad z' 0%nat) 0%nat = z_H z' 0%nat 0%nat) by (rewrite K; reflexivity). rewrite Hf, H0 in K2. lra.
Qed.
Print Assumptions C33_conserved_radiation_refuted.

Example C33_converted_nonvacuous : exists cf I E flagged (ord : nat -> Dir -> bool -> list Cell) (m : PMem) c,
  (forall n d inner, order_of (ghost_box I E d inner) (ord n d inner)) /\ reads_primitives cf /\ (1 <= ndim_ cf <= 3)%nat /\
  bc_conserved cf = false /\ fluid_active cf = true /\ exposed cf I E flagged c /\ checked cf I E flagged c /\
  three_plus_one (lapse cf c) (shift cf c) (gamma3 cf c) (gcov cf c) /\ ~ fluid_consistent cf c (m c) /\ (m c).(z_vel) 0%nat < 0.
Proof.
  pose (B := {| ks := 0; ke := 0; js := 0; je := 0; is_ := 0; ie := 0 |}%Z).
  pose (E := {| ks := 0; ke := 0; js := 0; je := 0; is_ := -1; ie := 1 |}%Z).
  pose (cf := mkCC (fun _ => eta4) (fun _ => delta) (fun _ => delta) (fun _ => zero3) (fun _ => 1) (fun _ => 1) true false false 1 true false true true true 1
                (fun _ z => z) (fun _ z s => (z_J z s, z_H z s))).
  pose (z := mkPZ 1 (v3 (-1) 0 0) zero3 1 0 1 1 {| cD := 0; cS := zero3; cB := zero3; ctau := 1; cye := 0; csig := zero3 |} (fun _ => 2) (fun _ => v3 (-1) 0 0) (fun _ => (2, v3 (-1) 0 0))).
  exists cf, B, E, (fun _ _ => true), (fun _ d inner => box_list (ghost_box B E d inner)), (fun _ => z), (0, 0, 1)%Z.
  assert (K : in_box (ghost_box B E D1 false) (0, 0, 1)%Z) by (unfold ghost_box, B, E, in_box; cbn; lia).
  split; [intros; apply order_box_list|]. split. { intros c' z1 z2 s _ _ EJ EH. cbn. rewrite EJ, EH. reflexivity. }
  split; [cbn; lia|]. split; [reflexivity|]. split; [reflexivity|].
  split; [exists D1, false; split; [unfold live; cbn; lia|split; [reflexivity|exact K]]|].
  split; [split; [reflexivity|split; [reflexivity|exact K]]|].
  split; [exact (adm_tpo _ _ _ _ _ _ _ _ eta4_consistent)|]. split; [|cbn; lra].
  intros (D & _). cbn [z_cons z cD cf use_valencia z_rho z_vel] in D. unfold p2c in D. cbn [cD gdet3 cf gcov z_vel z] in D.
  assert (0 < GetLorentzFactor4 (v3 (-1) 0 0) eta4) by (unfold GetLorentzFactor4; apply sqrt_lt_R0; unfold sum3, eta4, v3; cbn [Nat.add Nat.eqb]; lra).
  assert (D' : 0 = 1 * 1 * GetLorentzFactor4 (v3 (-1) 0 0) eta4) by exact D. lra.
Qed.
