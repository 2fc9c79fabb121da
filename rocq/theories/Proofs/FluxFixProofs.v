(** FixFluxes: effect of each side, frame, mass budget. *)
From Coq Require Import ZArith Reals List Bool Lia Lra.
From Flocq Require Import Core.
From Verif.Model Require Import Num ParFor FluxFix.
From Verif.Spec Require Import FluxSpec.
From Verif.Proofs Require Import NumR ParForProofs.
Import ListNotations.

Section Gen.
Context {T : Type} `{Num T}.
Implicit Types m : FluxMem T.
Lemma fput_same l x m : fput l x m l = x.
Proof. unfold fput. destruct (FLoc_dec l l); congruence. Qed.
Lemma fput_other l l' x m : l' <> l -> fput l x m l' = m l'.
Proof. unfold fput. destruct (FLoc_dec l' l); congruence. Qed.
Definition zeros (d : Dir) (c : Cell) (vs : list CVar) m : FluxMem T := fold_left (fun m v => fzero d v c m) vs m.
Definition zval (vs : list CVar) (v : CVar) (x : T) : T := if in_dec CVar_dec v vs then nlit 0 1 else x.
Lemma zeros_out d c vs m d' v c' : (d', c') <> (d, c) -> zeros d c vs m (d', v, c') = m (d', v, c').
Proof.
  intros K. unfold zeros. revert m. induction vs as [|w vs IH]; intros m; cbn; [reflexivity|].
  rewrite IH. unfold fzero. apply fput_other. congruence.
Qed.
Lemma zeros_in d c vs m v : zeros d c vs m (d, v, c) = zval vs v (m (d, v, c)).
Proof.
  unfold zeros, zval. revert m. induction vs as [|w vs IH]; intros m; cbn [fold_left]; [reflexivity|].
  rewrite IH. destruct (in_dec CVar_dec v vs) as [I|I]; destruct (in_dec CVar_dec v (w :: vs)) as [J|J]; [reflexivity| | |].
  - exfalso. apply J. right. exact I.
  - destruct J as [J|J]; [|contradiction]. subst w. unfold fzero. apply fput_same.
  - unfold fzero. apply fput_other. intros E. apply J. left. congruence.
Qed.
Lemma zeros_app d c vs ws m : zeros d c (vs ++ ws) m = zeros d c ws (zeros d c vs m).
Proof. unfold zeros. apply fold_left_app. Qed.
Lemma species_zeros n (vs : nat -> list CVar) d c m :
  species_loop n (fun s => zeros d c (vs s)) m = zeros d c (flat_map vs (seq 0 n)) m.
Proof.
  unfold species_loop. generalize (seq 0 n). intros l. revert m. induction l as [|s l IH]; intros m; cbn [flat_map fold_left]; [reflexivity|].
  rewrite zeros_app, IH. reflexivity.
Qed.

Definition reflect_vars (cf : FixConf) : list CVar := [CD; Ctau] ++ (if has_E cf then flat_map (fun s => [CE s]) (seq 0 (num_species cf)) else nil).
Definition rad_vars2 (cf : FixConf) : list CVar := flat_map (fun s => [CE s; CF s 0; CF s 2]) (seq 0 (num_species cf)).
Definition reflect2_vars (cf : FixConf) (inner : bool) : list CVar :=
  [CD; Ctau; CS 0; CS 2] ++ (if (if inner then moments_active cf else has_E cf) then rad_vars2 cf else nil).
Definition polar_vars (cf : FixConf) : list CVar :=
  [CD; Ctau] ++ flat_map (fun ii => CS ii :: (if has_B cf then [CB ii] else nil)) (seq 0 3).
Lemma reflect_zeros cf d c m : reflect_body cf d c m = zeros d c (reflect_vars cf) m.
Proof.
  unfold reflect_body, reflect_vars. rewrite zeros_app. destruct (has_E cf); [|reflexivity].
  rewrite <- species_zeros. reflexivity.
Qed.
Lemma rad_zeros cf c m : rad_x2 cf c m = zeros D2 c (rad_vars2 cf) m.
Proof. unfold rad_x2, rad_vars2. rewrite <- species_zeros. reflexivity. Qed.
Lemma reflect2_zeros cf inner c m : reflect2_body cf inner c m = zeros D2 c (reflect2_vars cf inner) m.
Proof.
  unfold reflect2_body, reflect2_vars. rewrite zeros_app. destruct (if inner then _ else _); [|reflexivity].
  rewrite rad_zeros. reflexivity.
Qed.

(** a loop that maps the value at (d, v, c) through g v *)
Definition pointwise (body : Cell -> FluxMem T -> FluxMem T) (d : Dir) (g : CVar -> T -> T) : Prop :=
  (forall c m v, body c m (d, v, c) = g v (m (d, v, c))) /\
  (forall c m d' v c', (d', c') <> (d, c) -> body c m (d', v, c') = m (d', v, c')).
Lemma zeros_pointwise d vs body : (forall c m, body c m = zeros d c vs m) -> pointwise body d (zval vs).
Proof.
  intros E. split.
  - intros c m v. rewrite E. apply zeros_in.
  - intros c m d' v c' K. rewrite E. apply zeros_out, K.
Qed.
Definition own_dir (d : Dir) (l : FLoc) : option Cell := let '(d', _, c) := l in if Dir_dec d' d then Some c else None.
Lemma par_pointwise body d g o m : pointwise body d g -> NoDup o ->
  (forall v c, In c o -> par_for o body m (d, v, c) = g v (m (d, v, c))) /\
  (forall d' v c, d' <> d \/ ~ In c o -> par_for o body m (d', v, c) = m (d', v, c)).
Proof.
  intros [P1 P2] N.
  assert (Own : forall v c, own_dir d (d, v, c) = Some c) by (intros v c; cbn; destruct (Dir_dec d d); congruence).
  assert (W : forall c m l, In c o -> own_dir d l <> Some c -> body c m l = m l).
  { intros c m' [[d' v] c'] _ K. apply P2. intros E. inversion E; subst. apply K, Own. }
  assert (Rd : forall c m m' l, In c o -> (forall l', own_dir d l' = Some c -> m l' = m' l') -> own_dir d l = Some c -> body c m l = body c m' l).
  { intros c m1 m2 [[d' v] c'] _ K E. assert (d' = d /\ c' = c) as [-> ->] by (cbn in E; destruct (Dir_dec d' d); [split; congruence|discriminate]).
    rewrite !P1. f_equal. apply K, E. }
  split.
  - intros v c I. exact (eq_trans (par_for_own body (own_dir d) o W Rd m _ c N (Own v c) I) (P1 c m v)).
  - intros d' v c K. apply (par_for_other body (own_dir d) o W). intros c' E. cbn in E. destruct (Dir_dec d' d); [|discriminate].
    inversion E; subst. destruct K; [congruence|assumption].
Qed.
Lemma outflow_pointwise d inner : pointwise (outflow_body d inner) d
  (fun v x => if CVar_dec v CD then (if inner then std_min x (nlit 0 1) else std_max x (nlit 0 1)) else x).
Proof.
  split.
  - intros c m v. unfold outflow_body. destruct (CVar_dec v CD) as [->|K]; [apply fput_same|]. apply fput_other. congruence.
  - intros c m d' v c' K. unfold outflow_body. apply fput_other. congruence.
Qed.

(** *** the polar axis *)
Definition below (c : Cell) : Cell := let '(k, j, i) := c in (k, (j - 1)%Z, i).
Definition above (c : Cell) : Cell := let '(k, j, i) := c in (k, (j + 1)%Z, i).
Definition polar_mid (cf : FixConf) (inner : bool) (c : Cell) m : FluxMem T :=
  let m := if has_B cf then
             if inner then fput (D1, CB 1, below c) (nopp (m (D1, CB 1, c))) m
             else fput (D1, CB 1, c) (nopp (m (D1, CB 1, below c))) m
           else m in
  if has_B cf && Nat.eqb (fndim cf) 3 then
    if inner then fput (D3, CB 1, below c) (nopp (m (D3, CB 1, c))) m
    else fput (D3, CB 1, c) (nopp (m (D3, CB 1, below c))) m
  else m.
Lemma polar_split cf inner c m : polar_body cf inner c m =
  (if has_E cf then zeros D2 c (rad_vars2 cf) else fun m => m) (polar_mid cf inner c (zeros D2 c (polar_vars cf) m)).
Proof.
  destruct c as [[k j] i]. unfold polar_body, polar_mid, polar_vars. cbn [below]. rewrite zeros_app.
  change (fzero D2 Ctau (k, j, i) (fzero D2 CD (k, j, i) m)) with (zeros D2 (k, j, i) [CD; Ctau] m).
  set (m1 := zeros D2 _ [CD; Ctau] m).
  assert (E : fold_left (fun m ii => if has_B cf then fzero D2 (CB ii) (k, j, i) (fzero D2 (CS ii) (k, j, i) m) else fzero D2 (CS ii) (k, j, i) m) (seq 0 3) m1
     = zeros D2 (k, j, i) (flat_map (fun ii => CS ii :: (if has_B cf then [CB ii] else nil)) (seq 0 3)) m1) by (cbn; destruct (has_B cf); reflexivity).
  rewrite E. destruct (has_E cf); [|reflexivity]. rewrite rad_zeros. reflexivity.
Qed.
(** all variables whose x2 flux vanishes on the axis *)
Definition polar_all (cf : FixConf) : list CVar := polar_vars cf ++ (if has_E cf then rad_vars2 cf else nil).
Lemma mid_d2 cf inner c m v c' : polar_mid cf inner c m (D2, v, c') = m (D2, v, c').
Proof.
  unfold polar_mid. destruct (has_B cf && Nat.eqb (fndim cf) 3), (has_B cf), inner; rewrite ?fput_other by discriminate; reflexivity.
Qed.
Lemma polar_d2 cf inner c m v : polar_body cf inner c m (D2, v, c) = zval (polar_all cf) v (m (D2, v, c)).
Proof.
  rewrite polar_split. unfold polar_all.
  assert (E : forall m', zval (polar_vars cf ++ (if has_E cf then rad_vars2 cf else nil)) v (m' (D2, v, c)) =
     zeros D2 c (polar_vars cf ++ (if has_E cf then rad_vars2 cf else nil)) m' (D2, v, c)) by (intros; symmetry; apply zeros_in).
  rewrite E, zeros_app. destruct (has_E cf).
  - rewrite !zeros_in, mid_d2, zeros_in. reflexivity.
  - rewrite mid_d2. reflexivity.
Qed.
Lemma polar_d2_other cf inner c m v c' : c' <> c -> polar_body cf inner c m (D2, v, c') = m (D2, v, c').
Proof.
  intros K. rewrite polar_split. destruct (has_E cf); rewrite ?zeros_out by congruence; rewrite mid_d2, zeros_out by congruence; reflexivity.
Qed.
(** the two ghost-row entries *)
Definition ghost_dir (cf : FixConf) (d : Dir) : bool := has_B cf && match d with D1 => true | D2 => false | D3 => Nat.eqb (fndim cf) 3 end.
Lemma below_neq c : below c <> c.
Proof. destruct c as [[k j] i]. cbn. intros E. inversion E. lia. Qed.
Lemma polar_ghost cf inner c m d v c' : d <> D2 ->
  polar_body cf inner c m (d, v, c') =
  if ghost_dir cf d then
    if CVar_dec v (CB 1) then
      if Cell_dec c' (if inner then below c else c) then nopp (m (d, CB 1, if inner then c else below c)) else m (d, v, c')
    else m (d, v, c')
  else m (d, v, c').
Proof.
  intros Kd. rewrite polar_split.
  assert (E1 : forall m', (if has_E cf then zeros D2 c (rad_vars2 cf) else fun m => m) m' (d, v, c') = m' (d, v, c'))
    by (intros m'; destruct (has_E cf); [apply zeros_out; congruence|reflexivity]).
  rewrite E1. set (z := zeros D2 c (polar_vars cf) m).
  assert (Z : forall w e, z (d, w, e) = m (d, w, e)) by (intros w e; apply zeros_out; congruence).
  unfold polar_mid, ghost_dir. destruct (has_B cf); [|cbn; apply Z]. cbn [andb].
  destruct (CVar_dec v (CB 1)) as [->|Kv].
  - destruct d; [| congruence |].
    + (* D1 *) destruct (Cell_dec c' (if inner then below c else c)) as [->|Kc].
      * destruct inner; destruct (Nat.eqb (fndim cf) 3); rewrite ?(fput_other (D3, CB 1, _)) by discriminate; rewrite fput_same, Z; reflexivity.
      * destruct inner; destruct (Nat.eqb (fndim cf) 3); rewrite ?(fput_other (D3, CB 1, _)) by discriminate; rewrite fput_other by congruence; apply Z.
    + (* D3 *) destruct (Nat.eqb (fndim cf) 3).
      2:{ destruct inner; rewrite fput_other by discriminate; apply Z. }
      destruct (Cell_dec c' (if inner then below c else c)) as [->|Kc].
      * destruct inner; rewrite fput_same, fput_other by discriminate; rewrite Z; reflexivity.
      * destruct inner; rewrite !fput_other by congruence; apply Z.
  - replace (if match d with D1 => true | D2 => false | D3 => Nat.eqb (fndim cf) 3 end then m (d, v, c') else m (d, v, c')) with (m (d, v, c')) by (destruct d; [reflexivity|reflexivity|destruct (Nat.eqb _ _); reflexivity]).
    destruct (Nat.eqb (fndim cf) 3), inner; rewrite ?fput_other by congruence; apply Z.
Qed.
Definition own_polar (f : Z) (l : FLoc) : option Cell :=
  let '(d, v, c) := l in let '(k, j, i) := c in
  match d with
  | D2 => Some c
  | _ => if Z.eq_dec j f then Some c else if Z.eq_dec j (f - 1) then Some (k, f, i) else None
  end.
Lemma par_polar cf inner (f : Z) (o : list Cell) m : NoDup o -> (forall k j i, In (k, j, i) o -> j = f) ->
  (forall v c, In c o -> par_for o (polar_body cf inner) m (D2, v, c) = zval (polar_all cf) v (m (D2, v, c))) /\
  (forall v c, ~ In c o -> par_for o (polar_body cf inner) m (D2, v, c) = m (D2, v, c)) /\
  (forall d v c, d <> D2 -> (ghost_dir cf d = false \/ v <> CB 1 \/ ~ In (if inner then above c else c) o) -> par_for o (polar_body cf inner) m (d, v, c) = m (d, v, c)) /\
  (forall d c, d <> D2 -> ghost_dir cf d = true -> In c o ->
     par_for o (polar_body cf inner) m (d, CB 1, if inner then below c else c) = nopp (m (d, CB 1, if inner then c else below c))).
Proof.
  intros N Hf.
  assert (W : forall c m l, In c o -> own_polar f l <> Some c -> polar_body cf inner c m l = m l).
  { intros c m' [[d v] c'] I K. destruct (Dir_dec d D2) as [->|Kd].
    - apply polar_d2_other. intros Ec. apply K. rewrite Ec. destruct c as [[k j] i]. reflexivity.
    - rewrite polar_ghost by exact Kd. destruct (ghost_dir cf d); [|reflexivity]. destruct (CVar_dec v (CB 1)); [|reflexivity].
      destruct (Cell_dec c' (if inner then below c else c)) as [E|]; [|reflexivity]. exfalso. apply K.
      destruct c as [[k j] i]. pose proof (Hf _ _ _ I) as ->. destruct inner; cbn [below] in E; subst c'; cbn; destruct d; try congruence.
      + destruct (Z.eq_dec (f - 1) f); [lia|]. destruct (Z.eq_dec (f - 1) (f - 1)); [reflexivity|lia].
      + destruct (Z.eq_dec (f - 1) f); [lia|]. destruct (Z.eq_dec (f - 1) (f - 1)); [reflexivity|lia].
      + destruct (Z.eq_dec f f); [reflexivity|lia].
      + destruct (Z.eq_dec f f); [reflexivity|lia]. }
  assert (OwnB : forall d c, In c o -> d <> D2 -> own_polar f (d, CB 1, below c) = Some c /\ own_polar f (d, CB 1, c) = Some c).
  { intros d [[k j] i] I Kd. pose proof (Hf _ _ _ I) as ->. destruct d; try congruence; cbn;
    (destruct (Z.eq_dec (f - 1) f); [lia|]); (destruct (Z.eq_dec (f - 1) (f - 1)); [|lia]); (destruct (Z.eq_dec f f); [|lia]); split; reflexivity. }
  assert (Rd : forall c m m' l, In c o -> (forall l', own_polar f l' = Some c -> m l' = m' l') -> own_polar f l = Some c -> polar_body cf inner c m l = polar_body cf inner c m' l).
  { intros c m1 m2 [[d v] c'] I K E. destruct (Dir_dec d D2) as [->|Kd].
    - assert (c' = c) as -> by (destruct c' as [[k j] i]; cbn in E; injection E; auto). rewrite !polar_d2. f_equal. apply K, E.
    - rewrite !polar_ghost by exact Kd. destruct (ghost_dir cf d); [|apply K, E]. destruct (CVar_dec v (CB 1)); [|apply K, E].
      destruct (Cell_dec c' (if inner then below c else c)) as [Ec|]; [|apply K, E]. f_equal. apply K.
      destruct (OwnB d c I Kd) as [O1 O2]. destruct inner; assumption. }
  assert (Own2 : forall v c, own_polar f (D2, v, c) = Some c) by (intros v [[k j] i]; reflexivity).
  split; [|split; [|split]].
  - intros v c I. exact (eq_trans (par_for_own _ _ o W Rd m _ c N (Own2 v c) I) (polar_d2 cf inner c m v)).
  - intros v c I. apply (par_for_other _ _ o W). intros c' E. rewrite Own2 in E. congruence.
  - intros d v c Kd K. destruct (own_polar f (d, v, c)) as [c0|] eqn:Eo; [destruct (in_dec Cell_dec c0 o) as [I|I]|].
    + refine (eq_trans (par_for_own _ _ o W Rd m _ c0 N Eo I) _). rewrite polar_ghost by exact Kd.
      destruct (ghost_dir cf d); [|reflexivity]. destruct (CVar_dec v (CB 1)) as [->|]; [|reflexivity].
      destruct (Cell_dec c _) as [->|]; [|reflexivity]. exfalso. destruct K as [K|[K|K]]; [discriminate|congruence|]. apply K.
      destruct inner; [|exact I]. destruct c0 as [[k j] i]. cbn. replace (j - 1 + 1)%Z with j by lia. exact I.
    + apply (par_for_other _ _ o W). intros c' E. congruence.
    + apply (par_for_other _ _ o W). intros c' E. congruence.
  - intros d c Kd G I. destruct (OwnB d c I Kd) as [O1 O2].
    assert (O : own_polar f (d, CB 1, if inner then below c else c) = Some c) by (destruct inner; assumption).
    refine (eq_trans (par_for_own _ _ o W Rd m _ c N O I) _). rewrite polar_ghost by exact Kd. rewrite G.
    destruct (CVar_dec (CB 1) (CB 1)); [|congruence]. destruct (Cell_dec _ _); [reflexivity|congruence].
Qed.

(** *** one side *)
Lemma face_box_spec B d inner c : in_box (face_box B d inner) c <-> on_face B d inner c.
Proof. destruct c as [[k j] i], d, inner; cbn; lia. Qed.
Definition side_val (cf : FixConf) (d : Dir) (inner : bool) (v : CVar) (x : T) : T :=
  if user cf d inner then
    match bc cf d inner, d with
    | GrOutflow, _ => if CVar_dec v CD then (if inner then std_min x (nlit 0 1) else std_max x (nlit 0 1)) else x
    | Reflect, D2 => zval (reflect2_vars cf inner) v x
    | Reflect, _ => zval (reflect_vars cf) v x
    | Polar, D2 => zval (polar_all cf) v x
    | _, _ => x
    end
  else x.
Definition polar_side (cf : FixConf) (d : Dir) (inner : bool) : Prop := d = D2 /\ user cf D2 inner = true /\ bc cf D2 inner = Polar.
(** the ghost-row entry that a polar side overwrites *)
Definition ghost (cf : FixConf) (B : Box) (inner : bool) (l : FLoc) : Prop :=
  let '(d, v, c) := l in d <> D2 /\ ghost_dir cf d = true /\ v = CB 1 /\ on_face B D2 inner (if inner then above c else c).
Lemma fix_side_spec cf B o d inner m : order_of (face_box B d inner) o ->
  (forall v c, on_face B d inner c -> fix_side cf o d inner m (d, v, c) = side_val cf d inner v (m (d, v, c))) /\
  (forall v c, ~ on_face B d inner c -> fix_side cf o d inner m (d, v, c) = m (d, v, c)) /\
  (forall d' v c, d' <> d -> ~ (polar_side cf d inner /\ ghost cf B inner (d', v, c)) -> fix_side cf o d inner m (d', v, c) = m (d', v, c)).
Proof.
  intros [N Ho].
  assert (Pw : forall body g, pointwise body d g -> side_body cf d inner = Some body -> (forall v x, side_val cf d inner v x = g v x) ->
    (forall v c, on_face B d inner c -> fix_side cf o d inner m (d, v, c) = side_val cf d inner v (m (d, v, c))) /\
    (forall v c, ~ on_face B d inner c -> fix_side cf o d inner m (d, v, c) = m (d, v, c)) /\
    (forall d' v c, d' <> d -> ~ (polar_side cf d inner /\ ghost cf B inner (d', v, c)) -> fix_side cf o d inner m (d', v, c) = m (d', v, c))).
  { intros body g P E V. unfold fix_side. rewrite E. destruct (par_pointwise body d g o m P N) as [A1 A2]. split; [|split].
    - intros v c F. rewrite V. apply A1, Ho, face_box_spec, F.
    - intros v c F. apply A2. right. intros I. apply F, face_box_spec, Ho, I.
    - intros d' v c K _. apply A2. left. exact K. }
  assert (Nop : side_body cf d inner = None -> (forall v x, side_val cf d inner v x = x) ->
    (forall v c, on_face B d inner c -> fix_side cf o d inner m (d, v, c) = side_val cf d inner v (m (d, v, c))) /\
    (forall v c, ~ on_face B d inner c -> fix_side cf o d inner m (d, v, c) = m (d, v, c)) /\
    (forall d' v c, d' <> d -> ~ (polar_side cf d inner /\ ghost cf B inner (d', v, c)) -> fix_side cf o d inner m (d', v, c) = m (d', v, c))).
  { intros E V. unfold fix_side. rewrite E. split; [intros; rewrite V; reflexivity|split; intros; reflexivity]. }
  unfold side_body, side_val, polar_side in *. destruct (user cf d inner) eqn:Eu; [|apply Nop; reflexivity].
  destruct (bc cf d inner) eqn:Eb.
  - eapply Pw; [apply outflow_pointwise|reflexivity|reflexivity].
  - destruct d.
    + eapply Pw; [apply (zeros_pointwise D1 (reflect_vars cf)); intros; apply reflect_zeros|reflexivity|reflexivity].
    + eapply Pw; [apply (zeros_pointwise D2 (reflect2_vars cf inner)); intros; apply reflect2_zeros|reflexivity|reflexivity].
    + eapply Pw; [apply (zeros_pointwise D3 (reflect_vars cf)); intros; apply reflect_zeros|reflexivity|reflexivity].
  - destruct d; [apply Nop; reflexivity| |apply Nop; reflexivity]. clear Pw Nop.
    unfold fix_side, side_body. rewrite Eu, Eb.
    destruct (par_polar cf inner (if inner then js B else (je B + 1)%Z) o m N) as (A1 & A2 & A3 & A4).
    { intros k j i I. apply Ho, face_box_spec in I. cbn in I. tauto. }
    split; [|split].
    + intros v c F. apply A1, Ho, face_box_spec, F.
    + intros v c F. apply A2. intros I. apply F, face_box_spec, Ho, I.
    + intros d' v c K G. apply A3; [exact K|].
      destruct (ghost_dir cf d') eqn:Eg; [|left; reflexivity]. destruct (CVar_dec v (CB 1)) as [Ev|Ev]; [|right; left; exact Ev].
      right; right. intros I. apply G. split; [tauto|]. cbn. split; [exact K|]. split; [exact Eg|]. split; [exact Ev|]. apply face_box_spec, Ho, I.
  - destruct d; apply Nop; reflexivity.
Qed.
Lemma fix_side_ghost cf B o inner m : order_of (face_box B D2 inner) o -> polar_side cf D2 inner ->
  forall d c, d <> D2 -> ghost_dir cf d = true -> on_face B D2 inner c ->
    fix_side cf o D2 inner m (d, CB 1, if inner then below c else c) = nopp (m (d, CB 1, if inner then c else below c)).
Proof.
  intros [N Ho] (_ & Eu & Eb) d c Kd G F. unfold fix_side, side_body. rewrite Eu, Eb.
  destruct (par_polar cf inner (if inner then js B else (je B + 1)%Z) o m N) as (_ & _ & _ & A4).
  { intros k j i I. apply Ho, face_box_spec in I. cbn in I. tauto. }
  apply A4; [exact Kd|exact G|]. apply Ho, face_box_spec, F.
Qed.

(** *** the whole task *)
Section All.
Variables (cf : FixConf) (B : Box) (ord : Dir -> bool -> list Cell).
Hypothesis Hne : nonempty B.
Hypothesis Hord : forall d inner, order_of (face_box B d inner) (ord d inner).
Hypothesis Hnd : (fndim cf = 1 \/ fndim cf = 2 \/ fndim cf = 3)%nat.
Lemma on_face_two d c : on_face B d true c -> on_face B d false c -> False.
Proof. unfold nonempty in Hne. destruct c as [[k j] i], d; cbn; lia. Qed.
Let sides (d : Dir) m : FluxMem T := fix_side cf (ord d false) d false (fix_side cf (ord d true) d true m).
(** both sides of one direction *)
Lemma sides_val d m inner v c : on_face B d inner c -> sides d m (d, v, c) = side_val cf d inner v (m (d, v, c)).
Proof.
  intros F. unfold sides.
  destruct (fix_side_spec cf B _ d true m (Hord d true)) as (A1 & A2 & _).
  destruct (fix_side_spec cf B _ d false (fix_side cf (ord d true) d true m) (Hord d false)) as (B1 & B2 & _).
  destruct inner.
  - rewrite B2 by (intros F'; apply (on_face_two d c F F')). apply A1, F.
  - rewrite (B1 v c F). f_equal. apply A2. intros F'. apply (on_face_two d c F' F).
Qed.
Lemma sides_off d m v c : (forall inner, ~ on_face B d inner c) -> sides d m (d, v, c) = m (d, v, c).
Proof.
  intros F. unfold sides.
  destruct (fix_side_spec cf B _ d true m (Hord d true)) as (_ & A2 & _).
  destruct (fix_side_spec cf B _ d false (fix_side cf (ord d true) d true m) (Hord d false)) as (_ & B2 & _).
  rewrite B2 by apply F. apply A2, F.
Qed.
Lemma sides_dir d m d' v c : d' <> d -> (forall inner, ~ (polar_side cf d inner /\ ghost cf B inner (d', v, c))) -> sides d m (d', v, c) = m (d', v, c).
Proof.
  intros K G. unfold sides.
  destruct (fix_side_spec cf B _ d true m (Hord d true)) as (_ & _ & A3).
  destruct (fix_side_spec cf B _ d false (fix_side cf (ord d true) d true m) (Hord d false)) as (_ & _ & B3).
  rewrite B3 by (try apply G; exact K). apply A3; [exact K|apply G].
Qed.
Lemma FixFluxes_sides m : enabled cf = true -> FixFluxes cf ord m =
  let m1 := sides D1 m in
  if Nat.eqb (fndim cf) 1 then m1 else let m2 := sides D2 m1 in if Nat.eqb (fndim cf) 2 then m2 else sides D3 m2.
Proof. intros E. unfold FixFluxes. rewrite E. reflexivity. Qed.
(** [any] ghost-row entry touched by the polar sides *)
Definition axis_ghost (l : FLoc) : Prop := (1 < fndim cf)%nat /\ exists inner, polar_side cf D2 inner /\ ghost cf B inner l.
Lemma axis_ghost_not v c d : v <> CB 1 -> ~ axis_ghost (d, v, c).
Proof. clear Hne Hord Hnd sides ord. intros K (_ & inner & _ & G). cbn in G. tauto. Qed.
Lemma axis_ghost_d2 v c : ~ axis_ghost (D2, v, c).
Proof. clear Hne Hord Hnd sides. intros (_ & inner & _ & G). cbn in G. tauto. Qed.
Lemma no_polar d inner l : d <> D2 -> ~ (polar_side cf d inner /\ ghost cf B inner l).
Proof. intros K [[E _] _]. contradiction. Qed.
(** value of every flux entry after the task *)
Lemma fix_val m d inner v c : enabled cf = true -> live (fndim cf) d -> on_face B d inner c -> ~ axis_ghost (d, v, c) ->
  FixFluxes cf ord m (d, v, c) = side_val cf d inner v (m (d, v, c)).
Proof.
  intros En L F G. rewrite (FixFluxes_sides m En). cbv zeta.
  assert (G2 : (1 < fndim cf)%nat -> forall inner', ~ (polar_side cf D2 inner' /\ ghost cf B inner' (d, v, c))).
  { intros L2 inner' K. apply G. split; [exact L2|]. exists inner'. exact K. }
  destruct d.
  - destruct Hnd as [E|[E|E]]; rewrite ?E; cbn [Nat.eqb].
    + apply sides_val, F.
    + rewrite sides_dir by (try discriminate; apply G2; lia). apply sides_val, F.
    + rewrite sides_dir by (try discriminate; intros; apply no_polar; discriminate).
      rewrite sides_dir by (try discriminate; apply G2; lia). apply sides_val, F.
  - assert (K1 : sides D1 m (D2, v, c) = m (D2, v, c)) by (apply sides_dir; [discriminate|intros; apply no_polar; discriminate]).
    cbn in L. destruct L as [E|E]; rewrite E; cbn [Nat.eqb].
    + rewrite (sides_val D2 _ inner v c F), K1. reflexivity.
    + rewrite sides_dir by (try discriminate; intros; apply no_polar; discriminate).
      rewrite (sides_val D2 _ inner v c F), K1. reflexivity.
  - cbn in L. rewrite L. cbn [Nat.eqb]. rewrite (sides_val D3 _ inner v c F). f_equal.
    rewrite sides_dir by (try discriminate; apply G2; lia).
    apply sides_dir; [discriminate|intros; apply no_polar; discriminate].
Qed.
Lemma fix_frame m d v c : (live (fndim cf) d -> forall inner, ~ on_face B d inner c) -> ~ axis_ghost (d, v, c) ->
  FixFluxes cf ord m (d, v, c) = m (d, v, c).
Proof.
  intros F G. destruct (enabled cf) eqn:En; [|unfold FixFluxes; rewrite En; reflexivity].
  rewrite (FixFluxes_sides m En). cbv zeta.
  assert (G2 : (1 < fndim cf)%nat -> forall inner', ~ (polar_side cf D2 inner' /\ ghost cf B inner' (d, v, c))).
  { intros L2 inner' K. apply G. split; [exact L2|]. exists inner'. exact K. }
  assert (S1 : sides D1 m (d, v, c) = m (d, v, c)).
  { destruct (Dir_dec d D1) as [->|K]; [apply sides_off, F; exact I|]. apply sides_dir; [exact K|intros; apply no_polar; discriminate]. }
  assert (S2 : forall m', (1 < fndim cf)%nat -> sides D2 m' (d, v, c) = m' (d, v, c)).
  { intros m' L2. destruct (Dir_dec d D2) as [->|K]; [apply sides_off, F; cbn; lia|]. apply sides_dir; [exact K|apply G2, L2]. }
  assert (S3 : forall m', (2 < fndim cf)%nat -> sides D3 m' (d, v, c) = m' (d, v, c)).
  { intros m' L2. destruct (Dir_dec d D3) as [->|K]; [apply sides_off, F; cbn; lia|]. apply sides_dir; [exact K|intros; apply no_polar; discriminate]. }
  destruct Hnd as [E|[E|E]]; rewrite ?E; cbn [Nat.eqb].
  - exact S1.
  - rewrite S2 by lia. exact S1.
  - rewrite S3, S2 by lia. exact S1.
Qed.
(** no side of x1 or x3 changes a magnetic flux *)
Lemma side_B d inn x : d <> D2 -> side_val cf d inn (CB 1) x = x.
Proof.
  intros Kd. unfold side_val. destruct (user cf d inn); [|reflexivity]. destruct (bc cf d inn); [reflexivity| |destruct d; congruence|reflexivity].
  destruct d; [|congruence|]; unfold zval; (destruct (in_dec _ _ _) as [I|]; [|reflexivity]); exfalso; unfold reflect_vars in I; apply in_app_or in I;
  (destruct I as [I|I]; [cbn in I; intuition discriminate|]; destruct (has_E cf); [|destruct I]; apply in_flat_map in I; destruct I as (s & _ & [I|[]]); discriminate).
Qed.
Lemma on_face_dec d inn c : {on_face B d inn c} + {~ on_face B d inn c}.
Proof.
  destruct c as [[k j] i]. unfold on_face.
  destruct (Z_le_dec (ks B) k), (Z_le_dec k (ke B)), (Z_le_dec (js B) j), (Z_le_dec j (je B)), (Z_le_dec (is_ B) i), (Z_le_dec i (ie B)),
    (Z.eq_dec i (if inn then is_ B else ie B + 1)%Z), (Z.eq_dec j (if inn then js B else je B + 1)%Z), (Z.eq_dec k (if inn then ks B else ke B + 1)%Z); destruct d;
    try (left; lia); right; lia.
Qed.
Lemma sides_B d m c : d <> D2 -> sides d m (d, CB 1, c) = m (d, CB 1, c).
Proof.
  intros Kd. unfold sides.
  destruct (fix_side_spec cf B _ d true m (Hord d true)) as (A1 & A2 & _).
  destruct (fix_side_spec cf B _ d false (fix_side cf (ord d true) d true m) (Hord d false)) as (B1 & B2 & _).
  destruct (on_face_dec d false c) as [F0|F0]; [rewrite (B1 _ _ F0), side_B by exact Kd|rewrite (B2 _ _ F0)];
  (destruct (on_face_dec d true c) as [F1|F1]; [rewrite (A1 _ _ F1), side_B by exact Kd|rewrite (A2 _ _ F1)]); reflexivity.
Qed.
(** ghost-row entries *)
Lemma fix_ghost m d inner c : enabled cf = true -> (1 < fndim cf)%nat -> polar_side cf D2 inner -> d <> D2 -> ghost_dir cf d = true ->
  on_face B D2 inner c ->
  FixFluxes cf ord m (d, CB 1, if inner then below c else c) = nopp (m (d, CB 1, if inner then c else below c)).
Proof.
  intros En L2 P Kd Gd F. rewrite (FixFluxes_sides m En). cbv zeta. set (m1 := sides D1 m).
  assert (V : sides D2 m1 (d, CB 1, if inner then below c else c) = nopp (m (d, CB 1, if inner then c else below c))).
  { assert (M1 : forall c, m1 (d, CB 1, c) = m (d, CB 1, c)).
    { intros c0. unfold m1. destruct (Dir_dec d D1) as [->|K1]; [apply sides_B; discriminate|]. apply sides_dir; [exact K1|intros; apply no_polar; discriminate]. }
    rewrite <- M1. unfold sides. unfold nonempty in Hne. destruct inner.
    - destruct (fix_side_spec cf B _ D2 false (fix_side cf (ord D2 true) D2 true m1) (Hord D2 false)) as (_ & _ & B3).
      rewrite B3; [apply (fix_side_ghost cf B _ true m1 (Hord D2 true) P d c Kd Gd F)|exact Kd|].
      intros [_ (_ & _ & _ & K)]. destruct c as [[k j] i]. cbn in K, F. lia.
    - rewrite (fix_side_ghost cf B _ false _ (Hord D2 false) P d c Kd Gd F). f_equal.
      destruct (fix_side_spec cf B _ D2 true m1 (Hord D2 true)) as (_ & _ & A3). apply A3; [exact Kd|].
      intros [_ (_ & _ & _ & K)]. destruct c as [[k j] i]. cbn in K, F. lia. }
  destruct Hnd as [E|[E|E]]; rewrite ?E; cbn [Nat.eqb]; [lia|exact V|].
  rewrite <- V. destruct (Dir_dec d D3) as [->|K3]; [apply sides_B; discriminate|apply sides_dir; [exact K3|intros; apply no_polar; discriminate]].
Qed.
Lemma axis_ghost_dec l : {axis_ghost l} + {~ axis_ghost l}.
Proof.
  destruct l as [[d v] c]. destruct (Dir_dec d D2) as [->|Kd]; [right; apply axis_ghost_d2|].
  destruct (CVar_dec v (CB 1)) as [->|Kv]; [|right; apply axis_ghost_not, Kv].
  destruct (bool_dec (ghost_dir cf d) true) as [Eg|Eg]; [|right; intros (_ & inner & _ & G); cbn in G; tauto].
  destruct (le_lt_dec (fndim cf) 1) as [Hd|Hd]; [right; intros [X _]; lia|].
  assert (Dec1 : forall inner, {polar_side cf D2 inner /\ on_face B D2 inner (if inner then above c else c)} + {~ (polar_side cf D2 inner /\ on_face B D2 inner (if inner then above c else c))}).
  { intros inner. unfold polar_side. destruct (bool_dec (user cf D2 inner) true) as [Eu|Eu]; [|right; tauto].
    assert ({bc cf D2 inner = Polar} + {bc cf D2 inner <> Polar}) as [Eb|Eb] by decide equality; [|right; tauto].
    destruct (on_face_dec D2 inner (if inner then above c else c)); [left; tauto|right; tauto]. }
  destruct (Dec1 true) as [[P F]|N1]; [left; split; [exact Hd|]; exists true; cbn; tauto|].
  destruct (Dec1 false) as [[P F]|N2]; [left; split; [exact Hd|]; exists false; cbn; tauto|].
  right. intros (_ & inner & P & G). cbn in G. destruct inner; [apply N1|apply N2]; tauto.
Qed.
Lemma live_dec d : {live (fndim cf) d} + {~ live (fndim cf) d}.
Proof.
  destruct d; cbn; [left; exact I|destruct (Nat.eq_dec (fndim cf) 2), (Nat.eq_dec (fndim cf) 3); try (left; tauto); right; tauto|apply Nat.eq_dec].
Qed.
(** complete description *)
Lemma fix_cases m d v c : enabled cf = true ->
  (exists inner, live (fndim cf) d /\ on_face B d inner c /\ ~ axis_ghost (d, v, c) /\ FixFluxes cf ord m (d, v, c) = side_val cf d inner v (m (d, v, c))) \/
  (exists inner, (1 < fndim cf)%nat /\ polar_side cf D2 inner /\ ghost cf B inner (d, v, c) /\
     FixFluxes cf ord m (d, v, c) = nopp (m (d, CB 1, if inner then above c else below c))) \/
  ((live (fndim cf) d -> forall inner, ~ on_face B d inner c) /\ ~ axis_ghost (d, v, c) /\ FixFluxes cf ord m (d, v, c) = m (d, v, c)).
Proof.
  intros En. destruct (axis_ghost_dec (d, v, c)) as [G|G].
  - right. left. destruct G as (L & inner & P & G). exists inner. split; [exact L|]. split; [exact P|]. split; [exact G|].
    cbn in G. destruct G as (Kd & Gd & -> & F). pose proof (fix_ghost m d inner _ En L P Kd Gd F) as E.
    destruct inner; [|exact E]. rewrite <- E. destruct c as [[k j] i]. cbn. replace (j + 1 - 1)%Z with j by lia. reflexivity.
  - destruct (live_dec d) as [L|L].
    2:{ right; right. split; [tauto|]. split; [exact G|]. apply fix_frame; [tauto|exact G]. }
    destruct (on_face_dec d true c) as [F|F]; [left; exists true; split; [exact L|]; split; [exact F|]; split; [exact G|]; apply fix_val; assumption|].
    destruct (on_face_dec d false c) as [F'|F']; [left; exists false; split; [exact L|]; split; [exact F'|]; split; [exact G|]; apply fix_val; assumption|].
    right; right. assert (K : forall inner, ~ on_face B d inner c) by (intros [|]; assumption). split; [intros _; exact K|]. split; [exact G|].
    apply fix_frame; [intros _; exact K|exact G].
Qed.
End All.
End Gen.
