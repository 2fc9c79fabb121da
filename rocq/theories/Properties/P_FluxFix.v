(** C24: flux fixes at physical boundaries. *)
From Coq Require Import ZArith Reals List Bool Lia Lra.
From Flocq Require Import Core.
From Verif.Model Require Import Num ParFor FluxFix.
From Verif.Spec Require Import FluxSpec.
From Verif.Proofs Require Import NumR ParForProofs FluxFixProofs SumProofs.
Import ListNotations.
Local Open Scope R_scope.

(** FixFluxes enabled on a nonempty block of a 1-, 2- or 3-dimensional mesh; each of its
    loops runs in any order *)
Definition runs (cf : FixConf) (B : Box) (ord : Dir -> bool -> list Cell) : Prop :=
  enabled cf = true /\ (fndim cf = 1 \/ fndim cf = 2 \/ fndim cf = 3)%nat /\ nonempty B /\
  (forall d inner, order_of (face_box B d inner) (ord d inner)).
(** side (d, inner) is a physical boundary with condition [b] *)
Definition condition (cf : FixConf) (d : Dir) (inner : bool) (b : BC) : Prop :=
  live (fndim cf) d /\ user cf d inner = true /\ bc cf d inner = b.

Lemma zero_R : nlit 0 1 = 0 :> R.
Proof. num_R. field. Qed.

(** Outflow: no mass enters; mass that leaves keeps leaving at the same rate; nothing else
    is changed at that face. *)
Theorem C24_outflow : forall cf B ord (m : FluxMem R) d inner c, runs cf B ord -> condition cf d inner GrOutflow -> on_face B d inner c ->
  let F := m (d, CD, c) in let F' := FixFluxes cf ord m (d, CD, c) in
  F' = (if inner then Rmin F 0 else Rmax F 0) /\
  (if inner then F' <= 0 else 0 <= F') /\
  ((if inner then F <= 0 else 0 <= F) -> F' = F).
Proof.
  intros cf B ord m d inner c (En & Hnd & Hne & Ho) (L & U & Eb) Hf F F'.
  assert (E : F' = (if inner then Rmin F 0 else Rmax F 0)).
  { unfold F'. rewrite (fix_val cf B ord Hne Ho Hnd m d inner CD c En L Hf) by (apply axis_ghost_not; discriminate).
    unfold side_val. rewrite U, Eb. fold F. destruct (CVar_dec CD CD); [|congruence].
    destruct inner; rewrite ?std_min_R, ?std_max_R, zero_R; reflexivity. }
  rewrite E. split; [reflexivity|]. destruct inner.
  - split; [apply Rmin_r|]. intros K. apply Rmin_left, K.
  - split; [apply Rmax_r|]. intros K. apply Rmax_left, K.
Qed.
Print Assumptions C24_outflow.

(** the variables whose flux a wall or the axis stops *)
Definition stopped (cf : FixConf) (d : Dir) (inner : bool) (v : CVar) : Prop :=
  match bc cf d inner with
  | Reflect =>
      v = CD \/ v = Ctau \/
      match d with
      | D2 => v = CS 0 \/ v = CS 2 \/
              ((if inner then moments_active cf else has_E cf) = true /\
               exists s, (s < num_species cf)%nat /\ (v = CE s \/ v = CF s 0 \/ v = CF s 2))
      | _ => has_E cf = true /\ exists s, (s < num_species cf)%nat /\ v = CE s
      end
  | Polar => d = D2 /\
      (v = CD \/ v = Ctau \/ (exists i, (i < 3)%nat /\ (v = CS i \/ (has_B cf = true /\ v = CB i))) \/
       (has_E cf = true /\ exists s, (s < num_species cf)%nat /\ (v = CE s \/ v = CF s 0 \/ v = CF s 2)))
  | _ => False
  end.
Lemma in_rad_vars2 cf v : In v (rad_vars2 cf) <-> exists s, (s < num_species cf)%nat /\ (v = CE s \/ v = CF s 0 \/ v = CF s 2).
Proof.
  unfold rad_vars2. rewrite in_flat_map. split.
  - intros (s & Hs & Hv). apply in_seq in Hs. exists s. split; [lia|]. cbn in Hv. intuition congruence.
  - intros (s & Hs & Hv). exists s. split; [apply in_seq; lia|]. cbn. intuition congruence.
Qed.
Lemma in_reflect_vars cf v : In v (reflect_vars cf) <-> v = CD \/ v = Ctau \/ (has_E cf = true /\ exists s, (s < num_species cf)%nat /\ v = CE s).
Proof.
  unfold reflect_vars. rewrite in_app_iff. split.
  - intros [Hv|Hv]; [cbn in Hv; intuition congruence|]. right; right. destruct (has_E cf); [|destruct Hv]. split; [reflexivity|].
    apply in_flat_map in Hv. destruct Hv as (s & Hs & [Hv|[]]). apply in_seq in Hs. exists s. split; [lia|congruence].
  - intros [-> | [-> | (E & s & Hs & ->)]]; [left; left; reflexivity|left; right; left; reflexivity|]. right. rewrite E. apply in_flat_map.
    exists s. split; [apply in_seq; lia|left; reflexivity].
Qed.
Lemma in_polar_vars cf v : In v (polar_vars cf) <-> v = CD \/ v = Ctau \/ exists i, (i < 3)%nat /\ (v = CS i \/ (has_B cf = true /\ v = CB i)).
Proof.
  unfold polar_vars. rewrite in_app_iff, in_flat_map. split.
  - intros [Hv|(i & Hi & Hv)]; [cbn in Hv; intuition congruence|]. right; right. apply in_seq in Hi. exists i. split; [lia|].
    destruct Hv as [Hv|Hv]; [left; congruence|]. right. destruct (has_B cf); [|destruct Hv]. split; [reflexivity|]. destruct Hv as [Hv|[]]. congruence.
  - intros [-> | [-> | (i & Hi & Hv)]]; [left; left; reflexivity|left; right; left; reflexivity|]. right. exists i. split; [apply in_seq; lia|].
    destruct Hv as [-> | [E ->]]; [left; reflexivity|]. right. rewrite E. left. reflexivity.
Qed.
(** what a side does to variable v, in words *)
Lemma side_val_R cf d inner v (x : R) : user cf d inner = true ->
  (stopped cf d inner v -> side_val cf d inner v x = 0) /\
  (~ stopped cf d inner v -> (bc cf d inner = GrOutflow -> v <> CD) -> side_val cf d inner v x = x).
Proof.
  intros U. unfold side_val, stopped. rewrite U. destruct (bc cf d inner).
  - split; [tauto|]. intros _ K. destruct (CVar_dec v CD); [exfalso; apply K; [reflexivity|assumption]|reflexivity].
  - destruct d; unfold zval.
    + split; intros S; [|intros _]; destruct (in_dec CVar_dec v (reflect_vars cf)) as [I|I]; try (apply zero_R || reflexivity); rewrite in_reflect_vars in I; tauto.
    + assert (Iff : In v (reflect2_vars cf inner) <-> v = CD \/ v = Ctau \/ v = CS 0 \/ v = CS 2 \/
        ((if inner then moments_active cf else has_E cf) = true /\ exists s, (s < num_species cf)%nat /\ (v = CE s \/ v = CF s 0 \/ v = CF s 2))).
      { unfold reflect2_vars. rewrite in_app_iff. rewrite <- in_rad_vars2. cbn [In].
        destruct (if inner then moments_active cf else has_E cf); cbn [In]; (split; [intros [[K|[K|[K|[K|[]]]]]|K]; subst; tauto|intros [K|[K|[K|[K|K]]]]; subst; try tauto; destruct K; (discriminate || tauto)]). }
      split; intros S; [|intros _]; destruct (in_dec CVar_dec v (reflect2_vars cf inner)) as [I|I]; try (apply zero_R || reflexivity); rewrite Iff in I; tauto.
    + split; intros S; [|intros _]; destruct (in_dec CVar_dec v (reflect_vars cf)) as [I|I]; try (apply zero_R || reflexivity); rewrite in_reflect_vars in I; tauto.
  - destruct d; [split; [intros [K _]; discriminate|reflexivity]| |split; [intros [K _]; discriminate|reflexivity]].
    assert (Iff : In v (polar_all cf) <-> v = CD \/ v = Ctau \/ (exists i, (i < 3)%nat /\ (v = CS i \/ (has_B cf = true /\ v = CB i))) \/
       (has_E cf = true /\ exists s, (s < num_species cf)%nat /\ (v = CE s \/ v = CF s 0 \/ v = CF s 2))).
    { unfold polar_all. rewrite in_app_iff, in_polar_vars, <- in_rad_vars2. destruct (has_E cf); cbn [In]; (split; [tauto|intros [K|[K|[K|[K0 K]]]]; (discriminate || tauto)]). }
    unfold zval. split; intros S; [|intros _]; destruct (in_dec CVar_dec v (polar_all cf)) as [I|I]; try (apply zero_R || reflexivity); rewrite Iff in I; tauto.
  - split; [tauto|reflexivity].
Qed.

(** Walls and axis: the fluxes of the stopped variables vanish; in particular mass and
    energy, and on the axis momentum and magnetic field as well. *)
Theorem C24_wall_and_axis : forall cf B ord (m : FluxMem R) d inner c v, runs cf B ord -> live (fndim cf) d -> user cf d inner = true -> on_face B d inner c ->
  stopped cf d inner v -> FixFluxes cf ord m (d, v, c) = 0.
Proof.
  intros cf B ord m d inner c v (En & Hnd & Hne & Ho) L U Hf S.
  rewrite (fix_val cf B ord Hne Ho Hnd m d inner v c En L Hf).
  - apply side_val_R; assumption.
  - unfold stopped in S. destruct (Dir_dec d D2) as [->|K]; [apply axis_ghost_d2|]. apply axis_ghost_not. intros ->.
    destruct (bc cf d inner); [exact S| | |exact S].
    + destruct S as [S|[S|S]]; [discriminate|discriminate|]. destruct d; [|contradiction|]; destruct S as (_ & s & _ & S); discriminate.
    + destruct S. contradiction.
Qed.
Print Assumptions C24_wall_and_axis.
Corollary C24_axis_fluid : forall cf B ord (m : FluxMem R) inner c v, runs cf B ord -> condition cf D2 inner Polar -> on_face B D2 inner c ->
  In v ([CD; Ctau; CS 0; CS 1; CS 2] ++ (if has_B cf then [CB 0; CB 1; CB 2] else nil)) -> FixFluxes cf ord m (D2, v, c) = 0.
Proof.
  intros cf B ord m inner c v R (L & U & E) Hf I. apply (C24_wall_and_axis cf B ord m D2 inner c v R L U Hf).
  unfold stopped. rewrite E. split; [reflexivity|]. apply in_app_or in I. destruct I as [I|I].
  - cbn in I. destruct I as [<-|[<-|[<-|[<-|[<-|[]]]]]]; [tauto|tauto| | |]; right; right; left;
    [exists 0%nat|exists 1%nat|exists 2%nat]; (split; [lia|tauto]).
  - destruct (has_B cf); [|destruct I]. cbn in I. destruct I as [<-|[<-|[<-|[]]]]; right; right; left;
    [exists 0%nat|exists 1%nat|exists 2%nat]; (split; [lia|tauto]).
Qed.
Print Assumptions C24_axis_fluid.

(** Nothing else changes: an entry that differs afterwards lies on a physical boundary face
    of a live direction and is either the mass flux of an outflow face or a stopped variable,
    or is a flux of the second field component tangential to the axis in the first ghost row
    (an entry that no update of an interior zone reads). *)
Definition ghost_row (B : Box) (inner : bool) (c : Cell) : Prop :=
  let '(k, j, i) := c in (ks B <= k <= ke B /\ is_ B <= i <= ie B)%Z /\ j = (if inner then js B - 1 else je B + 1)%Z.
Theorem C24_untouched : forall cf B ord (m : FluxMem R) d v c, runs cf B ord -> FixFluxes cf ord m (d, v, c) <> m (d, v, c) ->
  (exists inner, live (fndim cf) d /\ on_face B d inner c /\ user cf d inner = true /\
     ((bc cf d inner = GrOutflow /\ v = CD) \/ stopped cf d inner v)) \/
  (exists inner, condition cf D2 inner Polar /\ has_B cf = true /\ v = CB 1 /\ d <> D2 /\ live (fndim cf) d /\ ghost_row B inner c).
Proof.
  intros cf B ord m d v c (En & Hnd & Hne & Ho) K.
  destruct (fix_cases cf B ord Hne Ho Hnd m d v c En) as [(inner & L & F & NG & E)|[(inner & L & P & G & E)|(_ & _ & E)]]; [| |congruence].
  - left. exists inner. split; [exact L|]. split; [exact F|]. rewrite E in K. clear E NG.
    destruct (user cf d inner) eqn:U; [|exfalso; apply K; unfold side_val; rewrite U; reflexivity].
    split; [reflexivity|]. unfold side_val in K. rewrite U in K. unfold stopped. destruct (bc cf d inner).
    + destruct (CVar_dec v CD); [tauto|congruence].
    + right. destruct d.
      * unfold zval in K. destruct (in_dec CVar_dec v (reflect_vars cf)) as [J|J]; [apply in_reflect_vars in J; tauto|congruence].
      * unfold zval in K. destruct (in_dec CVar_dec v (reflect2_vars cf inner)) as [J|J]; [|congruence].
        unfold reflect2_vars in J. apply in_app_or in J. destruct J as [J|J]; [cbn in J; intuition congruence|].
        destruct (if inner then _ else _); [|destruct J]. apply in_rad_vars2 in J. tauto.
      * unfold zval in K. destruct (in_dec CVar_dec v (reflect_vars cf)) as [J|J]; [apply in_reflect_vars in J; tauto|congruence].
    + right. destruct d; [congruence| |congruence]. split; [reflexivity|]. unfold zval in K.
      destruct (in_dec CVar_dec v (polar_all cf)) as [J|J]; [|congruence]. unfold polar_all in J. apply in_app_or in J.
      destruct J as [J|J]; [apply in_polar_vars in J; tauto|]. destruct (has_E cf); [|destruct J]. apply in_rad_vars2 in J. tauto.
    + congruence.
  - right. exists inner. destruct P as (_ & U & Eb). unfold condition. cbn in G. destruct G as (Kd & Gd & Ev & F).
    unfold ghost_dir in Gd. apply andb_prop in Gd. destruct Gd as [GB Gd].
    split; [split; [cbn; lia|split; assumption]|]. split; [exact GB|]. split; [exact Ev|]. split; [exact Kd|].
    split; [destruct d; [exact I|contradiction|cbn; apply Nat.eqb_eq, Gd]|]. destruct c as [[k j] i]. destruct inner; cbn in F |- *; lia.
Qed.
Print Assumptions C24_untouched.
(** The order in which the iterations of the loops run is immaterial. *)
Theorem C24_order : forall cf B ord ord' (m : FluxMem R) l, runs cf B ord -> runs cf B ord' -> FixFluxes cf ord m l = FixFluxes cf ord' m l.
Proof.
  intros cf B ord ord' m [[d v] c] (En & Hnd & Hne & Ho) (_ & _ & _ & Ho').
  destruct (fix_cases cf B ord Hne Ho Hnd m d v c En) as [(inner & L & F & NG & E)|[(inner & L & P & G & E)|(F & NG & E)]]; rewrite E; symmetry.
  - apply (fix_val cf B ord' Hne Ho' Hnd m d inner v c En L F NG).
  - pose proof G as G'. cbn in G'. destruct G' as (Kd & Gd & -> & F).
    pose proof (fix_ghost cf B ord' Hne Ho' Hnd m d inner _ En L P Kd Gd F) as E'.
    destruct inner; [|exact E']. rewrite <- E'. destruct c as [[k j] i]. cbn. replace (j + 1 - 1)%Z with j by lia. reflexivity.
  - apply (fix_frame cf B ord' Ho' Hnd m d v c F NG).
Qed.
Print Assumptions C24_order.
(** Switched off, the task does nothing. *)
Theorem C24_disabled : forall cf ord (m : FluxMem R), enabled cf = false -> FixFluxes cf ord m = m.
Proof. intros cf ord m E. unfold FixFluxes. rewrite E. reflexivity. Qed.
Print Assumptions C24_disabled.

(** Consequence: a block whose boundaries are all outflow, wall or axis never gains mass from
    outside, and keeps its mass exactly if there is no outflow. *)
Definition sealed (cf : FixConf) (d : Dir) (inner : bool) : Prop := user cf d inner = true /\ (bc cf d inner = Reflect \/ (bc cf d inner = Polar /\ d = D2)).
Theorem C24_mass_budget : forall cf B ord (m : FluxMem R) dx, runs cf B ord -> (forall d, 0 < dx d) ->
  (forall d inner, live (fndim cf) d -> sealed cf d inner \/ (user cf d inner = true /\ bc cf d inner = GrOutflow)) ->
  let F' d c := FixFluxes cf ord m (d, CD, c) in
  total B (gain (fndim cf) dx F') <= 0 /\
  ((forall d inner, live (fndim cf) d -> sealed cf d inner) -> total B (gain (fndim cf) dx F') = 0).
Proof.
  intros cf B ord m dx R Hdx Hs F'. pose proof R as (En & Hnd & Hne & Ho).
  assert (Zero : forall d inner c, live (fndim cf) d -> sealed cf d inner -> on_face B d inner c -> F' d c = 0).
  { intros d inner c L (U & S) Hf. apply (C24_wall_and_axis cf B ord m d inner c CD R L U Hf). unfold stopped.
    destruct S as [-> | [-> ->]]; [left; reflexivity|]. split; [reflexivity|left; reflexivity]. }
  assert (Sign : forall d c1 c2, live (fndim cf) d -> on_face B d true c1 -> on_face B d false c2 -> F' d c1 - F' d c2 <= 0).
  { intros d c1 c2 L F1 F2.
    assert (A1 : F' d c1 <= 0).
    { destruct (Hs d true L) as [S|(U & E)]; [rewrite (Zero d true c1 L S F1); lra|].
      apply (C24_outflow cf B ord m d true c1 R (conj L (conj U E)) F1). }
    assert (A2 : 0 <= F' d c2).
    { destruct (Hs d false L) as [S|(U & E)]; [rewrite (Zero d false c2 L S F2); lra|].
      apply (C24_outflow cf B ord m d false c2 R (conj L (conj U E)) F2). }
    lra. }
  assert (Split : total B (gain (fndim cf) dx F') =
    total B (fun c => F' D1 c - F' D1 (next D1 c)) * / dx D1 +
    (if Nat.ltb 1 (fndim cf) then total B (fun c => F' D2 c - F' D2 (next D2 c)) * / dx D2 else 0) +
    (if Nat.ltb 2 (fndim cf) then total B (fun c => F' D3 c - F' D3 (next D3 c)) * / dx D3 else 0)).
  { unfold gain, Rdiv. rewrite total_plus, total_plus, total_scal. f_equal; [f_equal|].
    - destruct (Nat.ltb 1 (fndim cf)); [apply total_scal|apply total_zero].
    - destruct (Nat.ltb 2 (fndim cf)); [apply total_scal|apply total_zero]. }
  assert (L2 : Nat.ltb 1 (fndim cf) = true -> live (fndim cf) D2) by (intros E; apply Nat.ltb_lt in E; cbn; lia).
  assert (L3 : Nat.ltb 2 (fndim cf) = true -> live (fndim cf) D3) by (intros E; apply Nat.ltb_lt in E; cbn; lia).
  assert (Inv : forall d, 0 < / dx d) by (intros d; apply Rinv_0_lt_compat, Hdx).
  assert (Neg : forall x y, x <= 0 -> 0 < y -> x * y <= 0) by (intros x y Hx Hy; nra).
  rewrite Split, (total_d1 B F' Hne), (total_d2 B F' Hne), (total_d3 B F' Hne). unfold nonempty in Hne. split.
  - assert (T1 : sum_range (ks B) (ke B) (fun k => sum_range (js B) (je B) (fun j => F' D1 (k, j, is_ B) - F' D1 (k, j, (ie B + 1)%Z))) * / dx D1 <= 0).
    { apply Neg; [|apply Inv]. apply le_zero_sum. intros k Hk. apply le_zero_sum. intros j Hj. apply Sign; [exact I|cbn; lia|cbn; lia]. }
    assert (T2 : (if Nat.ltb 1 (fndim cf) then sum_range (ks B) (ke B) (fun k => sum_range (is_ B) (ie B) (fun i => F' D2 (k, js B, i) - F' D2 (k, (je B + 1)%Z, i))) * / dx D2 else 0) <= 0).
    { destruct (Nat.ltb 1 (fndim cf)) eqn:E; [|lra]. apply Neg; [|apply Inv]. apply le_zero_sum. intros k Hk. apply le_zero_sum. intros i Hi. apply Sign; [apply L2; exact eq_refl|cbn; lia|cbn; lia]. }
    assert (T3 : (if Nat.ltb 2 (fndim cf) then sum_range (js B) (je B) (fun j => sum_range (is_ B) (ie B) (fun i => F' D3 (ks B, j, i) - F' D3 ((ke B + 1)%Z, j, i))) * / dx D3 else 0) <= 0).
    { destruct (Nat.ltb 2 (fndim cf)) eqn:E; [|lra]. apply Neg; [|apply Inv]. apply le_zero_sum. intros j Hj. apply le_zero_sum. intros i Hi. apply Sign; [apply L3; exact eq_refl|cbn; lia|cbn; lia]. }
    lra.
  - intros S. assert (Eq : forall d c1 c2, live (fndim cf) d -> on_face B d true c1 -> on_face B d false c2 -> F' d c1 - F' d c2 = 0).
    { intros d c1 c2 L F1 F2. rewrite (Zero d true c1 L (S d true L) F1), (Zero d false c2 L (S d false L) F2). ring. }
    rewrite (zero_sum (ks B) (ke B)).
    2:{ intros k Hk. apply zero_sum. intros j Hj. apply Eq; [exact I|cbn; lia|cbn; lia]. }
    destruct (Nat.ltb 1 (fndim cf)) eqn:E2.
    + rewrite (zero_sum (ks B) (ke B)).
      2:{ intros k Hk. apply zero_sum. intros i Hi. apply Eq; [apply L2; exact eq_refl|cbn; lia|cbn; lia]. }
      destruct (Nat.ltb 2 (fndim cf)) eqn:E3; [|ring]. rewrite (zero_sum (js B) (je B)); [ring|].
      intros j Hj. apply zero_sum. intros i Hi. apply Eq; [apply L3; exact eq_refl|cbn; lia|cbn; lia].
    + destruct (Nat.ltb 2 (fndim cf)) eqn:E3; [|ring]. rewrite (zero_sum (js B) (je B)); [ring|].
      intros j Hj. apply zero_sum. intros i Hi. apply Eq; [apply L3; exact eq_refl|cbn; lia|cbn; lia].
Qed.
Print Assumptions C24_mass_budget.

(** *** What the code does not do *)
(** On the axis the second component of the radiation flux passes (fixup.cpp:883-890). *)
Definition axis_conf (B : Box) : FixConf :=
  {| enabled := true; fndim := 2; num_species := 1; has_E := true; moments_active := true; has_B := true;
     user := fun d _ => match d with D2 => true | _ => false end; bc := fun _ _ => Polar |}.
Lemma axis_runs B : nonempty B -> runs (axis_conf B) B (fun d inner => box_list (face_box B d inner)).
Proof. intros N. split; [reflexivity|]. split; [cbn; tauto|]. split; [exact N|]. intros. apply order_box_list. Qed.
Theorem C24_axis_radiation_refuted : forall B c, nonempty B -> on_face B D2 true c -> exists cf ord (m : FluxMem R),
  runs cf B ord /\ condition cf D2 true Polar /\ FixFluxes cf ord m (D2, CF 0 1, c) <> 0.
Proof.
  intros B c N F. exists (axis_conf B), (fun d inner => box_list (face_box B d inner)), (fun _ => 1 : R).
  pose proof (axis_runs B N) as R. pose proof R as (En & Hnd & Hne & Ho).
  split; [exact R|]. split; [split; [cbn; tauto|split; reflexivity]|].
  rewrite (fix_val _ B _ Hne Ho Hnd _ D2 true (CF 0 1) c En (or_introl eq_refl) F (axis_ghost_d2 _ _ _ _)).
  destruct (side_val_R (axis_conf B) D2 true (CF 0 1) 1 eq_refl) as [_ S]. rewrite S; [lra| |intros; discriminate].
  unfold stopped. cbn. intros (_ & [K|[K|[(i & _ & [K|[_ K]])|(_ & s & _ & [K|[K|K]])]]]); discriminate.
Qed.
Print Assumptions C24_axis_radiation_refuted.
(** At an outflow face the electron-fraction flux is not limited with the mass flux: where
    the mass flux is set to zero, composition still enters. *)
Definition outflow_conf : FixConf :=
  {| enabled := true; fndim := 1; num_species := 0; has_E := false; moments_active := false; has_B := false;
     user := fun _ _ => true; bc := fun _ _ => GrOutflow |}.
Theorem C24_composition_refuted : forall B c, nonempty B -> on_face B D1 true c -> exists cf ord (m : FluxMem R),
  runs cf B ord /\ condition cf D1 true GrOutflow /\
  FixFluxes cf ord m (D1, CD, c) = 0 /\ 0 < FixFluxes cf ord m (D1, Cye, c).
Proof.
  intros B c N F. exists outflow_conf, (fun d inner => box_list (face_box B d inner)), (fun l => match l with (_, CD, _) => 1 | _ => / 2 end : R).
  assert (R : runs outflow_conf B (fun d inner => box_list (face_box B d inner))).
  { split; [reflexivity|]. split; [cbn; tauto|]. split; [exact N|]. intros. apply order_box_list. }
  assert (C : condition outflow_conf D1 true GrOutflow) by (split; [exact I|split; reflexivity]).
  split; [exact R|]. split; [exact C|]. split.
  - rewrite (proj1 (C24_outflow _ B _ _ D1 true c R C F)). cbv beta iota. apply Rmin_right. lra.
  - pose proof R as (En & Hnd & Hne & Ho).
    rewrite (fix_val _ B _ Hne Ho Hnd _ D1 true Cye c En I F) by (apply axis_ghost_not; discriminate).
    cbn. lra.
Qed.
Print Assumptions C24_composition_refuted.

(** the hypotheses are met *)
Definition box2 : Box := {| ks := 0; ke := 0; js := 2; je := 9; is_ := 2; ie := 9 |}.
Example C24_nonvacuous : exists ord, runs (axis_conf box2) box2 ord /\ condition (axis_conf box2) D2 true Polar /\ on_face box2 D2 true (0, 2, 5)%Z /\
  on_face box2 D2 false (0, 10, 5)%Z.
Proof.
  exists (fun d inner => box_list (face_box box2 d inner)). split; [apply axis_runs; unfold nonempty; cbn; lia|].
  split; [split; [cbn; tauto|split; reflexivity]|]. cbn. lia.
Qed.
Definition wall_conf : FixConf :=
  {| enabled := true; fndim := 3; num_species := 3; has_E := true; moments_active := true; has_B := false;
     user := fun _ _ => true; bc := fun d i => match d, i with D1, true => GrOutflow | _, _ => Reflect end |}.
Example C24_mass_nonvacuous : (forall d inner, live (fndim wall_conf) d -> sealed wall_conf d inner \/ (user wall_conf d inner = true /\ bc wall_conf d inner = GrOutflow)).
Proof. intros d inner _. destruct d, inner; try (left; split; [reflexivity|left; reflexivity]). right. split; reflexivity. Qed.
