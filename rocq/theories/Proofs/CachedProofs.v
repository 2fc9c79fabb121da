From Coq Require Import Reals ZArith Arith List Permutation Lra Lia Bool.
From Coquelicot Require Import Coquelicot.
From Verif.Spec Require Import Tensor GeomSpec SystemSpec CacheSpec.
From Verif.Model Require Import Num Robust LinearAlgebra Geometry Interpolation Cached.
From Verif.Proofs Require Import GeomBase TensorTac LinearAlgebraProofs AdmProofs.
Import ListNotations.
Local Open Scope R_scope.

(** ---- memory ---- *)
Lemma addr_eqb_spec x y : addr_eqb x y = true <-> x = y.
Proof.
  destruct x as [[[[b s] k] j] i], y as [[[[b' s'] k'] j'] i']. unfold addr_eqb.
  rewrite !andb_true_iff, !Z.eqb_eq, Nat.eqb_eq. split; [intuition congruence|].
  intros E. injection E. tauto.
Qed.
Lemma addr_eqb_refl x : addr_eqb x x = true. Proof. now apply addr_eqb_spec. Qed.

Lemma run_app W1 W2 m : run (W1 ++ W2) m = run W2 (run W1 m).
Proof. apply fold_left_app. Qed.

Lemma run_keep W m a v : m a = v -> (forall v', In (a, v') W -> v' = v) -> run W m a = v.
Proof.
  revert m. induction W as [|[a' v'] W IH]; intros m Hm HW; [exact Hm|].
  apply IH.
  - unfold store; cbn [fst snd]. destruct (addr_eqb a a') eqn:E; [|exact Hm].
    apply addr_eqb_spec in E. subst a'. apply HW. now left.
  - intros w Hw. apply HW. now right.
Qed.
Lemma run_in W m a v : In (a, v) W -> (forall v', In (a, v') W -> v' = v) -> run W m a = v.
Proof.
  revert m. induction W as [|[a' v'] W IH]; intros m Hi HW; [destruct Hi|].
  change (run W (store m (a', v')) a = v).
  destruct Hi as [E|Hi].
  - apply run_keep.
    + injection E as -> ->. unfold store; cbn. now rewrite addr_eqb_refl.
    + intros w Hw. apply HW. now right.
  - apply IH; [assumption|]. intros w Hw. apply HW. now right.
Qed.

Lemma Forall2_perm_in (Ws : list (list write)) loops : Forall2 (@Permutation write) Ws loops ->
  forall w, In w (concat Ws) <-> In w (concat loops).
Proof.
  induction 1 as [|x y l l' Hp _ IH]; intros w; cbn; [tauto|].
  rewrite !in_app_iff, IH. split; intros [H|H]; try tauto; left.
  - now apply (Permutation_in _ Hp).
  - now apply (Permutation_in _ (Permutation_sym Hp)).
Qed.

Lemma exec_read pre p post W m a v : execution (pre ++ p :: post) W ->
  In (a, v) p -> (forall v', In (a, v') p -> v' = v) ->
  (forall q v', In q post -> In (a, v') q -> v' = v) -> run W m a = v.
Proof.
  intros (Ws & HF & ->) Hi Hp Hq.
  apply Forall2_app_inv_r in HF. destruct HF as (W1 & Wr & H1 & Hr & ->).
  inversion Hr as [|x y l l' Hx Hl]; subst. clear Hr.
  rewrite concat_app. cbn [concat]. rewrite !run_app.
  apply run_keep.
  - apply run_in.
    + now apply (Permutation_in _ (Permutation_sym Hx)).
    + intros v' Hv. apply Hp. now apply (Permutation_in _ Hx).
  - intros v' Hv. apply (Forall2_perm_in _ _ Hl) in Hv. apply in_concat in Hv.
    destruct Hv as (q & Hq1 & Hq2). eauto.
Qed.

Lemma in_zrange x s e : In x (zrange s e) <-> (s <= x <= e)%Z.
Proof.
  unfold zrange. rewrite in_map_iff. split.
  - intros (n & <- & Hn). apply in_seq in Hn. lia.
  - intros H. exists (Z.to_nat (x - s)). split; [lia|]. apply in_seq. lia.
Qed.
Lemma in_par_for nb ks ke js je is_ ie body w :
  In w (par_for nb ks ke js je is_ ie body) <->
  exists b k j i, (0 <= b < nb)%Z /\ (ks <= k <= ke)%Z /\ (js <= j <= je)%Z /\ (is_ <= i <= ie)%Z
                  /\ In w (body b k j i).
Proof.
  unfold par_for. split.
  - intros H. apply in_flat_map in H. destruct H as (b & Hb & H).
    apply in_flat_map in H. destruct H as (k & Hk & H). apply in_flat_map in H. destruct H as (j & Hj & H).
    apply in_flat_map in H. destruct H as (i & Hi & H). apply in_zrange in Hb, Hk, Hj, Hi.
    exists b, k, j, i. repeat split; try lia. exact H.
  - intros (b & k & j & i & Hb & Hk & Hj & Hi & H).
    apply in_flat_map. exists b. split; [apply in_zrange; lia|].
    apply in_flat_map. exists k. split; [apply in_zrange; lia|].
    apply in_flat_map. exists j. split; [apply in_zrange; lia|].
    apply in_flat_map. exists i. split; [apply in_zrange; lia|]. exact H.
Qed.

(** ---- what each slot holds ---- *)
Definition mu_of (c : nat) : nat := nth c [0; 0; 1; 0; 1; 2; 0; 1; 2; 3]%nat 0%nat.
Definition nu_of (c : nat) : nat := nth c [0; 1; 1; 2; 2; 2; 3; 3; 3; 3]%nat 0%nat.

Section C.
Variable S : System.
Variable co : Z -> BlockCoords.
Variable ax td fd : bool.
Variable first : Var -> nat.
Notation nd := (nvar_deriv td).
Notation off := (offset td).

Definition content (v : Var) (c : nat) (b k j i : Z) : R :=
  match v with
  | v_alpha l => Lapse S (GetX co l b k j i)
  | v_detgam l => DetGamma S (GetX co l b k j i)
  | v_bcon l => ContravariantShift S (GetX co l b k j i) c
  | v_gcov l => SpacetimeMetric S (GetX co l b k j i) (mu_of c) (nu_of c)
  | v_gamcon l => MetricInverse S (GetX co l b k j i) (mu_of c) (nu_of c)
  | v_dalpha => GradLnAlpha S (GetX co Cent b k j i) (c + off)%nat
  | v_dg => MetricDerivative S (GetX co Cent b k j i) (mu_of (c / nd)%nat) (nu_of (c / nd)%nat) (c mod nd + off)%nat
  | v_coord_c => Coords S (GetX co Cent b k j i) c
  | v_coord_n => Coords S (GetX co Corn b k j i) c
  end.
(** finite-difference content of the spatial derivatives *)
Definition content_fd (v : Var) (c : nat) (b k j i : Z) : R :=
  match v with
  | v_dalpha => let d := (c - td_shift td)%nat in
      gratio (Lapse S (fd_plus co d b k j i) - Lapse S (GetX co (fd_loc d) b k j i))
             (Lapse S (GetX co Cent b k j i) * CellWidthFA (co b) (d + 1)%nat)
  | v_dg => let d := (c mod nd - td_shift td)%nat in let mu := mu_of (c / nd)%nat in let nu := nu_of (c / nd)%nat in
      gratio (SpacetimeMetric S (fd_plus co d b k j i) mu nu
              - SpacetimeMetric S (GetX co (fd_loc d) b k j i) mu nu)
             (CellWidthFA (co b) (d + 1)%nat)
  | _ => 0
  end.

Definition slot_write (cont : Var -> nat -> Z -> Z -> Z -> Z -> R) (P : Var -> nat -> Prop)
  (b k j i : Z) (w : write) : Prop :=
  exists v c, P v c /\ (c < var_size nd v)%nat /\ w = (at_ b (first v + c) k j i, cont v c b k j i).

Definition loc_var (l : CellLocation) (v : Var) (c : nat) : Prop :=
  match v with
  | v_alpha l' | v_bcon l' | v_gcov l' | v_gamcon l' | v_detgam l' => l' = l
  | _ => False
  end.
Definition der_var (v : Var) (c : nat) : Prop := v = v_dalpha \/ v = v_dg.
(** spatial derivative components *)
Definition fd_var (v : Var) (c : nat) : Prop :=
  (v = v_dalpha /\ (td_shift td <= c)%nat) \/ (v = v_dg /\ (td_shift td <= c mod nd)%nat).
Definition coord_var (l : CellLocation) (v : Var) (c : nat) : Prop :=
  v = match l with Cent => v_coord_c | _ => v_coord_n end.

Ltac pick v c := exists v, c; split; [|split].

Lemma lamb_writes l b k j i w : In w (lamb S co first l b k j i) ->
  slot_write content (loc_var l) b k j i w.
Proof.
  unfold lamb. cbn [seq map flat_map app Nat.sub In]. intros H.
  repeat match type of H with _ \/ _ => destruct H as [<-|H] end; [| | | | | | | | | | | | | | | | | | | | |destruct H].
  all: cbn -[at_].
  - pick (v_alpha l) 0%nat; [reflexivity|cbn; lia|now rewrite Nat.add_0_r].
  - pick (v_detgam l) 0%nat; [reflexivity|cbn; lia|now rewrite Nat.add_0_r].
  - pick (v_bcon l) 0%nat; [reflexivity|cbn; lia|reflexivity].
  - pick (v_bcon l) 1%nat; [reflexivity|cbn; lia|reflexivity].
  - pick (v_bcon l) 2%nat; [reflexivity|cbn; lia|reflexivity].
  - pick (v_gcov l) 0%nat; [reflexivity|cbn; lia|reflexivity].
  - pick (v_gcov l) 1%nat; [reflexivity|cbn; lia|reflexivity].
  - pick (v_gcov l) 3%nat; [reflexivity|cbn; lia|reflexivity].
  - pick (v_gcov l) 6%nat; [reflexivity|cbn; lia|reflexivity].
  - pick (v_gcov l) 2%nat; [reflexivity|cbn; lia|reflexivity].
  - pick (v_gcov l) 4%nat; [reflexivity|cbn; lia|reflexivity].
  - pick (v_gcov l) 7%nat; [reflexivity|cbn; lia|reflexivity].
  - pick (v_gcov l) 5%nat; [reflexivity|cbn; lia|reflexivity].
  - pick (v_gcov l) 8%nat; [reflexivity|cbn; lia|reflexivity].
  - pick (v_gcov l) 9%nat; [reflexivity|cbn; lia|reflexivity].
  - pick (v_gamcon l) 0%nat; [reflexivity|cbn; lia|reflexivity].
  - pick (v_gamcon l) 1%nat; [reflexivity|cbn; lia|reflexivity].
  - pick (v_gamcon l) 3%nat; [reflexivity|cbn; lia|reflexivity].
  - pick (v_gamcon l) 2%nat; [reflexivity|cbn; lia|reflexivity].
  - pick (v_gamcon l) 4%nat; [reflexivity|cbn; lia|reflexivity].
  - pick (v_gamcon l) 5%nat; [reflexivity|cbn; lia|reflexivity].
Qed.

Lemma div_mod_slot F r : (r < nd)%nat -> ((nd * F + r) / nd = F)%nat /\ ((nd * F + r) mod nd = r)%nat.
Proof.
  intros H. rewrite (Nat.mul_comm nd F), Nat.add_comm. split.
  - rewrite Nat.div_add by lia. rewrite Nat.div_small by assumption. reflexivity.
  - rewrite Nat.mod_add by lia. now apply Nat.mod_small.
Qed.
Lemma flat_le mu nu : (mu <= nu)%nat -> (nu < 4)%nat ->
  (Flatten2 mu nu < 10)%nat /\ mu_of (Flatten2 mu nu) = mu /\ nu_of (Flatten2 mu nu) = nu.
Proof.
  intros H1 H2. destruct nu as [|[|[|[|]]]]; try lia; destruct mu as [|[|[|[|]]]]; try lia; cbn; lia.
Qed.
Lemma Flatten2_sym mu nu : (mu < 4)%nat -> (nu < 4)%nat -> Flatten2 mu nu = Flatten2 nu mu.
Proof.
  intros H1 H2. destruct nu as [|[|[|[|]]]]; try lia; destruct mu as [|[|[|[|]]]]; try lia; reflexivity.
Qed.
Lemma size_dg : (var_size nd v_dg = nd * 10)%nat. Proof. reflexivity. Qed.
Lemma off_nd : (4 - off = nd)%nat. Proof. unfold offset, nvar_deriv. destruct td; reflexivity. Qed.
Lemma shift_nd : (3 + td_shift td = nd)%nat. Proof. unfold td_shift, nvar_deriv. destruct td; reflexivity. Qed.

Lemma lamb_derivs_writes b k j i w : In w (lamb_derivs S co td first b k j i) ->
  slot_write content der_var b k j i w.
Proof.
  pose proof off_nd as On.
  unfold lamb_derivs. intros H. apply in_app_iff in H. destruct H as [H|H]; [apply in_map_iff in H; destruct H as (d & <- & Hd)|apply in_flat_map in H; destruct H as (sg & Hs & H)].
  - apply in_seq in Hd. exists v_dalpha, (d - off)%nat. split; [now left|]. split; [cbn; lia|].
    cbn [content]. replace (d - off + off)%nat with d by lia.
    replace (first v_dalpha + d - off)%nat with (first v_dalpha + (d - off))%nat by lia. reflexivity.
  - apply in_flat_map in H. destruct H as (mu & Hmu & H). apply in_map_iff in H. destruct H as (nu & <- & Hnu).
    apply in_seq in Hs, Hmu, Hnu.
    destruct (flat_le mu nu ltac:(lia) ltac:(lia)) as (F1 & F2 & F3).
    destruct (div_mod_slot (Flatten2 mu nu) (sg - off) ltac:(lia)) as (D1 & D2).
    exists v_dg, (nd * Flatten2 mu nu + (sg - off))%nat. split; [now right|]. split.
    + rewrite size_dg. nia.
    + cbn [content]. rewrite D1, D2, F2, F3. replace (sg - off + off)%nat with sg by lia.
      replace (first v_dg + nd * Flatten2 mu nu + sg - off)%nat with (first v_dg + (nd * Flatten2 mu nu + (sg - off)))%nat by lia. reflexivity.
Qed.

Lemma lamb_fd_writes b k j i w : In w (lamb_derivs_fd S co td first b k j i) ->
  slot_write content_fd fd_var b k j i w.
Proof.
  pose proof shift_nd as Sn.
  unfold lamb_derivs_fd. rewrite in_flat_map. intros (d & Hd & H). apply in_seq in Hd.
  cbv zeta in H. destruct H as [<-|H].
  - exists v_dalpha, (d + td_shift td)%nat. split; [left; split; [reflexivity|lia]|]. split; [cbn; lia|].
    cbn [content_fd]. replace (d + td_shift td - td_shift td)%nat with d by lia.
    rewrite Nat.add_assoc. reflexivity.
  - apply in_flat_map in H. destruct H as (mu & Hmu & H). apply in_map_iff in H. destruct H as (nu & <- & Hnu).
    apply in_seq in Hmu, Hnu.
    destruct (flat_le mu nu ltac:(lia) ltac:(lia)) as (F1 & F2 & F3).
    destruct (div_mod_slot (Flatten2 mu nu) (d + td_shift td) ltac:(lia)) as (D1 & D2).
    exists v_dg, (nd * Flatten2 mu nu + (d + td_shift td))%nat. split; [right; split; [reflexivity|rewrite D2; lia]|].
    split.
    + rewrite size_dg. nia.
    + cbn [content_fd]. rewrite D1, D2, F2, F3. replace (d + td_shift td - td_shift td)%nat with d by lia.
      rewrite !Nat.add_assoc. reflexivity.
Qed.

Lemma lamb_coords_writes l b k j i w : l = Cent \/ l = Corn -> In w (lamb_coords S co first l b k j i) ->
  slot_write content (coord_var l) b k j i w.
Proof.
  intros Hl. unfold lamb_coords. rewrite in_map_iff. intros (mu & <- & Hm). apply in_seq in Hm.
  exists (match l with Cent => v_coord_c | _ => v_coord_n end), mu.
  destruct Hl; subst l; (split; [reflexivity|split; [cbn; lia|reflexivity]]).
Qed.

Hypothesis HL : layout_ok first nd.

(** two stores at the same address through the same table have the same value *)
Lemma slot_unique cont (P : Var -> nat -> Prop) b k j i b' k' j' i' v c val :
  real_var v -> (c < var_size nd v)%nat -> (forall v' c', P v' c' -> real_var v') ->
  slot_write cont P b' k' j' i' (at_ b (first v + c) k j i, val) ->
  val = cont v c b k j i /\ P v c.
Proof.
  intros Hv Hc HP (v' & c' & H1 & H2 & E). unfold at_ in E. injection E as -> Es -> -> -> ->.
  destruct (HL v v' c c' Hv (HP _ _ H1) Hc H2 Es) as (-> & ->). auto.
Qed.

Lemma loc_real l v c : l <> Corn -> loc_var l v c -> real_var v.
Proof. destruct v; cbn; intros; subst; tauto. Qed.
Lemma der_real v c : der_var v c -> real_var v. Proof. intros [->| ->]; exact I. Qed.
Lemma fd_real v c : fd_var v c -> real_var v. Proof. intros [[-> _]|[-> _]]; exact I. Qed.
Lemma coord_real l v c : coord_var l v c -> real_var v. Proof. intros ->. destruct l; exact I. Qed.

Variable B : Bounds.
Notation loops := (SetCached S co ax td fd first B).

(** values of a store at address (b, first v + c, k, j, i) *)
Lemma loops_value v c b k j i val q : real_var v -> (c < var_size nd v)%nat ->
  In q loops -> In (at_ b (first v + c) k j i, val) q ->
  val = content v c b k j i \/ (fd = true /\ fd_var v c /\ val = content_fd v c b k j i).
Proof.
  intros Hv Hc Hq H.
  assert (L : forall l x1 x2 x3 x4 x5 x6 x7, l <> Corn ->
    In (at_ b (first v + c) k j i, val) (par_for x1 x2 x3 x4 x5 x6 x7 (lamb S co first l)) ->
    val = content v c b k j i).
  { intros l x1 x2 x3 x4 x5 x6 x7 Hl Hw. apply in_par_for in Hw.
    destruct Hw as (b' & k' & j' & i' & _ & _ & _ & _ & Hw). apply lamb_writes in Hw.
    apply (slot_unique content (loc_var l)) in Hw; [tauto|assumption|assumption|].
    intros. eapply loc_real; eassumption. }
  unfold SetCached in Hq. cbn [In] in Hq.
  destruct Hq as [<-|[<-|[<-|[<-|[<-|[<-|[<-|[<-|[]]]]]]]]].
  - left. eapply L; [|exact H]. discriminate.
  - left. destruct (td || negb fd)%bool; [|destruct H].
    apply in_par_for in H. destruct H as (b' & k' & j' & i' & _ & _ & _ & _ & H).
    apply lamb_derivs_writes in H. apply (slot_unique content der_var) in H; try tauto. apply der_real.
  - left. eapply L; [|exact H]. discriminate.
  - left. eapply L; [|exact H]. discriminate.
  - left. eapply L; [|exact H]. discriminate.
  - destruct fd; [|destruct H]. right. split; [reflexivity|].
    apply in_par_for in H. destruct H as (b' & k' & j' & i' & _ & _ & _ & _ & H).
    apply lamb_fd_writes in H. apply (slot_unique content_fd fd_var) in H; try tauto. apply fd_real.
  - left. apply in_par_for in H. destruct H as (b' & k' & j' & i' & _ & _ & _ & _ & H).
    apply lamb_coords_writes in H; [|tauto]. apply (slot_unique content (coord_var Cent)) in H; try tauto. apply coord_real.
  - left. apply in_par_for in H. destruct H as (b' & k' & j' & i' & _ & _ & _ & _ & H).
    apply lamb_coords_writes in H; [|tauto]. apply (slot_unique content (coord_var Corn)) in H; try tauto. apply coord_real.
Qed.

(** a slot that is not a finite-difference slot *)
Lemma read_content W m v c b k j i q : execution loops W -> real_var v -> (c < var_size nd v)%nat ->
  (fd = true -> ~ fd_var v c) -> In q loops -> In (at_ b (first v + c) k j i, content v c b k j i) q ->
  run W m (at_ b (first v + c) k j i) = content v c b k j i.
Proof.
  intros HE Hv Hc Hn Hq Hi.
  destruct (in_split _ _ Hq) as (pre & post & El). rewrite El in HE.
  assert (U : forall q' val, In q' loops -> In (at_ b (first v + c) k j i, val) q' -> val = content v c b k j i).
  { intros q' val Hq' Hv'. destruct (loops_value v c b k j i val q' Hv Hc Hq' Hv') as [E|(E1 & E2 & _)]; [exact E|].
    exfalso. now apply Hn. }
  apply (exec_read _ _ _ _ m _ _ HE Hi).
  - intros v' Hv'. apply (U q); assumption.
  - intros q' v' Hq' Hv'. apply (U q'); [rewrite El; apply in_or_app; right; now right|assumption].
Qed.

(** finite-difference slots: the last loop that touches them is the FD loop *)
Lemma read_fd W m v c b k j i : fd = true -> execution loops W -> fd_var v c -> (c < var_size nd v)%nat ->
  In (at_ b (first v + c) k j i, content_fd v c b k j i) (nth 5 loops []) ->
  run W m (at_ b (first v + c) k j i) = content_fd v c b k j i.
Proof.
  intros Hf HE Hv Hc Hi. pose proof (fd_real _ _ Hv) as Hr.
  unfold SetCached in HE, Hi. rewrite Hf in HE, Hi. cbn [nth] in Hi.
  match type of HE with execution [?a; ?b; ?c; ?d; ?e; ?f; ?g; ?h] W =>
    change (execution ([a; b; c; d; e] ++ f :: [g; h]) W) in HE end.
  apply (exec_read _ _ _ _ m _ _ HE Hi).
  - intros v' H. apply in_par_for in H. destruct H as (b' & k' & j' & i' & _ & _ & _ & _ & H).
    apply lamb_fd_writes in H. apply (slot_unique content_fd fd_var) in H; try tauto. apply fd_real.
  - intros q v' Hq H. exfalso. destruct Hq as [<-|[<-|[]]];
      apply in_par_for in H; destruct H as (b' & k' & j' & i' & _ & _ & _ & _ & H);
      (apply lamb_coords_writes in H; [|tauto]);
      eapply (slot_unique content) in H; try eassumption; try apply coord_real;
      destruct H as [_ H]; unfold coord_var in H; destruct Hv as [[-> _]|[-> _]]; discriminate.
Qed.

(** presence of the stores *)
Lemma present_loc l b k j i w : l <> Corn -> on_grid B l b k j i ->
  In w (lamb S co first l b (kx ax k) j i) -> exists q, In q loops /\ In w q.
Proof.
  intros Hl (Hb & Hi & Hj & Hk) Hw. unfold SetCached, kx in *.
  destruct l; [| | | |tauto]; cbn in Hi, Hj, Hk.
  - eexists. split; [left; reflexivity|]. apply in_par_for. exists b, (if ax then 0%Z else k), j, i.
    repeat split; try assumption; destruct ax; lia.
  - eexists. split; [right; right; left; reflexivity|]. apply in_par_for. exists b, (if ax then 0%Z else k), j, i.
    repeat split; try assumption; destruct ax; lia.
  - eexists. split; [right; right; right; left; reflexivity|]. apply in_par_for. exists b, (if ax then 0%Z else k), j, i.
    repeat split; try assumption; destruct ax; lia.
  - eexists. split; [right; right; right; right; left; reflexivity|]. apply in_par_for. exists b, (if ax then 0%Z else k), j, i.
    repeat split; try assumption; destruct ax; lia.
Qed.
Lemma present_der b k j i w : (td || negb fd)%bool = true -> on_grid B Cent b k j i ->
  In w (lamb_derivs S co td first b (kx ax k) j i) -> exists q, In q loops /\ In w q.
Proof.
  intros Ht (Hb & Hi & Hj & Hk) Hw. unfold SetCached, kx in *. cbn in Hi, Hj, Hk.
  eexists. split; [right; left; reflexivity|]. rewrite Ht. apply in_par_for. exists b, (if ax then 0%Z else k), j, i.
  repeat split; try assumption; destruct ax; lia.
Qed.
Lemma present_fd b k j i w : fd = true -> on_grid B Cent b k j i ->
  In w (lamb_derivs_fd S co td first b (kx ax k) j i) -> In w (nth 5 loops []).
Proof.
  intros Ht (Hb & Hi & Hj & Hk) Hw. unfold SetCached, kx in *. cbn in Hi, Hj, Hk. cbn [nth]. rewrite Ht.
  apply in_par_for. exists b, (if ax then 0%Z else k), j, i.
  repeat split; try assumption; destruct ax; lia.
Qed.
Lemma present_coords l b k j i w : l = Cent \/ l = Corn -> on_grid B l b k j i ->
  In w (lamb_coords S co first l b k j i) -> exists q, In q loops /\ In w q.
Proof.
  intros Hl (Hb & Hi & Hj & Hk) Hw. unfold SetCached in *. destruct Hl; subst l; cbn in Hi, Hj, Hk.
  - eexists. split; [do 6 right; left; reflexivity|]. apply in_par_for. exists b, k, j, i.
    repeat split; try assumption; lia.
  - eexists. split; [do 7 right; left; reflexivity|]. apply in_par_for. exists b, k, j, i.
    repeat split; try assumption; lia.
Qed.

(** ---- reads of location variables ---- *)
Variable W : list write.
Variable m0 : mem.
Hypothesis HE : execution loops W.
Let m := run W m0.

Lemma not_fd_loc l v c : loc_var l v c -> ~ fd_var v c.
Proof. intros Hl [[-> _]|[-> _]]; exact Hl. Qed.

Lemma read_loc l v c b k j i : l <> Corn -> on_grid B l b k j i -> loc_var l v c -> (c < var_size nd v)%nat ->
  In (at_ b (first v + c) (kx ax k) j i, content v c b (kx ax k) j i) (lamb S co first l b (kx ax k) j i) ->
  pack m b (first v + c) (kx ax k) j i = content v c b (kx ax k) j i.
Proof.
  intros Hl Hg Hv Hc Hi. destruct (present_loc l b k j i _ Hl Hg Hi) as (q & Hq & Hw).
  apply (read_content W m0 v c b (kx ax k) j i q HE); try assumption.
  - eapply loc_real; eassumption.
  - intros _. eapply not_fd_loc; eassumption.
Qed.

Ltac in_list := first [left; reflexivity | right; in_list].

Lemma r_alpha l b k j i : l <> Corn -> on_grid B l b k j i ->
  cLapse ax first m l b k j i = Lapse S (GetX co l b (kx ax k) j i).
Proof.
  intros Hl Hg. unfold cLapse.
  pose proof (read_loc l (v_alpha l) 0 b k j i Hl Hg eq_refl ltac:(cbn; lia)) as R. rewrite Nat.add_0_r in R. apply R.
  unfold lamb. cbn [In app]. left. reflexivity.
Qed.
Lemma r_detgam l b k j i : l <> Corn -> on_grid B l b k j i ->
  cDetGamma ax first m l b k j i = DetGamma S (GetX co l b (kx ax k) j i).
Proof.
  intros Hl Hg. unfold cDetGamma.
  pose proof (read_loc l (v_detgam l) 0 b k j i Hl Hg eq_refl ltac:(cbn; lia)) as R. rewrite Nat.add_0_r in R. apply R.
  unfold lamb. cbn [In app]. right. left. reflexivity.
Qed.
Lemma r_bcon l b k j i d : l <> Corn -> on_grid B l b k j i -> (d < 3)%nat ->
  pack m b (first (v_bcon l) + d) (kx ax k) j i = ContravariantShift S (GetX co l b (kx ax k) j i) d.
Proof.
  intros Hl Hg Hd. apply (read_loc l (v_bcon l) d b k j i Hl Hg eq_refl Hd).
  unfold lamb. do 2 (apply in_cons). apply in_or_app. left. apply in_map_iff. exists d. split; [reflexivity|].
  apply in_seq. lia.
Qed.
Lemma r_gcov l b k j i mu nu : l <> Corn -> on_grid B l b k j i -> (mu <= nu)%nat -> (nu < 4)%nat ->
  pack m b (first (v_gcov l) + Flatten2 mu nu) (kx ax k) j i = SpacetimeMetric S (GetX co l b (kx ax k) j i) mu nu.
Proof.
  intros Hl Hg H1 H2. destruct (flat_le mu nu H1 H2) as (F1 & F2 & F3).
  rewrite (read_loc l (v_gcov l) (Flatten2 mu nu) b k j i Hl Hg eq_refl F1); [cbn [content]; now rewrite F2, F3|].
  cbn [content]. rewrite F2, F3. unfold lamb. do 2 (apply in_cons). apply in_or_app. right. apply in_or_app. left.
  apply in_flat_map. exists mu. split; [apply in_seq; lia|]. apply in_map_iff. exists nu. split; [reflexivity|].
  apply in_seq. lia.
Qed.
Lemma flat_le3 mu nu : (mu <= nu)%nat -> (nu < 3)%nat -> (Flatten2 mu nu < 6)%nat.
Proof.
  intros H1 H2. destruct nu as [|[|[|]]]; try lia; destruct mu as [|[|[|]]]; try lia; cbn; lia.
Qed.
Lemma r_gamcon l b k j i mu nu : l <> Corn -> on_grid B l b k j i -> (mu <= nu)%nat -> (nu < 3)%nat ->
  pack m b (first (v_gamcon l) + Flatten2 mu nu) (kx ax k) j i = MetricInverse S (GetX co l b (kx ax k) j i) mu nu.
Proof.
  intros Hl Hg H1 H2. destruct (flat_le mu nu H1 ltac:(lia)) as (_ & F2 & F3).
  rewrite (read_loc l (v_gamcon l) (Flatten2 mu nu) b k j i Hl Hg eq_refl (flat_le3 mu nu H1 H2)); [cbn [content]; now rewrite F2, F3|].
  cbn [content]. rewrite F2, F3. unfold lamb. do 2 (apply in_cons). apply in_or_app. right. apply in_or_app. right.
  apply in_flat_map. exists mu. split; [apply in_seq; lia|]. apply in_map_iff. exists nu. split; [reflexivity|].
  apply in_seq. lia.
Qed.

Hypothesis Hax : ax = true -> axisymmetric_system S.
Lemma kx_same l b k j i : Lapse S (GetX co l b (kx ax k) j i) = Lapse S (GetX co l b k j i) /\
  ContravariantShift S (GetX co l b (kx ax k) j i) = ContravariantShift S (GetX co l b k j i) /\
  SpacetimeMetric S (GetX co l b (kx ax k) j i) = SpacetimeMetric S (GetX co l b k j i) /\
  MetricInverse S (GetX co l b (kx ax k) j i) = MetricInverse S (GetX co l b k j i) /\
  DetGamma S (GetX co l b (kx ax k) j i) = DetGamma S (GetX co l b k j i) /\
  MetricDerivative S (GetX co l b (kx ax k) j i) = MetricDerivative S (GetX co l b k j i) /\
  GradLnAlpha S (GetX co l b (kx ax k) j i) = GradLnAlpha S (GetX co l b k j i).
Proof.
  unfold kx. destruct ax eqn:E; [|tauto].
  apply (Hax eq_refl); destruct l; reflexivity.
Qed.

Lemma cached_metric l b k j i : l <> Corn -> on_grid B l b k j i ->
  consistent_at S (GetX co l b k j i) ->
  let X := GetX co l b k j i in
  cLapse ax first m l b k j i = Lapse S X /\
  eq_vec 3 (cShift ax first m l b k j i) (ContravariantShift S X) /\
  eq_mat 3 (cMetric ax first m l b k j i) (Metric S X) /\
  eq_mat 3 (cMetricInverse ax first m l b k j i) (MetricInverse S X) /\
  eq_mat 4 (cSpacetimeMetric ax first m l b k j i) (SpacetimeMetric S X) /\
  eq_mat 4 (cSpacetimeMetricInverse ax first m l b k j i) (SpacetimeMetricInverse S X) /\
  cDetGamma ax first m l b k j i = DetGamma S X /\
  cDetG ax first m l b k j i = DetG S X.
Proof.
  intros Hl Hg HC X. destruct (kx_same l b k j i) as (K1 & K2 & K3 & K4 & K5 & _). fold X in K1, K2, K3, K4, K5.
  assert (E1 : cLapse ax first m l b k j i = Lapse S X) by (rewrite <- K1; now apply r_alpha).
  assert (E2 : forall d, (d < 3)%nat -> pack m b (first (v_bcon l) + d) (kx ax k) j i = ContravariantShift S X d).
  { intros d Hd. rewrite <- K2. now apply r_bcon. }
  assert (Gs : symmetric4 (SpacetimeMetric S X)) by exact (adm_g_sym _ _ _ _ _ _ _ _ HC).
  assert (E3 : forall mu nu, (mu < 4)%nat -> (nu < 4)%nat ->
    pack m b (first (v_gcov l) + Flatten2 mu nu) (kx ax k) j i = SpacetimeMetric S X mu nu).
  { intros mu nu Hm Hn. destruct (Nat.le_ge_cases mu nu).
    - rewrite <- K3. apply r_gcov; assumption.
    - rewrite (Flatten2_sym mu nu Hm Hn), (Gs mu nu Hm Hn), <- K3. apply r_gcov; assumption. }
  assert (Ms : symmetric3 (MetricInverse S X)).
  { apply (inverse3_symmetric (Metric S X)); [exact (adm_gamma_sym _ _ _ _ _ _ _ _ HC)|exact (adm_inv3 _ _ _ _ _ _ _ _ HC)]. }
  assert (E4 : forall mu nu, (mu < 3)%nat -> (nu < 3)%nat ->
    pack m b (first (v_gamcon l) + Flatten2 mu nu) (kx ax k) j i = MetricInverse S X mu nu).
  { intros mu nu Hm Hn. destruct (Nat.le_ge_cases mu nu).
    - rewrite <- K4. apply r_gamcon; assumption.
    - rewrite (Flatten2_sym mu nu) by lia. rewrite (Ms mu nu Hm Hn), <- K4. apply r_gamcon; assumption. }
  assert (E5 : cDetGamma ax first m l b k j i = DetGamma S X) by (rewrite <- K5; now apply r_detgam).
  split; [exact E1|]. split; [exact E2|]. split.
  { intros r c Hr Hc. unfold cMetric. rewrite E3 by lia. rewrite !Nat.add_1_r. apply (adm_gij _ _ _ _ _ _ _ _ HC); assumption. }
  split; [exact E4|]. split; [exact E3|]. split.
  { assert (A := adm_lapse_pos _ _ _ _ _ _ _ _ HC).
    assert (A2 : Lapse S X * Lapse S X <> 0) by (fold X in A; intros E; apply Rmult_integral in E; lra).
    intros mu nu Hm Hn. rewrite (adm_inverse _ _ _ _ _ _ _ _ HC mu nu Hm Hn : SpacetimeMetricInverse S X mu nu = adm_inv_mat (Lapse S X) (ContravariantShift S X) (MetricInverse S X) mu nu).
    unfold cSpacetimeMetricInverse. rewrite E1. destruct mu as [|p], nu as [|q]; cbn [adm_inv_mat].
    - rewrite gratio_nz by assumption. reflexivity.
    - rewrite gratio_nz by assumption. rewrite E2 by lia. reflexivity.
    - rewrite gratio_nz by assumption. rewrite E2 by lia. reflexivity.
    - rewrite !gratio_nz by assumption. rewrite !E2, E4 by lia. reflexivity. }
  split; [exact E5|]. unfold cDetG. rewrite E1, E5. symmetry. exact (adm_dets _ _ _ _ _ _ _ _ HC).
Qed.

(** ---- derivatives at cell centres ---- *)
Definition static_values (X : point) : Prop :=
  GradLnAlpha S X 0%nat = 0 /\ forall mu nu, (mu < 4)%nat -> (nu < 4)%nat -> MetricDerivative S X mu nu 0%nat = 0.

(** a derivative slot holding the analytic value *)
Lemma r_dalpha b k j i d : on_grid B Cent b k j i -> (td || negb fd)%bool = true ->
  (off <= d)%nat -> (d < 4)%nat -> (fd = true -> d = 0%nat) ->
  pack m b (first v_dalpha + d - off) (kx ax k) j i = GradLnAlpha S (GetX co Cent b (kx ax k) j i) d.
Proof.
  intros Hg Ht Hd1 Hd2 Hf. pose proof off_nd as On.
  replace (first v_dalpha + d - off)%nat with (first v_dalpha + (d - off))%nat by lia.
  assert (Hc : (d - off < var_size nd v_dalpha)%nat) by (cbn [var_size]; lia).
  assert (Hi : In (at_ b (first v_dalpha + (d - off)) (kx ax k) j i, content v_dalpha (d - off) b (kx ax k) j i)
                  (lamb_derivs S co td first b (kx ax k) j i)).
  { unfold lamb_derivs. apply in_or_app. left. apply in_map_iff. exists d. split; [|apply in_seq; lia].
    cbn [content]. replace (d - off + off)%nat with d by lia.
    replace (first v_dalpha + d - off)%nat with (first v_dalpha + (d - off))%nat by lia. reflexivity. }
  destruct (present_der b k j i _ Ht Hg Hi) as (q & Hq & Hw).
  unfold pack, m. rewrite (read_content W m0 v_dalpha (d - off) b (kx ax k) j i q HE I Hc); try assumption.
  - cbn [content]. now replace (d - off + off)%nat with d by lia.
  - intros E [[_ H]|[H _]]; [|discriminate]. specialize (Hf E). subst d.
    unfold td_shift, offset in *. destruct td; lia.
Qed.
Lemma r_dg b k j i mu nu d : on_grid B Cent b k j i -> (td || negb fd)%bool = true ->
  (off <= d)%nat -> (d < 4)%nat -> (mu <= nu)%nat -> (nu < 4)%nat -> (fd = true -> d = 0%nat) ->
  pack m b (nd * Flatten2 mu nu + first v_dg + d - off) (kx ax k) j i
    = MetricDerivative S (GetX co Cent b (kx ax k) j i) mu nu d.
Proof.
  intros Hg Ht Hd1 Hd2 Hm Hn Hf. pose proof off_nd as On.
  destruct (flat_le mu nu Hm Hn) as (F1 & F2 & F3).
  destruct (div_mod_slot (Flatten2 mu nu) (d - off) ltac:(lia)) as (D1 & D2).
  set (c := (nd * Flatten2 mu nu + (d - off))%nat) in *.
  replace (nd * Flatten2 mu nu + first v_dg + d - off)%nat with (first v_dg + c)%nat by (unfold c; lia).
  assert (Hc : (c < var_size nd v_dg)%nat) by (rewrite size_dg; unfold c; nia).
  assert (Ec : content v_dg c b (kx ax k) j i = MetricDerivative S (GetX co Cent b (kx ax k) j i) mu nu d).
  { cbn [content]. rewrite D1, D2, F2, F3. now replace (d - off + off)%nat with d by lia. }
  assert (Hi : In (at_ b (first v_dg + c) (kx ax k) j i, content v_dg c b (kx ax k) j i)
                  (lamb_derivs S co td first b (kx ax k) j i)).
  { unfold lamb_derivs. apply in_or_app. right. apply in_flat_map. exists d. split; [apply in_seq; lia|].
    apply in_flat_map. exists mu. split; [apply in_seq; lia|]. apply in_map_iff. exists nu.
    split; [|apply in_seq; lia]. rewrite Ec.
    replace (first v_dg + nd * Flatten2 mu nu + d - off)%nat with (first v_dg + c)%nat by (unfold c; lia). reflexivity. }
  destruct (present_der b k j i _ Ht Hg Hi) as (q & Hq & Hw).
  unfold pack, m. rewrite (read_content W m0 v_dg c b (kx ax k) j i q HE I Hc); try assumption.
  intros E [[H _]|[_ H]]; [discriminate|]. specialize (Hf E). subst d. rewrite D2 in H.
  unfold td_shift, offset in *. destruct td; lia.
Qed.


Lemma cached_derivs b k j i : fd = false -> on_grid B Cent b k j i ->
  let X := GetX co Cent b k j i in
  (forall mu nu s, (mu < 4)%nat -> (nu < 4)%nat -> (s < 4)%nat -> MetricDerivative S X mu nu s = MetricDerivative S X nu mu s) ->
  (td = false -> static_values X) ->
  exists dg da, cMetricDerivative ax td first m Cent b k j i = Some dg /\ eq_ten dg (MetricDerivative S X) /\
    cGradLnAlpha ax td first m Cent b k j i = Some da /\ eq_vec 4 da (GradLnAlpha S X) /\
    cConnectionCoefficient ax td first m Cent b k j i = Some (SetConnectionCoeffFromMetricDerivs dg).
Proof.
  intros Hf Hg X Hs Hst. destruct (kx_same Cent b k j i) as (_ & _ & _ & _ & _ & K6 & K7). fold X in K6, K7.
  assert (Ht : (td || negb fd)%bool = true) by (rewrite Hf; apply orb_true_r).
  eexists. eexists. split; [reflexivity|]. split; [|split; [reflexivity|split; [|reflexivity]]].
  - intros mu nu s Hm Hn Hs'. cbv beta. destruct (Nat.ltb_spec s off) as [H|H].
    + unfold offset in H. destruct td eqn:Et; [lia|]. replace s with 0%nat by lia.
      symmetry. now apply (proj2 (Hst eq_refl)).
    + destruct (Nat.le_ge_cases mu nu).
      * rewrite r_dg; try assumption; [now rewrite K6|congruence].
      * rewrite (Flatten2_sym mu nu) by assumption. rewrite r_dg; try assumption; [rewrite K6; now apply Hs|congruence].
  - intros d Hd. cbv beta. destruct (Nat.ltb_spec d off) as [H|H].
    + unfold offset in H. destruct td eqn:Et; [lia|]. replace d with 0%nat by lia. symmetry. apply (proj1 (Hst eq_refl)).
    + rewrite r_dalpha; try assumption; [now rewrite K7|congruence].
Qed.

(** finite differences on the grid *)
Lemma kx_same_p d b k j i : Lapse S (fd_plus co d b (kx ax k) j i) = Lapse S (fd_plus co d b k j i) /\
  SpacetimeMetric S (fd_plus co d b (kx ax k) j i) = SpacetimeMetric S (fd_plus co d b k j i).
Proof.
  unfold kx. destruct ax eqn:E; [|tauto].
  assert (H : forall Y Z, Y 0%nat = Z 0%nat -> Y 1%nat = Z 1%nat -> Y 2%nat = Z 2%nat ->
     Lapse S Y = Lapse S Z /\ SpacetimeMetric S Y = SpacetimeMetric S Z).
  { intros Y Z H0 H1 H2. destruct (Hax eq_refl Y Z H0 H1 H2). tauto. }
  apply H; destruct d as [|[|d]]; reflexivity.
Qed.
Lemma r_dg_fd b k j i mu nu d : fd = true -> on_grid B Cent b k j i -> (d < 3)%nat -> (mu <= nu)%nat -> (nu < 4)%nat ->
  pack m b (nd * Flatten2 mu nu + first v_dg + (d + 1) - off) (kx ax k) j i =
  gratio (SpacetimeMetric S (fd_plus co d b k j i) mu nu - SpacetimeMetric S (GetX co (fd_loc d) b k j i) mu nu)
         (CellWidthFA (co b) (d + 1)%nat).
Proof.
  intros Hf Hg Hd Hm Hn. pose proof shift_nd as Sn.
  assert (So : (td_shift td + off = 1)%nat) by (unfold td_shift, offset; destruct td; reflexivity).
  destruct (flat_le mu nu Hm Hn) as (F1 & F2 & F3).
  destruct (div_mod_slot (Flatten2 mu nu) (d + td_shift td) ltac:(lia)) as (D1 & D2).
  set (c := (nd * Flatten2 mu nu + (d + td_shift td))%nat) in *.
  replace (nd * Flatten2 mu nu + first v_dg + (d + 1) - off)%nat with (first v_dg + c)%nat by (unfold c; lia).
  assert (Hc : (c < var_size nd v_dg)%nat) by (rewrite size_dg; unfold c; nia).
  destruct (kx_same_p d b k j i) as (_ & P2). destruct (kx_same (fd_loc d) b k j i) as (_ & _ & K3 & _).
  assert (Ec : content_fd v_dg c b (kx ax k) j i = gratio (SpacetimeMetric S (fd_plus co d b k j i) mu nu
      - SpacetimeMetric S (GetX co (fd_loc d) b k j i) mu nu) (CellWidthFA (co b) (d + 1)%nat)).
  { cbn [content_fd]. rewrite D1, D2, F2, F3. replace (d + td_shift td - td_shift td)%nat with d by lia.
    now rewrite P2, K3. }
  rewrite <- Ec. apply read_fd; try assumption.
  - right. split; [reflexivity|]. rewrite D2. lia.
  - apply (present_fd b k j i _ Hf Hg). unfold lamb_derivs_fd. apply in_flat_map. exists d.
    split; [apply in_seq; lia|]. cbv zeta. right. apply in_flat_map. exists mu. split; [apply in_seq; lia|].
    apply in_map_iff. exists nu. split; [|apply in_seq; lia].
    rewrite Ec, P2, K3. replace (first v_dg + nd * Flatten2 mu nu + (d + td_shift td))%nat with (first v_dg + c)%nat by (unfold c; lia).
    reflexivity.
Qed.
Lemma r_dalpha_fd b k j i d : fd = true -> on_grid B Cent b k j i -> (d < 3)%nat ->
  pack m b (first v_dalpha + (d + 1) - off) (kx ax k) j i =
  gratio (Lapse S (fd_plus co d b k j i) - Lapse S (GetX co (fd_loc d) b k j i))
         (Lapse S (GetX co Cent b k j i) * CellWidthFA (co b) (d + 1)%nat).
Proof.
  intros Hf Hg Hd. pose proof shift_nd as Sn.
  assert (So : (td_shift td + off = 1)%nat) by (unfold td_shift, offset; destruct td; reflexivity).
  set (c := (d + td_shift td)%nat) in *.
  replace (first v_dalpha + (d + 1) - off)%nat with (first v_dalpha + c)%nat by (unfold c; lia).
  assert (Hc : (c < var_size nd v_dalpha)%nat) by (cbn [var_size]; unfold c; lia).
  destruct (kx_same_p d b k j i) as (P1 & _). destruct (kx_same (fd_loc d) b k j i) as (K1 & _).
  destruct (kx_same Cent b k j i) as (K1c & _).
  assert (Ec : content_fd v_dalpha c b (kx ax k) j i = gratio (Lapse S (fd_plus co d b k j i)
      - Lapse S (GetX co (fd_loc d) b k j i)) (Lapse S (GetX co Cent b k j i) * CellWidthFA (co b) (d + 1)%nat)).
  { cbn [content_fd]. unfold c. replace (d + td_shift td - td_shift td)%nat with d by lia. now rewrite P1, K1, K1c. }
  rewrite <- Ec. apply read_fd; try assumption.
  - left. split; [reflexivity|]. unfold c. lia.
  - apply (present_fd b k j i _ Hf Hg). unfold lamb_derivs_fd. apply in_flat_map. exists d.
    split; [apply in_seq; lia|]. cbv zeta. left. rewrite Ec, P1, K1, K1c. unfold c. rewrite Nat.add_assoc. reflexivity.
Qed.

(** coordinates: the code reads component d where component d+1 is meant *)
Lemma read_coords l b k j i mu : l = Cent \/ l = Corn -> on_grid B l b k j i -> (mu < 4)%nat ->
  m (at_ b (first (match l with Cent => v_coord_c | _ => v_coord_n end) + mu) k j i) = Coords S (GetX co l b k j i) mu.
Proof.
  intros Hl Hg Hm. set (v := match l with Cent => v_coord_c | _ => v_coord_n end).
  assert (Hi : In (at_ b (first v + mu) k j i, content v mu b k j i) (lamb_coords S co first l b k j i)).
  { unfold lamb_coords. apply in_map_iff. exists mu. split; [|apply in_seq; lia].
    unfold v. destruct Hl; subst l; reflexivity. }
  destruct (present_coords l b k j i _ Hl Hg Hi) as (q & Hq & Hw).
  unfold m. rewrite (read_content W m0 v mu b k j i q HE); try assumption.
  - unfold v. destruct Hl; subst l; reflexivity.
  - unfold v. destruct Hl; subst l; exact I.
  - unfold v. destruct Hl; subst l; cbn; lia.
  - unfold v. intros _ [[E _]|[E _]]; destruct Hl; subst l; discriminate.
Qed.
Lemma cached_coords l b k j i : l = Cent \/ l = Corn -> on_grid B l b k j i ->
  let C := Coords S (GetX co l b k j i) in
  eq_vec 4 (cCoords S co first m l b k j i) (row4 0 (C 0%nat) (C 1%nat) (C 2%nat)).
Proof.
  intros Hl Hg C d Hd. pose proof (read_coords l b k j i) as R. unfold C, cCoords, pack.
  destruct Hl; subst l; (destruct d as [|[|[|[|d]]]]; [reflexivity| | | |lia]);
   cbn [row4]; rewrite R; try lia; try assumption; tauto.
Qed.
End C.

(** ---- determinism of race-free parallel loops ---- *)
Definition race_free (p : list write) : Prop := forall a v v', In (a, v) p -> In (a, v') p -> v = v'.
Lemma run_read W m a : run W m a = m a \/ exists v, In (a, v) W /\ run W m a = v.
Proof.
  revert m. induction W as [|[a' v'] W IH]; intros m; [now left|].
  change (run ((a', v') :: W) m a) with (run W (store m (a', v')) a).
  destruct (IH (store m (a', v'))) as [E|(v & Hv & E)].
  - rewrite E. unfold store; cbn [fst snd]. destruct (addr_eqb a a') eqn:Ea; [|now left].
    right. apply addr_eqb_spec in Ea. subst. exists v'. split; [now left|reflexivity].
  - right. exists v. split; [now right|exact E].
Qed.
Lemma run_notin W m a : (forall v, ~ In (a, v) W) -> run W m a = m a.
Proof.
  intros H. destruct (run_read W m a) as [E|(v & Hv & _)]; [exact E|]. exfalso. exact (H v Hv).
Qed.
Lemma in_dec_addr (W : list write) a : (exists v, In (a, v) W) \/ (forall v, ~ In (a, v) W).
Proof.
  induction W as [|[a' v'] W [(v & Hv)|H]].
  - right. intros v [].
  - left. exists v. now right.
  - destruct (addr_eqb a a') eqn:Ea.
    + apply addr_eqb_spec in Ea. subst. left. exists v'. now left.
    + right. intros v [E|Hv]; [|exact (H v Hv)]. injection E as -> ->. rewrite addr_eqb_refl in Ea. discriminate.
Qed.
Lemma race_free_deterministic loops : List.Forall race_free loops ->
  forall W W' m m', execution loops W -> execution loops W' -> (forall a, m a = m' a) ->
  forall a, run W m a = run W' m' a.
Proof.
  induction 1 as [|p loops Hp Hl IH]; intros W W' m m' (Ws & HF & ->) (Ws' & HF' & ->) Hm.
  - inversion HF; inversion HF'; subst. exact Hm.
  - inversion HF as [|x y l l' Hx HFl]; subst. inversion HF' as [|x' y' k k' Hx' HFk]; subst.
    cbn [concat]. rewrite !run_app. intros a. refine (IH _ _ _ _ _ _ _ a); [exists l; tauto|exists k; tauto|].
    clear a. intros a. destruct (in_dec_addr p a) as [(v & Hv)|Hn].
    + transitivity v; [|symmetry]; apply run_in.
      * now apply (Permutation_in _ (Permutation_sym Hx)).
      * intros v' Hv'. apply (Permutation_in _ Hx) in Hv'. symmetry. exact (Hp a v v' Hv Hv').
      * now apply (Permutation_in _ (Permutation_sym Hx')).
      * intros v' Hv'. apply (Permutation_in _ Hx') in Hv'. symmetry. exact (Hp a v v' Hv Hv').
    + rewrite !run_notin; [apply Hm| |]; intros v Hv.
      * apply (Permutation_in _ Hx') in Hv. exact (Hn v Hv).
      * apply (Permutation_in _ Hx) in Hv. exact (Hn v Hv).
Qed.

Section D.
Variable S : System.
Variable co : Z -> BlockCoords.
Variable ax td fd : bool.
Variable first : Var -> nat.
Notation nd := (nvar_deriv td).
Hypothesis HL : layout_ok first nd.

Lemma slot_race_free cont (P : Var -> nat -> Prop) body nb' k1 k2 j1 j2 i1 i2 :
  (forall v c, P v c -> real_var v) ->
  (forall b k j i w, In w (body b k j i) -> slot_write td first cont P b k j i w) ->
  race_free (par_for nb' k1 k2 j1 j2 i1 i2 body).
Proof.
  intros HP HB a v v' H H'.
  apply in_par_for in H. destruct H as (b & k & j & i & _ & _ & _ & _ & H). apply HB in H.
  apply in_par_for in H'. destruct H' as (b' & k' & j' & i' & _ & _ & _ & _ & H'). apply HB in H'.
  destruct H as (u & c & Pu & Hc & E). injection E as -> ->.
  apply (slot_unique td first HL cont P) in H'; [|exact (HP _ _ Pu)|assumption|assumption].
  symmetry. apply H'.
Qed.
Lemma cached_race_free B : List.Forall race_free (SetCached S co ax td fd first B).
Proof.
  assert (N : race_free []) by (intros a v v' []).
  assert (L : forall l x1 x2 x3 x4 x5 x6 x7, l <> Corn -> race_free (par_for x1 x2 x3 x4 x5 x6 x7 (lamb S co first l))).
  { intros. eapply slot_race_free; [|intros; eapply lamb_writes; eassumption].
    intros v c. now apply loc_real. }
  assert (K : forall l x1 x2 x3 x4 x5 x6 x7, l = Cent \/ l = Corn -> race_free (par_for x1 x2 x3 x4 x5 x6 x7 (lamb_coords S co first l))).
  { intros. eapply slot_race_free; [|intros; eapply lamb_coords_writes; eassumption]. intros v c. apply coord_real. }
  unfold SetCached.
  apply List.Forall_cons; [apply L; discriminate|].
  apply List.Forall_cons.
  { destruct (td || negb fd)%bool; [|exact N].
    eapply slot_race_free; [|intros; eapply lamb_derivs_writes; eassumption]. intros v c. apply der_real. }
  apply List.Forall_cons; [apply L; discriminate|].
  apply List.Forall_cons; [apply L; discriminate|].
  apply List.Forall_cons; [apply L; discriminate|].
  apply List.Forall_cons.
  { destruct fd; [|exact N].
    eapply slot_race_free; [|intros; eapply lamb_fd_writes; eassumption]. intros v c. apply fd_real. }
  apply List.Forall_cons; [apply K; tauto|].
  apply List.Forall_cons; [apply K; tauto|]. apply List.Forall_nil.
Qed.
End D.
