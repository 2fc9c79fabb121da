(** C14: the cached geometry.  Vocabulary in Spec/CacheSpec.v and Spec/SystemSpec.v. *)
From Coq Require Import Reals ZArith Arith List Permutation Lra Lia Bool.
From Coquelicot Require Import Coquelicot.
From Verif.Spec Require Import Tensor GeomSpec SystemSpec InterpSpec CacheSpec.
From Verif.Model Require Import Num Robust LinearAlgebra Geometry Interpolation Cached.
From Verif.Proofs Require Import GeomBase TensorTac AdmProofs InterpProofs GeomSystems GeomDeriv CachedProofs.
Import ListNotations.
Local Open Scope R_scope.

(** For every system, block structure, slot assignment, order of the stores inside the
    parallel loops and previous contents of the memory: every metric quantity read at a
    cell centre or face is what the analytic system returns there. *)
Theorem C14_reads_on_grid : forall S co ax td fd first B W m0 l b k j i,
  layout_ok first (nvar_deriv td) -> execution (SetCached S co ax td fd first B) W ->
  (ax = true -> axisymmetric_system S) -> l <> Corn -> on_grid B l b k j i ->
  let X := GetX co l b k j i in let m := run W m0 in
  consistent_at S X ->
  cLapse ax first m l b k j i = Lapse S X /\
  eq_vec 3 (cShift ax first m l b k j i) (ContravariantShift S X) /\
  eq_mat 3 (cMetric ax first m l b k j i) (Metric S X) /\
  eq_mat 3 (cMetricInverse ax first m l b k j i) (MetricInverse S X) /\
  eq_mat 4 (cSpacetimeMetric ax first m l b k j i) (SpacetimeMetric S X) /\
  eq_mat 4 (cSpacetimeMetricInverse ax first m l b k j i) (SpacetimeMetricInverse S X) /\
  cDetGamma ax first m l b k j i = DetGamma S X /\
  cDetG ax first m l b k j i = DetG S X.
Proof.
  intros S co ax td fd first B W m0 l b k j i HL HE Hax Hl Hg X m HC.
  exact (cached_metric S co ax td fd first HL B W m0 HE Hax l b k j i Hl Hg HC).
Qed.
Print Assumptions C14_reads_on_grid.

(** Analytic derivatives (do_fd_on_grid off): what is read at a cell centre is the true
    derivative of the metric, the true gradient of ln(lapse) and the Christoffel symbols. *)
Theorem C14_derivatives : forall S co ax td first B W m0 b k j i,
  layout_ok first (nvar_deriv td) -> execution (SetCached S co ax td false first B) W ->
  (ax = true -> axisymmetric_system S) -> on_grid B Cent b k j i ->
  let X := GetX co Cent b k j i in let m := run W m0 in
  (forall Y, symmetric4 (SpacetimeMetric S Y)) -> derivatives_at S X ->
  (td = false -> static_at S X) ->
  exists dg da G,
    cMetricDerivative ax td first m Cent b k j i = Some dg /\
    is_metric_derivative (SpacetimeMetric S) X dg /\
    cGradLnAlpha ax td first m Cent b k j i = Some da /\
    is_gradient (fun Y => ln (Lapse S Y)) X da /\
    cConnectionCoefficient ax td first m Cent b k j i = Some G /\
    is_christoffel1 (SpacetimeMetric S) X G.
Proof.
  intros S co ax td first B W m0 b k j i HL HE Hax Hg X m Hs [HD HG] Hst.
  destruct (cached_derivs S co ax td false first HL B W m0 HE Hax b k j i eq_refl Hg) as (dg & da & E1 & E2 & E3 & E4 & E5).
  - intros mu nu s Hm Hn Hs'. fold X.
    rewrite <- (is_partial_unique _ _ _ _ (HD mu nu s Hm Hn Hs')), <- (is_partial_unique _ _ _ _ (HD nu mu s Hn Hm Hs')).
    unfold partial. apply Derive_ext. intros t. now apply Hs.
  - intros Et. destruct (Hst Et) as [S1 S2]. fold X. split.
    + rewrite <- (is_partial_unique _ _ _ _ (HG 0%nat ltac:(lia))). now apply is_partial_unique.
    + intros mu nu Hm Hn. rewrite <- (is_partial_unique _ _ _ _ (HD mu nu 0%nat Hm Hn ltac:(lia))).
      apply is_partial_unique. now apply S1.
  - exists dg, da, (SetConnectionCoeffFromMetricDerivs dg).
    assert (MD : is_metric_derivative (SpacetimeMetric S) X dg).
    { intros mu nu s Hm Hn Hs'. rewrite E2 by assumption. now apply HD. }
    split; [exact E1|]. split; [exact MD|]. split; [exact E3|]. split.
    { intros s Hs'. rewrite E4 by assumption. now apply HG. }
    split; [exact E5|]. now apply christoffel_of_derivative.
Qed.
Print Assumptions C14_derivatives.

(** Derivatives by differencing the cell faces (do_fd_on_grid on): every spatial component
    is the derivative of the metric at some point inside the cell, and the finite
    difference of the lapse likewise; time components are zero in the static case. *)
Lemma mvt_fd (f f1 : R -> R) x h : 0 < h -> (forall t, x <= t <= x + h -> is_derive f t (f1 t)) ->
  exists xi, x <= xi <= x + h /\ gratio (f (x + h) - f x) h = f1 xi.
Proof.
  intros Hh Hd.
  destruct (MVT_gen f x (x + h) f1) as (c & Hc & E).
  - intros t Ht. rewrite Rmin_left, Rmax_right in Ht by lra. apply Hd. lra.
  - intros t Ht. rewrite Rmin_left, Rmax_right in Ht by lra. apply continuity_pt_filterlim.
    apply (ex_derive_continuous f). exists (f1 t). apply Hd. lra.
  - rewrite Rmin_left, Rmax_right in Hc by lra. exists c. split; [lra|].
    rewrite gratio_nz by lra. rewrite E. field. lra.
Qed.

(** coordinate of the lower face of a cell in direction d *)
Definition lower_face (c : BlockCoords) (d : nat) (k j i : Z) : R :=
  match d with 1%nat => Xf c 1 i | 2%nat => Xf c 2 j | _ => Xf c 3 k end.

(** the point X with coordinate d replaced by u *)
Definition on_line (X : point) (d : nat) (u : R) : point :=
  row4 (moved X d u 0%nat) (moved X d u 1%nat) (moved X d u 2%nat) (moved X d u 3%nat).

Lemma face_points co b k j i d : uniform_faces (co b) -> (d < 3)%nat ->
  let X := GetX co Cent b k j i in let x := lower_face (co b) (d + 1) k j i in
  GetX co (fd_loc d) b k j i = on_line X (d + 1) x /\
  fd_plus co d b k j i = on_line X (d + 1) (x + CellWidthFA (co b) (d + 1)%nat).
Proof.
  intros HU Hd X x.
  pose proof (proj1 (HU 1%nat i ltac:(lia))) as H1. pose proof (proj1 (HU 2%nat j ltac:(lia))) as H2.
  pose proof (proj1 (HU 3%nat k ltac:(lia))) as H3.
  destruct d as [|[|[|d]]]; [| | |lia]; (split; [reflexivity|]); cbn [fd_plus GetX];
   [rewrite H1|rewrite H2|rewrite H3]; reflexivity.
Qed.

Theorem C14_derivatives_fd : forall S co ax td first B W m0 b k j i,
  layout_ok first (nvar_deriv td) -> execution (SetCached S co ax td true first B) W ->
  (ax = true -> axisymmetric_system S) -> on_grid B Cent b k j i -> uniform_faces (co b) ->
  let X := GetX co Cent b k j i in let m := run W m0 in
  symmetric4 (SpacetimeMetric S X) -> 0 < Lapse S X ->
  (forall Y, symmetric4 (SpacetimeMetric S Y)) ->
  exists dg da,
    cMetricDerivative ax td first m Cent b k j i = Some dg /\
    cGradLnAlpha ax td first m Cent b k j i = Some da /\
    (forall d, (d < 3)%nat ->
      let x := lower_face (co b) (d + 1) k j i in let h := CellWidthFA (co b) (d + 1)%nat in
      (forall mu nu f1, (mu < 4)%nat -> (nu < 4)%nat ->
        (forall t, x <= t <= x + h ->
           is_derive (fun u => SpacetimeMetric S (on_line X (d + 1) u) mu nu) t (f1 t)) ->
        exists xi, x <= xi <= x + h /\ dg mu nu (d + 1)%nat = f1 xi) /\
      (forall f1,
        (forall t, x <= t <= x + h -> is_derive (fun u => Lapse S (on_line X (d + 1) u)) t (f1 t)) ->
        exists xi, x <= xi <= x + h /\ da (d + 1)%nat = f1 xi / Lapse S X)) /\
    (td = false -> da 0%nat = 0 /\ forall mu nu, dg mu nu 0%nat = 0) /\
    (td = true -> da 0%nat = GradLnAlpha S X 0%nat /\
       forall mu nu, (mu <= nu)%nat -> (nu < 4)%nat -> dg mu nu 0%nat = MetricDerivative S X mu nu 0%nat).
Proof.
  intros S co ax td first B W m0 b k j i HL HE Hax Hg HU X m _ HA Hs.
  eexists. eexists. split; [reflexivity|]. split; [reflexivity|]. split; [|split].
  - intros d Hd x h. destruct (face_points co b k j i d HU Hd) as (Fm & Fp). fold X x h in Fm, Fp.
    assert (Hh : 0 < h) by (apply HU; [exact 0%Z|lia]).
    split.
    + intros mu nu f1 Hm Hn Hd1. cbv beta.
      destruct (Nat.ltb_spec (d + 1) (offset td)) as [H|H]; [unfold offset in H; destruct td; lia|].
      assert (P : forall p q, (p <= q)%nat -> (q < 4)%nat ->
        pack m b (nvar_deriv td * Flatten2 p q + first v_dg + (d + 1) - offset td) (kx ax k) j i =
        gratio (SpacetimeMetric S (on_line X (d + 1) (x + h)) p q - SpacetimeMetric S (on_line X (d + 1) x) p q) h).
      { intros p q H1 H2. unfold m. rewrite (r_dg_fd S co ax td true first HL B W m0 HE Hax b k j i p q d eq_refl Hg Hd H1 H2).
        rewrite Fm, Fp. reflexivity. }
      destruct (mvt_fd (fun u => SpacetimeMetric S (on_line X (d + 1) u) mu nu) f1 x h Hh Hd1) as (xi & Hxi & E).
      exists xi. split; [exact Hxi|]. rewrite <- E.
      destruct (Nat.le_ge_cases mu nu).
      * now apply P.
      * rewrite (Flatten2_sym mu nu) by assumption. rewrite P by assumption.
        now rewrite !(Hs _ mu nu) by assumption.
    + intros f1 Hd1. cbv beta.
      destruct (Nat.ltb_spec (d + 1) (offset td)) as [H|H]; [unfold offset in H; destruct td; lia|].
      destruct (mvt_fd (fun u => Lapse S (on_line X (d + 1) u)) f1 x h Hh Hd1) as (xi & Hxi & E).
      exists xi. split; [exact Hxi|]. unfold m.
      rewrite (r_dalpha_fd S co ax td true first HL B W m0 HE Hax b k j i d eq_refl Hg Hd).
      rewrite Fm, Fp. fold X h. rewrite gratio_nz in E by lra.
      assert (Lapse S X * h <> 0) by (intros E0; apply Rmult_integral in E0; lra).
      rewrite gratio_nz by assumption. rewrite <- E. field. lra.
  - intros ->. split; [reflexivity|]. intros. reflexivity.
  - intros ->. cbv beta. destruct (kx_same S co ax true true first B W HE Hax Cent b k j i) as (_ & _ & _ & _ & _ & K6 & K7). split.
    + unfold m. change (0 <? offset true)%nat with false. cbv iota.
      rewrite (r_dalpha S co ax true true first HL B W m0 HE b k j i 0%nat) by (first [assumption|reflexivity|cbn; lia]).
      now rewrite K7.
    + intros mu nu Hm Hn. change (0 <? offset true)%nat with false. cbv iota. unfold m.
      rewrite (r_dg S co ax true true first HL B W m0 HE b k j i mu nu 0%nat) by (first [assumption|reflexivity|cbn; lia]).
      now rewrite K6.
Qed.
Print Assumptions C14_derivatives_fd.

(** The set-up has no data race: the memory after it does not depend on the order of the
    stores inside the parallel loops. *)
Theorem C14_schedule_independent : forall S co ax td fd first B W W' m0,
  layout_ok first (nvar_deriv td) ->
  execution (SetCached S co ax td fd first B) W -> execution (SetCached S co ax td fd first B) W' ->
  forall a, run W m0 a = run W' m0 a.
Proof.
  intros S co ax td fd first B W W' m0 HL H H'.
  apply (race_free_deterministic (SetCached S co ax td fd first B)); try assumption; [|reflexivity].
  now apply cached_race_free.
Qed.
Print Assumptions C14_schedule_independent.

(** Interpolated reads (block b, position X): at the position of a cell centre they return
    the analytic value there.  [axs] are the axes of the blocks, matching the coordinates. *)
Definition axes_match (co : Z -> BlockCoords) (axs : Z -> nat -> Axis) (B : Bounds) (b : Z) : Prop :=
  used_axes (axs b 1%nat) (axs b 2%nat) (axs b 3%nat) /\
  (forall d i, Xc (co b) d i = node (axs b d) i) /\
  is_ B = 0%Z /\ js B = 0%Z /\ ks B = 0%Z /\
  ie B = (ax_n (axs b 1%nat) - 1)%Z /\ je B = (ax_n (axs b 2%nat) - 1)%Z /\ ke B = (ax_n (axs b 3%nat) - 1)%Z.

Lemma interp_at co axs B b k j i m slot v : axes_match co axs B b -> on_grid B Cent b k j i ->
  pack m b slot k j i = v ->
  interp m axs b (Xc (co b) 1%nat i) (Xc (co b) 2%nat j) (Xc (co b) 3%nat k) slot = v.
Proof.
  intros (U & N & H1 & H2 & H3 & H4 & H5 & H6) (_ & Hi & Hj & Hk) <-. unfold interp.
  rewrite !N. rewrite Do_node; [reflexivity|assumption|lia|lia|lia].
Qed.

Theorem C14_interpolated_reads : forall S co axs td fd first B W m0 b k j i X0,
  layout_ok first (nvar_deriv td) -> execution (SetCached S co false td fd first B) W ->
  on_grid B Cent b k j i -> axes_match co axs B b ->
  let X := GetX co Cent b k j i in let m := run W m0 in
  consistent_at S X ->
  xLapse first m axs b X0 (X 1%nat) (X 2%nat) (X 3%nat) = Lapse S X /\
  eq_vec 3 (xShift first m axs b X0 (X 1%nat) (X 2%nat) (X 3%nat)) (ContravariantShift S X) /\
  eq_mat 3 (xMetric first m axs b X0 (X 1%nat) (X 2%nat) (X 3%nat)) (Metric S X) /\
  eq_mat 4 (xSpacetimeMetric first m axs b X0 (X 1%nat) (X 2%nat) (X 3%nat)) (SpacetimeMetric S X) /\
  xDetGamma first m axs b X0 (X 1%nat) (X 2%nat) (X 3%nat) = DetGamma S X.
Proof.
  intros S co axs td fd first B W m0 b k j i X0 HL HE Hg HM X m HC.
  destruct (cached_metric S co false td fd first HL B W m0 HE ltac:(discriminate) Cent b k j i ltac:(discriminate) Hg HC)
    as (E1 & E2 & E3 & _ & E5 & _ & E7 & _).
  cbn [X GetX row4]. repeat split.
  - apply (interp_at co axs B b k j i); assumption.
  - intros d Hd. apply (interp_at co axs B b k j i); try assumption. now apply E2.
  - intros r c Hr Hc. apply (interp_at co axs B b k j i); try assumption. now apply E3.
  - intros r c Hr Hc. apply (interp_at co axs B b k j i); try assumption. now apply E5.
  - apply (interp_at co axs B b k j i); assumption.
Qed.
Print Assumptions C14_interpolated_reads.

(** Between cell centres an interpolated component lies between the analytic values at the
    neighbouring cell centres. *)
Theorem C14_interpolated_between : forall S co axs td fd first B W m0 b X0 X1 X2 X3 lo hi,
  layout_ok first (nvar_deriv td) -> execution (SetCached S co false td fd first B) W ->
  (0 <= b < nb B)%Z -> axes_match co axs B b ->
  in_table (axs b 1%nat) X1 -> in_table (axs b 2%nat) X2 -> in_table (axs b 3%nat) X3 ->
  let m := run W m0 in
  (forall k j i, neighbour (axs b 3%nat) X3 k -> neighbour (axs b 2%nat) X2 j -> neighbour (axs b 1%nat) X1 i ->
     lo <= Lapse S (GetX co Cent b k j i) <= hi) ->
  lo <= xLapse first m axs b X0 X1 X2 X3 <= hi.
Proof.
  intros S co axs td fd first B W m0 b X0 X1 X2 X3 lo hi HL HE Hb HM T1 T2 T3 m Hv.
  destruct HM as (U & N & H1 & H2 & H3 & H4 & H5 & H6). unfold xLapse, interp.
  apply Do_between; try assumption. intros k j i Nk Nj Ni.
  assert (Hg : on_grid B Cent b k j i).
  { unfold on_grid. rewrite H1, H2, H3, H4, H5, H6. destruct Nk, Nj, Ni. lia. }
  pose proof (r_alpha S co false td fd first HL B W m0 HE Cent b k j i ltac:(discriminate) Hg) as R.
  unfold cLapse, kx in R. unfold m. rewrite R. now apply Hv.
Qed.
Print Assumptions C14_interpolated_between.

(** ---- the hypotheses are met ---- *)
(** one variable after the other in the order of GEOMETRY_CACHED_VARS
    (cached_system.hpp:47-57) *)
Definition vars_order : list Var :=
  [v_alpha Cent; v_dalpha; v_bcon Cent; v_gcov Cent; v_gamcon Cent; v_detgam Cent; v_dg; v_coord_c;
   v_alpha Face1; v_bcon Face1; v_gcov Face1; v_gamcon Face1; v_detgam Face1;
   v_alpha Face2; v_bcon Face2; v_gcov Face2; v_gamcon Face2; v_detgam Face2;
   v_alpha Face3; v_bcon Face3; v_gcov Face3; v_gamcon Face3; v_detgam Face3; v_coord_n].
Definition rank (v : Var) : nat :=
  let base l := match l with Cent => 0 | Face1 => 8 | Face2 => 13 | _ => 18 end%nat in
  let s l := match l with Cent => 1 | _ => 0 end%nat in
  (match v with
  | v_alpha l => base l | v_dalpha => 1 | v_bcon l => base l + s l + 1 | v_gcov l => base l + s l + 2
  | v_gamcon l => base l + s l + 3 | v_detgam l => base l + s l + 4 | v_dg => 6
  | v_coord_c => 7 | v_coord_n => 23 end)%nat.
Definition start (nd n : nat) : nat := list_sum (map (var_size nd) (firstn n vars_order)).
Definition pack_order (nd : nat) (v : Var) : nat := start nd (rank v).

Lemma rank_nth v : real_var v -> nth_error vars_order (rank v) = Some v.
Proof. destruct v as [[]|[]|[]|[]|[]| | | |]; cbn; intros H; try reflexivity; now elim H. Qed.
Lemma start_S nd n v : nth_error vars_order n = Some v -> start nd (S n) = (start nd n + var_size nd v)%nat.
Proof.
  unfold start. generalize vars_order. induction n as [|n IH]; intros [|u l]; cbn [nth_error]; try discriminate.
  - intros E. injection E as ->. cbn. lia.
  - intros E. specialize (IH l E). cbn [firstn map list_sum fold_right] in *. unfold list_sum in *. lia.
Qed.
Lemma start_mono nd n p : (n <= p)%nat -> (start nd n <= start nd p)%nat.
Proof.
  intros H. induction H as [|p H IH]; [lia|]. etransitivity; [exact IH|].
  unfold start. generalize vars_order. clear. induction p as [|p IH]; intros [|u l]; cbn; try lia.
  specialize (IH l). unfold list_sum in *. cbn in *. lia.
Qed.
Lemma pack_order_ok nd : layout_ok (pack_order nd) nd.
Proof.
  intros v v' c c' Hv Hv' Hc Hc' E. unfold pack_order in E.
  pose proof (rank_nth v Hv) as R. pose proof (rank_nth v' Hv') as R'.
  pose proof (start_S nd _ _ R) as T. pose proof (start_S nd _ _ R') as T'.
  destruct (Nat.lt_trichotomy (rank v) (rank v')) as [L|[L|L]].
  - pose proof (start_mono nd (S (rank v)) (rank v') L). lia.
  - rewrite L in R. rewrite R in R'. injection R' as ->. split; [reflexivity|lia].
  - pose proof (start_mono nd (S (rank v')) (rank v) L). lia.
Qed.

(** two blocks along r: cell centres at r = 1, 2 and r = 101, 102 *)
Definition ex_axs (b : Z) (d : nat) : Axis :=
  match d with
  | 1%nat => mkAxis (if (b =? 0)%Z then 1 else 101) 1 2
  | 2%nat => mkAxis (PI / 2) 1 1
  | _ => mkAxis 0 1 1
  end.
Definition ex_co (b : Z) : BlockCoords :=
  {| Xc := fun d i => node (ex_axs b d) i; Xf := fun d i => node (ex_axs b d) i - 1 / 2;
     CellWidthFA := fun d => 1 |}.
Definition ex_B : Bounds := {| nb := 2; ks := 0; ke := 0; js := 0; je := 0; is_ := 0; ie := 1 |}.
Definition KS : System := SphericalKerrSchild 0.

Lemma exec_concat loops : execution loops (concat loops).
Proof. exists loops. split; [|reflexivity]. induction loops; constructor; auto. Qed.
Lemma ex_match b : axes_match ex_co ex_axs ex_B b.
Proof.
  assert (P := PI_RGT_0). unfold axes_match, used_axes, good_axis. cbn. repeat split; try lia; try lra; try reflexivity.
Qed.
Lemma ks_sym Y : symmetric4 (SpacetimeMetric KS Y).
Proof. intros p q Hp Hq. idx; reflexivity. Qed.
Lemma ks_static X : static_at KS X.
Proof.
  assert (M : forall h, SpacetimeMetric KS (moved X 0 h) = SpacetimeMetric KS X /\ Lapse KS (moved X 0 h) = Lapse KS X).
  { intros h. unfold KS, SphericalKerrSchild. cbn [SpacetimeMetric Lapse]. unfold moved. cbn [Nat.eqb]. split; reflexivity. }
  split.
  - intros mu nu _ _. unfold is_partial. apply (is_derive_ext (fun _ : R => SpacetimeMetric KS X mu nu)).
    + intros t. now rewrite (proj1 (M t)).
    + apply (is_derive_const (V := R_NormedModule)).
  - unfold is_partial. apply (is_derive_ext (fun _ : R => ln (Lapse KS X))).
    + intros t. now rewrite (proj2 (M t)).
    + apply (is_derive_const (V := R_NormedModule)).
Qed.
Lemma ex_X1 b i : (0 <= i)%Z -> 1 <= Xc (ex_co b) 1 i.
Proof.
  intros H. cbn. unfold node; cbn. apply IZR_le in H. destruct (b =? 0)%Z; cbn; lra.
Qed.
Lemma ks_consistent b i : (0 <= i)%Z -> consistent_at KS (GetX ex_co Cent b 0 0 i).
Proof.
  intros Hi. pose proof (ex_X1 b i Hi). apply sks_consistent.
  - cbn [GetX row4]. intros E. lra.
  - cbn [GetX row4]. cbn. unfold node; cbn. replace (PI / 2 + 0 * 1) with (PI / 2) by ring. rewrite sin_PI2. lra.
Qed.

Example C14_nonvacuous :
  layout_ok (pack_order 3) (nvar_deriv false) /\
  execution (SetCached KS ex_co true false false (pack_order 3) ex_B)
    (concat (SetCached KS ex_co true false false (pack_order 3) ex_B)) /\
  axisymmetric_system KS /\ on_grid ex_B Cent 1 0 0 1 /\ on_grid ex_B Face1 1 0 0 2 /\
  consistent_at KS (GetX ex_co Cent 1 0 0 1) /\ derivatives_at KS (GetX ex_co Cent 1 0 0 1) /\
  static_at KS (GetX ex_co Cent 1 0 0 1) /\ uniform_faces (ex_co 1) /\ axes_match ex_co ex_axs ex_B 1 /\
  in_table (ex_axs 1 1) (203 / 2).
Proof.
  split; [apply pack_order_ok|]. split; [apply exec_concat|].
  split. { intros X Y H0 H1 H2. unfold KS, SphericalKerrSchild; cbn. unfold SKS_MetricDerivative. rewrite H1, H2. tauto. }
  split; [unfold on_grid; cbn; lia|]. split; [unfold on_grid; cbn; lia|].
  split; [now apply ks_consistent|].
  split. { apply sks_deriv. pose proof (ex_X1 1 1 ltac:(lia)). cbn [GetX row4]. lra. }
  split; [apply ks_static|].
  split. { intros d n Hd. cbn. unfold node. rewrite plus_IZR. destruct d as [|[|[|[|d]]]]; try lia; cbn; split; lra. }
  split; [apply ex_match|]. intros _. unfold node; cbn. lra.
Qed.

(** VIOLATION: off the grid, SpacetimeMetricInverse(b, X0, X1, X2, X3) reads the lapse
    of block 0 whatever b is (overload resolution, cached_system.hpp:268).  Kerr-Schild with a = 0
    at r = 101, in the second block: g^00 is off. *)
Theorem C14_spacetime_inverse_offgrid_refuted : exists W m0 (X : point),
  execution (SetCached KS ex_co false false false (pack_order 3) ex_B) W /\
  X = GetX ex_co Cent 1 0 0 0 /\
  xSpacetimeMetricInverse (pack_order 3) (run W m0) ex_axs 1 0 (X 1%nat) (X 2%nat) (X 3%nat) 0%nat 0%nat
    <> SpacetimeMetricInverse KS X 0%nat 0%nat.
Proof.
  set (W := concat (SetCached KS ex_co false false false (pack_order 3) ex_B)).
  exists W, (fun _ => 0), (GetX ex_co Cent 1 0 0 0).
  assert (HE : execution (SetCached KS ex_co false false false (pack_order 3) ex_B) W) by apply exec_concat.
  split; [exact HE|]. split; [reflexivity|].
  assert (RA : forall i, (0 <= i <= 1)%Z ->
    pack (run W (fun _ => 0)) 0 (pack_order 3 (v_alpha Cent)) 0 0 i = sqrt ((1 + IZR i) / (3 + IZR i))).
  { intros i Hi.
    pose proof (r_alpha KS ex_co false false false (pack_order 3) (pack_order_ok _) ex_B W (fun _ => 0) HE Cent 0 0 0 i
      ltac:(discriminate) ltac:(unfold on_grid; cbn; lia)) as R.
    unfold cLapse, kx in R. rewrite R. cbn [KS SphericalKerrSchild Lapse GetX row4 ex_co Xc ex_axs Z.eqb].
    unfold node, sks_rho2; cbn [ax_min ax_dx].
    assert (0 <= IZR i) by (apply IZR_le; lia).
    rewrite Rabs_pos_eq by lra. f_equal. rewrite gratio_nz by nra. field. split; nra. }
  unfold xSpacetimeMetricInverse, xLapse, interp, Do. cbn [ex_axs ax_n]. change (1 <? 1)%Z with false. cbv iota.
  unfold Do1D, weights, GetWeights. cbn [ex_axs Z.eqb ax_min ax_dx ax_n].
  cbn [GetX row4 ex_co Xc ex_axs Z.eqb]. unfold node; cbn [ax_min ax_dx].
  rewrite (gratio_nz (101 + 0 * 1 - 1) 1) by lra. replace ((101 + 0 * 1 - 1) / 1) with (IZR 100) by field. rewrite Flocq.Core.Raux.Ztrunc_IZR.
  change (Z.min (Z.max 0 100) (2 - 2))%Z with 0%Z. change (0 + 1)%Z with 1%Z.
  rewrite !RA by lia. rewrite (gratio_nz _ 1) by lra.
  replace ((1 + IZR 0) / (3 + IZR 0)) with (1 / 3) by (cbn; lra).
  replace ((1 + IZR 1) / (3 + IZR 1)) with (1 / 2) by (cbn; lra).
  replace ((101 + 0 * 1 - (1 + IZR 0 * 1)) / 1) with 100 by (cbn; lra).
  assert (S3 : 0 <= sqrt (1 / 3) <= 58 / 100).
  { split; [apply sqrt_pos|]. apply Rsqr_incr_0_var; [|lra]. rewrite Rsqr_sqrt by lra. unfold Rsqr. lra. }
  assert (S2 : 70 / 100 <= sqrt (1 / 2)).
  { apply Rsqr_incr_0_var; [|apply sqrt_pos]. rewrite Rsqr_sqrt by lra. unfold Rsqr. lra. }
  set (al := (1 - 100) * sqrt (1 / 3) + 100 * sqrt (1 / 2)).
  assert (HA : 1 <= al) by (unfold al; lra).
  assert (H2 : 1 <= al * al) by nra.
  rewrite gratio_nz by lra.
  assert (H3 : 1 / (al * al) <= 1) by (apply Rle_div_l; lra).
  cbn [KS SphericalKerrSchild SpacetimeMetricInverse rows4 row4]. unfold node, sks_rho2; cbn [ax_min ax_dx].
  rewrite Rabs_pos_eq by lra.
  match goal with |- context [gratio _ ?d] => replace d with 10201 by ring end.
  rewrite gratio_nz by lra. lra.
Qed.
Print Assumptions C14_spacetime_inverse_offgrid_refuted.

(** VIOLATION: Coords at a cell centre or corner.  The cache stores all four components
    (geometry_utils.hpp:244) but Cached::Coords reads component d into C[d+1]
    (cached_system.hpp:440), so the result is (0, C0, C1, C2) instead of (C0, C1, C2, C3). *)
Theorem C14_coords_shifted : forall S co ax td fd first B W m0 l b k j i,
  layout_ok first (nvar_deriv td) -> execution (SetCached S co ax td fd first B) W ->
  l = Cent \/ l = Corn -> on_grid B l b k j i ->
  let C := Coords S (GetX co l b k j i) in
  eq_vec 4 (cCoords S co first (run W m0) l b k j i) (row4 0 (C 0%nat) (C 1%nat) (C 2%nat)).
Proof.
  intros S co ax td fd first B W m0 l b k j i HL HE Hl Hg.
  exact (cached_coords S co ax td fd first HL B W m0 HE l b k j i Hl Hg).
Qed.
Print Assumptions C14_coords_shifted.
Theorem C14_coords_refuted : exists W m0,
  execution (SetCached Minkowski ex_co false false false (pack_order 3) ex_B) W /\
  on_grid ex_B Cent 0 0 0 0 /\
  cCoords Minkowski ex_co (pack_order 3) (run W m0) Cent 0 0 0 0 1%nat = 0 /\
  Coords Minkowski (GetX ex_co Cent 0 0 0 0) 1%nat = 1.
Proof.
  set (W := concat (SetCached Minkowski ex_co false false false (pack_order 3) ex_B)).
  exists W, (fun _ => 0).
  assert (HE : execution (SetCached Minkowski ex_co false false false (pack_order 3) ex_B) W) by apply exec_concat.
  assert (Hg : on_grid ex_B Cent 0 0 0 0) by (unfold on_grid; cbn; lia).
  split; [exact HE|]. split; [exact Hg|]. split.
  - rewrite (C14_coords_shifted Minkowski ex_co false false false (pack_order 3) ex_B W (fun _ => 0) Cent 0 0 0 0 (pack_order_ok 3) HE (or_introl eq_refl) Hg 1%nat ltac:(lia)).
    reflexivity.
  - cbn. unfold node; cbn. ring.
Qed.
Print Assumptions C14_coords_refuted.
