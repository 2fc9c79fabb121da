(** C55: stellar progenitor tables. *)
From Coq Require Import Reals ZArith List Ascii Bool Lia Lra Arith Psatz FunctionalExtensionality.
From Flocq Require Import Core.
From Verif.Model Require Import Num Geometry Modified Relativity MonopoleGR DataBox Progenitor.
From Verif.Spec Require Import Tensor.
From Verif.Proofs Require Import GeomBase TransformProofs DataBoxProofs.
From Verif.Properties Require Import P_Adiabats.
Import ListNotations.
Local Open Scope R_scope.

(** ** reading the file *)
(** what is in the file: the rows of numbers, comments and lines without numbers left out *)
Definition is_comment (l : Line) : bool := match first l with Some c => Ascii.eqb c "#"%char | None => false end.
Definition rows (f : list Line) : list (list R) :=
  filter (fun row => negb (Nat.eqb (length row) 0)) (map numbers (filter (fun l => negb (is_comment l)) f)).
Definition entries (c : nat) (rs : list (list R)) : list R := flat_map (fun row => match nth_error row c with Some x => [x] | None => [] end) rs.

Lemma read_row_spec (row : list R) : forall (m : Columns) (col : nat), (col <= 11)%nat ->
  if Nat.leb (col + length row) 11 then
    exists m', read_row m col row = Some m' /\
      forall k, m' k = m k ++ (if Nat.ltb k col then [] else match nth_error row (k - col) with Some x => [x] | None => [] end)
  else read_row m col row = None.
Proof.
  induction row as [|x row IH]; intros m col Hc.
  - cbn [length]. rewrite Nat.add_0_r. replace (Nat.leb col 11) with true by (symmetry; apply Nat.leb_le; auto).
    exists m. split; [reflexivity|]. intros k. destruct (Nat.ltb k col); [symmetry; apply app_nil_r|].
    destruct (k - col)%nat; cbn; symmetry; apply app_nil_r.
  - cbn [length read_row]. destruct (Nat.ltb_spec col 11) as [L|L].
    + specialize (IH (push m col x) (S col) ltac:(lia)).
      replace (col + S (length row))%nat with (S col + length row)%nat by lia.
      destruct (Nat.leb (S col + length row) 11); [|exact IH].
      destruct IH as (m' & E & P). exists m'. split; [exact E|]. intros k. rewrite P. unfold push.
      destruct (Nat.eqb_spec k col) as [->|N].
      * replace (Nat.ltb col (S col)) with true by (symmetry; apply Nat.ltb_lt; lia).
        replace (Nat.ltb col col) with false by (symmetry; apply Nat.ltb_ge; lia).
        rewrite Nat.sub_diag. cbn. apply app_nil_r.
      * destruct (Nat.ltb_spec k (S col)), (Nat.ltb_spec k col); try lia; [reflexivity|].
        replace (k - col)%nat with (S (k - S col)) by lia. reflexivity.
    + replace (Nat.leb (col + S (length row)) 11) with false by (symmetry; apply Nat.leb_gt; lia). reflexivity.
Qed.
Lemma read_lines_spec (f : list Line) : forall (m : Columns),
  if forallb (fun row => Nat.leb (length row) 11) (rows f) then
    exists m', read_lines m f = Some m' /\ forall k, m' k = m k ++ entries k (rows f)
  else read_lines m f = None.
Proof.
  induction f as [|l f IH]; intros m.
  - exists m. split; [reflexivity|]. intros k. cbn. symmetry; apply app_nil_r.
  - unfold rows in *. cbn [read_lines filter map]. fold (is_comment l). destruct (is_comment l); cbn [negb]; [apply IH|].
    cbn [map filter]. pose proof (read_row_spec (numbers l) m 0 ltac:(lia)) as R. cbn [Nat.add] in R.
    destruct (Nat.eqb_spec (length (numbers l)) 0) as [Z|Z]; cbn [negb].
    + destruct (numbers l) as [|]; [|discriminate]. cbn [read_row]. apply IH.
    + cbn [forallb]. destruct (Nat.leb (length (numbers l)) 11); cbn [andb].
      * destruct R as (m' & E & P). rewrite E. specialize (IH m').
        destruct (forallb _ _); [|exact IH]. destruct IH as (m'' & E' & P'). exists m''. split; [exact E'|].
        intros k. rewrite P', P. cbn [entries flat_map]. rewrite Nat.sub_0_r.
        replace (Nat.ltb k 0) with false by (symmetry; apply Nat.ltb_ge; lia). rewrite <- app_assoc. reflexivity.
      * rewrite R. reflexivity.
Qed.
(** a table of 11 columns is read as it stands: entry i of column c is number c of row i;
    comments and blank lines anywhere in the file do not matter *)
Theorem C55_read (f : list Line) : (forall row, In row (rows f) -> length row = 11%nat) ->
  exists m, readtable f = Some m /\
    forall c, (c < 11)%nat -> length (m c) = length (rows f) /\
      forall i, (i < length (rows f))%nat -> nth i (m c) 0 = nth c (nth i (rows f) []) 0.
Proof.
  intros H. pose proof (read_lines_spec f (fun _ => [])) as R. unfold readtable.
  replace (forallb (fun row => Nat.leb (length row) 11) (rows f)) with true in R.
  2:{ symmetry. apply forallb_forall. intros row Hr. apply Nat.leb_le. rewrite (H row Hr). lia. }
  destruct R as (m & E & P). exists m. split; [exact E|]. intros c Hc. rewrite P. cbn [app].
  revert H. generalize (rows f). intros rs. induction rs as [|row rs IH]; intros H.
  - split; [reflexivity|intros; cbn in *; lia].
  - assert (L : length row = 11%nat) by (apply H; left; reflexivity).
    destruct IH as (I1 & I2); [intros; apply H; right; auto|].
    cbn [entries flat_map]. fold (entries c rs).
    destruct (nth_error row c) as [x|] eqn:Ex; [|apply nth_error_None in Ex; lia].
    cbn [app length]. split; [rewrite I1; reflexivity|].
    intros [|i] Hi; [cbn; symmetry; apply nth_error_nth; exact Ex|]. apply I2. cbn in Hi. lia.
Qed.
Print Assumptions C55_read.
(** no other table gets through without an access out of bounds *)
Lemma entries_length (c : nat) (rs : list (list R)) : (length (entries c rs) <= length rs)%nat /\
  (length (entries c rs) = length rs <-> forall row, In row rs -> (c < length row)%nat).
Proof.
  induction rs as [|row rs (I1 & I2)]; [split; [cbn; lia|split; [intros _ row []|reflexivity]]|].
  cbn [entries flat_map]. fold (entries c rs). rewrite app_length.
  destruct (nth_error row c) as [x|] eqn:Ex; cbn [length].
  - assert (c < length row)%nat by (apply nth_error_Some; congruence).
    split; [lia|]. split.
    + intros E row' [<-|Hr]; [auto|]. apply I2; [lia|exact Hr].
    + intros Q. replace (length (entries c rs)) with (length rs); [lia|]. symmetry. apply I2. intros row' Hr. apply Q. right; exact Hr.
  - apply nth_error_None in Ex. split; [lia|]. split; [lia|]. intros Q. specialize (Q row (or_introl eq_refl)). lia.
Qed.
Theorem C55_rectangular (f : list Line) :
  (exists m, readtable f = Some m /\ forall c, (c < 11)%nat -> column_table m c <> None) <->
  (forall row, In row (rows f) -> length row = 11%nat).
Proof.
  split.
  - intros (m & E & T) row Hr. pose proof (read_lines_spec f (fun _ => [])) as R. unfold readtable in E. rewrite E in R.
    destruct (forallb (fun row => Nat.leb (length row) 11) (rows f)) eqn:F; [|discriminate].
    destruct R as (m' & E' & P). assert (m' = m) by congruence. subst m'.
    assert (U : (length row <= 11)%nat) by (apply Nat.leb_le; apply (proj1 (forallb_forall _ _) F); exact Hr).
    specialize (T 10%nat ltac:(lia)). unfold column_table in T.
    assert (N0 : length (m 0%nat) = length (rows f)).
    { rewrite P. cbn [app]. apply entries_length. intros r' Hr'. unfold rows in Hr'. apply filter_In in Hr'. destruct Hr' as [_ Hn].
      destruct (length r'); [discriminate|lia]. }
    destruct (Nat.leb_spec (length (m 0%nat)) (length (m 10%nat))) as [L|L]; [|congruence].
    rewrite N0 in L. rewrite (P 10%nat) in L. cbn [app] in L. destruct (entries_length 10 (rows f)) as (K1 & K2).
    assert (10 < length row)%nat; [|lia]. apply K2; [lia|exact Hr].
  - intros H. destruct (C55_read f H) as (m & E & P). exists m. split; [exact E|]. intros c Hc. unfold column_table.
    destruct (P 0%nat ltac:(lia)) as [L0 _]. destruct (P c Hc) as [Lc _]. rewrite L0, Lc, Nat.leb_refl. discriminate.
Qed.
Print Assumptions C55_rectangular.
Definition row11 (r rho : R) : list R := [r; rho; 1; / 2; 1; 0; 1; 1; 0; 1; 1].
Definition data (row : list R) : Line := {| first := Some "1"%char; numbers := row |}.
Definition comment : Line := {| first := Some "#"%char; numbers := [7] |}.
Definition blank : Line := {| first := None; numbers := [] |}.
Example C55_read_ex : rows [comment; data (row11 1 8); blank; data (row11 2 4); blank] = [row11 1 8; row11 2 4].
Proof. reflexivity. Qed.

(** ** interpolation in radius *)
Definition radius (m : Columns) (i : nat) : R := nth i (m 0%nat) 0.
Definition npoints (m : Columns) : nat := length (m 0%nat).
Definition uniform (m : Columns) : Prop :=
  forall i, (i < npoints m)%nat -> radius m i = radius m 0%nat + INR i * ((radius m (npoints m - 1) - radius m 0%nat) / INR (npoints m - 1)).
Lemma grid_radius (m : Columns) (i : nat) :
  grid_x (profile_grid m) i = radius m 0%nat + INR i * ((radius m (npoints m - 1) - radius m 0%nat) / INR (npoints m - 1)).
Proof. unfold grid_x, profile_grid. cbn [setRange g_dx g_min]. unfold radius, npoints. ring. Qed.

(** a table in equal steps of radius is reproduced at its own radii *)
Theorem C55_profile (m : Columns) (c : nat) : (2 <= npoints m)%nat -> radius m 0%nat < radius m (npoints m - 1) ->
  length (m c) = npoints m -> uniform m ->
  forall i, (i < npoints m)%nat -> profile m c (radius m i) = Some (nth i (m c) 0).
Proof.
  intros Hn Hr Hl U i Hi. unfold profile, column_table. fold (npoints m). rewrite Hl, Nat.leb_refl. f_equal.
  rewrite (U i Hi), <- grid_radius. apply interp_node; [apply setRange_dx; auto|exact Hn|exact Hi].
Qed.
Print Assumptions C55_profile.
(** between the first and the last radius a positive quantity stays positive *)
Theorem C55_positive (m : Columns) (c : nat) (r v : R) : (2 <= npoints m)%nat -> radius m 0%nat < radius m (npoints m - 1) ->
  length (m c) = npoints m -> (forall x, In x (m c) -> 0 < x) ->
  radius m 0%nat <= r <= radius m (npoints m - 1) -> profile m c r = Some v -> 0 < v.
Proof.
  intros Hn Hr Hl Pos Hi. unfold profile, column_table. fold (npoints m). rewrite Hl, Nat.leb_refl. intros E. injection E as <-.
  unfold profile_grid. fold (npoints m). fold (radius m 0). fold (radius m (npoints m - 1)).
  destruct (C54_interp (radius m 0) (radius m (npoints m - 1)) (npoints m) (fun i => nth i (m c) 0) Hr Hn) as (_ & B & _).
  destruct (B r Hi) as (k & Hk & Lo & _).
  assert (0 < nth k (m c) 0) by (apply Pos, nth_In; lia).
  assert (0 < nth (S k) (m c) 0) by (apply Pos, nth_In; lia).
  eapply Rlt_le_trans; [|exact Lo]. apply Rmin_glb_lt; auto.
Qed.
Print Assumptions C55_positive.

(** any other spacing of the radii gives wrong values at the tabulated radii: a decreasing
    profile is reproduced if and only if the radii are uniform *)
Lemma interp_decreasing (G : Grid) (d : nat -> R) (x y : R) : 0 < g_dx G -> (2 <= g_n G)%nat ->
  (forall i, (S i < g_n G)%nat -> d (S i) < d i) -> grid_x G 0 <= x -> x < y -> y <= grid_x G (g_n G - 1) ->
  interpToReal G d y < interpToReal G d x.
Proof.
  intros Hdx Hn Dec H1 H2 H3.
  assert (Mono : forall i j, (i <= j)%nat -> (j < g_n G)%nat -> d j <= d i).
  { intros i j Hij. induction Hij as [|j Hij IH]; intros Hj; [lra|]. pose proof (Dec j ltac:(lia)). specialize (IH ltac:(lia)). lra. }
  destruct (cell_of G Hdx Hn x ltac:(split; lra)) as (k & Hk & Kx).
  destruct (cell_of G Hdx Hn y ltac:(split; lra)) as (l & Hl & Ly).
  rewrite (interp_cell G d Hdx Hn k x Hk Kx), (interp_cell G d Hdx Hn l y Hl Ly).
  assert (Dk := Dec k Hk). assert (Dl := Dec l Hl).
  set (s := (x - grid_x G k) / g_dx G). set (t := (y - grid_x G l) / g_dx G).
  assert (Es : x = grid_x G k + s * g_dx G) by (unfold s; field; lra).
  assert (Et : y = grid_x G l + t * g_dx G) by (unfold t; field; lra).
  rewrite grid_x_S in Kx, Ly.
  assert (S01 : 0 <= s <= 1) by (split; nra). assert (T01 : 0 <= t <= 1) by (split; nra).
  clearbody s t.
  destruct (lt_eq_lt_dec k l) as [[L|E]|L].
  - assert (Q : d l <= d (S k)) by (apply Mono; lia).
    destruct (Req_dec s 1) as [E1|N1]; [destruct (Req_dec t 0) as [E0|N0]|].
    + subst s t. destruct (Nat.eq_dec l (S k)) as [E|N].
      * exfalso. subst l. rewrite grid_x_S in Et. lra.
      * assert (d l <= d (S (S k))) by (apply Mono; lia). pose proof (Dec (S k) ltac:(lia)). nra.
    + nra.
    + nra.
  - subst l. assert (s < t) by nra. nra.
  - exfalso. pose proof (grid_x_le G Hdx (S l) k ltac:(lia)) as Q. rewrite grid_x_S in Q. nra.
Qed.
Theorem C55_profile_iff (m : Columns) (c : nat) : (2 <= npoints m)%nat ->
  (forall i, (S i < npoints m)%nat -> radius m i < radius m (S i)) -> length (m c) = npoints m ->
  (forall i, (S i < npoints m)%nat -> nth (S i) (m c) 0 < nth i (m c) 0) ->
  (forall i, (i < npoints m)%nat -> profile m c (radius m i) = Some (nth i (m c) 0)) <-> uniform m.
Proof.
  intros Hn Inc Hl Dec.
  assert (Mono : forall i j, (i <= j)%nat -> (j < npoints m)%nat -> radius m i <= radius m j).
  { intros i j Hij. induction Hij as [|j Hij IH]; intros Hj; [lra|]. pose proof (Inc j ltac:(lia)). specialize (IH ltac:(lia)). lra. }
  assert (Hr : radius m 0%nat < radius m (npoints m - 1)).
  { pose proof (Inc 0%nat ltac:(lia)). pose proof (Mono 1%nat (npoints m - 1)%nat ltac:(lia) ltac:(lia)). lra. }
  split; [|apply C55_profile; auto].
  intros H i Hi. set (G := profile_grid m).
  assert (Hdx : 0 < g_dx G) by (apply setRange_dx; auto).
  assert (Hg : (2 <= g_n G)%nat) by exact Hn.
  rewrite <- grid_radius. fold G. specialize (H i Hi). unfold profile, column_table in H. fold (npoints m) in H. rewrite Hl, Nat.leb_refl in H.
  injection H as H. fold G in H.
  set (d := fun i => nth i (m c) 0) in *. change (nth i (m c) 0) with (d i) in H.
  rewrite <- (interp_node G d Hdx Hg i) in H at 1 by exact Hi.
  assert (F0 : grid_x G 0 = radius m 0%nat) by apply setRange_first.
  assert (F1 : grid_x G (g_n G - 1) = radius m (npoints m - 1)) by (apply setRange_last; exact Hn).
  assert (Q0 : radius m 0%nat <= radius m i) by (apply Mono; lia).
  assert (Q1 : radius m i <= radius m (npoints m - 1)) by (apply Mono; lia).
  assert (P0 : grid_x G 0 <= grid_x G i) by (apply grid_x_le; auto; lia).
  assert (P1 : grid_x G i <= grid_x G (g_n G - 1)) by (apply grid_x_le; auto; change (g_n G) with (npoints m); lia).
  destruct (Rtotal_order (radius m i) (grid_x G i)) as [L|[E|L]]; [exfalso|exact E|exfalso].
  - pose proof (interp_decreasing G d (radius m i) (grid_x G i) Hdx Hg Dec ltac:(lra) L ltac:(lra)). lra.
  - pose proof (interp_decreasing G d (grid_x G i) (radius m i) Hdx Hg Dec ltac:(lra) L ltac:(lra)). lra.
Qed.
Print Assumptions C55_profile_iff.
(** a table in equal ratios of radius, as stellar models come, read from a file *)
Definition log_file : list Line := [data (row11 1 8); data (row11 2 4); data (row11 4 2)].
Theorem C55_nonuniform_refuted :
  exists m, readtable log_file = Some m /\ radius m 1 = 2 /\ nth 1 (m 1%nat) 0 = 4 /\ profile m 1 (radius m 1) <> Some 4.
Proof.
  destruct (C55_read log_file) as (m & E & P).
  { intros row [<-|[<-|[<-|[]]]]; reflexivity. }
  exists m. split; [exact E|].
  change (rows log_file) with [row11 1 8; row11 2 4; row11 4 2] in P.
  destruct (P 0%nat ltac:(lia)) as [L0 V0]. destruct (P 1%nat ltac:(lia)) as [L1 V1]. cbn [length] in L0, L1, V0, V1.
  assert (R0 : radius m 0 = 1) by exact (V0 0%nat ltac:(lia)). assert (R1 : radius m 1 = 2) by exact (V0 1%nat ltac:(lia)).
  assert (R2 : radius m 2 = 4) by exact (V0 2%nat ltac:(lia)).
  assert (D0 : nth 0 (m 1%nat) 0 = 8) by exact (V1 0%nat ltac:(lia)). assert (D1 : nth 1 (m 1%nat) 0 = 4) by exact (V1 1%nat ltac:(lia)).
  assert (D2 : nth 2 (m 1%nat) 0 = 2) by exact (V1 2%nat ltac:(lia)).
  split; [exact R1|]. split; [exact D1|]. intros Q.
  assert (N : npoints m = 3%nat) by exact L0.
  assert (Gn : g_n (profile_grid m) = 3%nat) by exact L0.
  assert (Hg : (2 <= g_n (profile_grid m))%nat) by (rewrite Gn; lia).
  assert (Hdx : 0 < g_dx (profile_grid m)).
  { apply (setRange_dx (radius m 0) (radius m (npoints m - 1)) (npoints m)); rewrite N; [cbn [Nat.sub]; lra|lia]. }
  assert (U : uniform m).
  { apply (C55_profile_iff m 1).
    - lia.
    - intros [|[|i]] Hi; try lia; lra.
    - rewrite L1. symmetry; exact N.
    - intros [|[|i]] Hi; try lia; lra.
    - intros i Hi. destruct i as [|[|[|i]]]; try lia.
      + unfold profile, column_table. rewrite L0, L1. cbn [Nat.leb]. f_equal.
        rewrite <- (setRange_first (radius m 0) (radius m (npoints m - 1)) (npoints m)).
        apply (interp_node (profile_grid m)); [exact Hdx|exact Hg|rewrite Gn; lia].
      + rewrite D1. exact Q.
      + unfold profile, column_table. rewrite L0, L1. cbn [Nat.leb]. f_equal.
        transitivity (interpToReal (profile_grid m) (fun i => nth i (m 1%nat) 0) (grid_x (profile_grid m) 2)).
        * f_equal. rewrite grid_radius, N. cbn [Nat.sub INR]. field.
        * apply (interp_node (profile_grid m)); [exact Hdx|exact Hg|rewrite Gn; lia]. }
  specialize (U 1%nat ltac:(lia)). rewrite N in U. cbn [Nat.sub INR] in U. lra.
Qed.
Print Assumptions C55_nonuniform_refuted.

(** ** zones *)
(** every zone takes density, pressure and electron fraction from the table at its distance from
    the centre, and moves along the radius with the tabulated velocity (times the factor of C53) *)
Theorem C55_zone (m : Columns) (gamma : mat) (x y z : R) (q : Zone) : (x, y) <> (0, 0) ->
  zone true m gamma x y z = Some q ->
  let r := sqrt (x * x + y * y + z * z) in
  let n : vec := row3 (x / r) (y / r) (z / r) in
  profile m 1 r = Some (z_rho q) /\ profile m 6 r = Some (z_P q) /\ profile m 3 r = Some (z_ye q) /\
  exists v, profile m 5 r = Some v /\
    forall i, (i < 3)%nat -> z_v q i = v * n i * sqrt (1 + v ^ 2 * dot3 gamma n n).
Proof.
  intros Hxy E r n. revert E. unfold zone. cbn [zone_radius]. fold r.
  destruct (profile m 1 r) as [rho|]; [|discriminate]. destruct (profile m 6 r) as [P|]; [|discriminate].
  destruct (profile m 3 r) as [ye|]; [|discriminate]. destruct (profile m 5 r) as [v|]; [|discriminate].
  intros E. injection E as <-. cbn [z_rho z_P z_ye z_v].
  split; [reflexivity|]. split; [reflexivity|]. split; [reflexivity|]. exists v. split; [reflexivity|].
  assert (Pr : 0 < r).
  { unfold r. apply sqrt_lt_R0. destruct (Req_dec x 0), (Req_dec y 0); subst; try (now contradict Hxy); nra. }
  assert (Jn : forall i, (i < 3)%nat -> tr_Jcon SphericalToCartesian x y z i 0%nat = n i).
  { intros i Hi. destruct (s2c_th_spec x y z Hxy) as (E1 & E2 & _). destruct (atan2_spec x y Hxy) as (A1 & A2). cbv zeta in *.
    change (s2c_r x y z) with r in *.
    cbn [SphericalToCartesian tr_Jcon]. unfold n, s2c_ph in *.
    destruct i as [|[|[|]]]; try lia; cbn [rows3 row3].
    - apply (Rmult_eq_reg_l r); [|lra]. replace (r * (x / r)) with x by (field; lra). rewrite <- Rmult_assoc, E2. exact A1.
    - apply (Rmult_eq_reg_l r); [|lra]. replace (r * (y / r)) with y by (field; lra). rewrite <- Rmult_assoc, E2. exact A2.
    - apply (Rmult_eq_reg_l r); [|lra]. replace (r * (z / r)) with z by (field; lra). exact E1. }
  assert (V : forall i, (i < 3)%nat -> sum3 (fun j => tr_Jcon SphericalToCartesian x y z i j * row3 v 0 0 j) = v * n i).
  { intros i Hi. unfold sum3. cbn [row3]. rewrite Jn by auto. ring. }
  intros i Hi. unfold zone_velocity. rewrite V by auto. f_equal. unfold GetLorentzFactor. f_equal. f_equal.
  set (f := fun i => sum3 (fun j => tr_Jcon SphericalToCartesian x y z i j * row3 v 0 0 j)).
  assert (W : forall i, (i < 3)%nat -> f i = v * n i) by exact V.
  change (sum3 (fun ii => sum3 (fun jj => gamma ii jj * f ii * f jj)) = v ^ 2 * dot3 gamma n n).
  assert (V0 := W 0%nat ltac:(lia)). assert (V1 := W 1%nat ltac:(lia)). assert (V2 := W 2%nat ltac:(lia)).
  clear V W Jn. clearbody f. unfold dot3, sum3. rewrite V0, V1, V2. ring.
Qed.
Print Assumptions C55_zone.
(** in spherical coordinates likewise, along the radial coordinate *)
Theorem C55_zone_sph (m : Columns) (gamma : mat) (x y z : R) (q : Zone) : zone false m gamma x y z = Some q ->
  profile m 1 (Rabs x) = Some (z_rho q) /\ profile m 6 (Rabs x) = Some (z_P q) /\ profile m 3 (Rabs x) = Some (z_ye q) /\
  exists v, profile m 5 (Rabs x) = Some v /\
    z_v q 0%nat = v * sqrt (1 + v ^ 2 * gamma 0%nat 0%nat) /\ z_v q 1%nat = 0 /\ z_v q 2%nat = 0.
Proof.
  unfold zone. cbn [zone_radius].
  destruct (profile m 1 (Rabs x)) as [rho|]; [|discriminate]. destruct (profile m 6 (Rabs x)) as [P|]; [|discriminate].
  destruct (profile m 3 (Rabs x)) as [ye|]; [|discriminate]. destruct (profile m 5 (Rabs x)) as [v|]; [|discriminate].
  intros E. injection E as <-. cbn [z_rho z_P z_ye z_v].
  split; [reflexivity|]. split; [reflexivity|]. split; [reflexivity|]. exists v. split; [reflexivity|].
  unfold zone_velocity, GetLorentzFactor. unfold sum3. cbn [row3]. split; [f_equal; f_equal; f_equal; ring|split; ring].
Qed.
Print Assumptions C55_zone_sph.
(** the state and the sources of the metric come from the same table and the same radius: a
    zone at the radius of a grid point sees the row the grid point was given *)
Theorem C55_sources (m : Columns) : (forall c, (c < 11)%nat -> length (m c) = npoints m) -> (2 <= npoints m)%nat ->
  radius m 0%nat < radius m (npoints m - 1) -> uniform m ->
  forall i, (i < npoints m)%nat ->
    monopole_source m (radius m i) = Some (nth i (m 7%nat) 0, nth i (m 8%nat) 0, nth i (m 9%nat) 0, nth i (m 10%nat) 0) /\
    forall gamma x y z, sqrt (x * x + y * y + z * z) = radius m i ->
      exists q, zone true m gamma x y z = Some q /\ z_rho q = nth i (m 1%nat) 0 /\ z_P q = nth i (m 6%nat) 0 /\ z_ye q = nth i (m 3%nat) 0.
Proof.
  intros Hl Hn Hr U i Hi.
  assert (P : forall c, (c < 11)%nat -> profile m c (radius m i) = Some (nth i (m c) 0)) by (intros c Hc; apply C55_profile; auto).
  split; [unfold monopole_source; rewrite !P by lia; reflexivity|].
  intros gamma x y z E. unfold zone. cbn [zone_radius]. rewrite E, !P by lia. eexists. split; [reflexivity|].
  cbn [z_rho z_P z_ye]. split; [reflexivity|split; reflexivity].
Qed.
Print Assumptions C55_sources.
(** the hypotheses of C55_profile, C55_positive, C55_zone and C55_sources hold for a file with
    three evenly spaced rows, a comment and a blank line; the zone at (1, 2, 2) gets the last row *)
Definition even_file : list Line := [comment; data (row11 1 8); blank; data (row11 2 4); data (row11 3 2); blank].
Example C55_sources_ex : exists m, readtable even_file = Some m /\ npoints m = 3%nat /\ uniform m /\
  (forall c, (c < 11)%nat -> length (m c) = npoints m) /\ radius m 0%nat < radius m (npoints m - 1) /\
  exists q, zone true m (fun i j => if Nat.eqb i j then 1 else 0) 1 2 2 = Some q /\ z_rho q = 2.
Proof.
  destruct (C55_read even_file) as (m & E & P).
  { intros row [<-|[<-|[<-|[]]]]; reflexivity. }
  exists m. split; [exact E|].
  change (rows even_file) with [row11 1 8; row11 2 4; row11 3 2] in P. cbn [length] in P.
  destruct (P 0%nat ltac:(lia)) as [L0 V0]. destruct (P 1%nat ltac:(lia)) as [L1 V1].
  assert (N : npoints m = 3%nat) by exact L0.
  assert (R0 : radius m 0%nat = 1) by exact (V0 0%nat ltac:(lia)).
  assert (R1 : radius m 1%nat = 2) by exact (V0 1%nat ltac:(lia)).
  assert (R2 : radius m 2%nat = 3) by exact (V0 2%nat ltac:(lia)).
  assert (D2 : nth 2 (m 1%nat) 0 = 2) by exact (V1 2%nat ltac:(lia)).
  assert (U : uniform m).
  { intros i Hi. rewrite N in *. cbn [Nat.sub]. rewrite R2, R0. destruct i as [|[|[|i]]]; [| | |lia]; cbn [INR]; lra. }
  assert (Hl : forall c, (c < 11)%nat -> length (m c) = npoints m) by (intros c Hc; rewrite N; apply P; exact Hc).
  assert (Hr : radius m 0%nat < radius m (npoints m - 1)) by (rewrite N; cbn [Nat.sub]; lra).
  split; [exact N|]. split; [exact U|]. split; [exact Hl|]. split; [exact Hr|].
  destruct (C55_sources m Hl ltac:(lia) Hr U 2%nat ltac:(lia)) as [_ Z].
  destruct (Z (fun i j => if Nat.eqb i j then 1 else 0) 1 2 2) as (q & Eq & Q & _).
  { rewrite R2. replace (1 * 1 + 2 * 2 + 2 * 2) with (3 * 3) by ring. apply sqrt_square; lra. }
  exists q. split; [exact Eq|]. rewrite Q; exact D2.
Qed.
(** beyond the last radius the profile is continued along its last segment: a positive density
    becomes negative *)
Definition short_file : list Line := [data (row11 0 8); data (row11 1 2)].
Theorem C55_outside_refuted :
  exists m, readtable short_file = Some m /\ (forall x, In x (m 1%nat) -> 0 < x) /\ exists v, profile m 1 2 = Some v /\ v < 0.
Proof.
  destruct (C55_read short_file) as (m & E & P).
  { intros row [<-|[<-|[]]]; reflexivity. }
  exists m. split; [exact E|].
  change (rows short_file) with [row11 0 8; row11 1 2] in P.
  destruct (P 0%nat ltac:(lia)) as [L0 V0]. destruct (P 1%nat ltac:(lia)) as [L1 V1]. cbn [length] in L0, L1, V0, V1.
  assert (R0 : nth 0 (m 0%nat) 0 = 0) by exact (V0 0%nat ltac:(lia)). assert (R1 : nth 1 (m 0%nat) 0 = 1) by exact (V0 1%nat ltac:(lia)).
  assert (D0 : nth 0 (m 1%nat) 0 = 8) by exact (V1 0%nat ltac:(lia)). assert (D1 : nth 1 (m 1%nat) 0 = 2) by exact (V1 1%nat ltac:(lia)).
  split.
  - intros x Hx. destruct (m 1%nat) as [|a [|b [|]]]; try discriminate. cbn in D0, D1. destruct Hx as [<-|[<-|[]]]; lra.
  - unfold profile, column_table. rewrite L0, L1. cbn [Nat.leb]. eexists. split; [reflexivity|].
    assert (I : grid_index (profile_grid m) 2 = 0%nat).
    { unfold grid_index. replace (g_n (profile_grid m)) with 2%nat by (symmetry; exact L0). apply Nat.min_0_r. }
    unfold interpToReal. rewrite I. unfold grid_x, profile_grid. cbn [setRange g_dx g_min]. rewrite L0. cbn [Nat.sub INR].
    rewrite R0, R1, D0, D1. lra.
Qed.
Print Assumptions C55_outside_refuted.

(** ** the total mass *)
(** the sum runs over one interval more than there are: it reads behind the end of the table,
    for every table *)
Theorem C55_mass_refuted (m : Columns) : (0 < length (m 0%nat))%nat -> calculatemass m = None.
Proof.
  intros H. unfold calculatemass.
  assert (G : forall k i mass, (0 < k)%nat -> (i + k = length (m 0%nat))%nat -> mass_loop (m 1%nat) (m 0%nat) k i mass = None).
  { induction k as [|k IH]; intros i mass Hk Hi; [lia|]. cbn [mass_loop].
    destruct (nth_error (m 1%nat) (i + 1)); [|reflexivity].
    destruct (nth_error (m 0%nat) (i + 1)) eqn:E; [|reflexivity].
    destruct (nth_error (m 1%nat) i); [|reflexivity]. destruct (nth_error (m 0%nat) i); [|reflexivity].
    apply IH; [|lia]. assert (i + 1 < length (m 0%nat))%nat by (apply nth_error_Some; congruence). lia. }
  apply G; lia.
Qed.
Print Assumptions C55_mass_refuted.

Fixpoint shell_sum (f : nat -> R) (n : nat) : R := match n with O => 0 | S k => shell_sum f k + f k end.
(** every interval inside the table adds the trapezoidal rule for the mass of a shell,
    4 pi r^2 rho dr (with 3.14 for pi): after any number of intervals the loop holds the mass
    inside that radius, in units where the first radius encloses none *)
Theorem C55_mass_shells (m : Columns) : length (m 1%nat) = npoints m ->
  let shell i := 4 * (314 / 100) * nth i (m 1%nat) 0 * radius m i ^ 2 in
  forall k, (k < npoints m)%nat ->
    mass_loop (m 1%nat) (m 0%nat) k 0 0 = Some (shell_sum (fun i => (shell i + shell (S i)) / 2 * (radius m (S i) - radius m i)) k).
Proof.
  intros L shell k Hk.
  assert (G : forall k i mass, (i + k < npoints m)%nat -> mass_loop (m 1%nat) (m 0%nat) k i mass =
     Some (mass + shell_sum (fun n => (shell (i + n)%nat + shell (S (i + n))) / 2 * (radius m (S (i + n)) - radius m (i + n)%nat)) k)).
  { clear k Hk. induction k as [|k IH]; intros i mass Hi; [cbn; f_equal; lra|]. cbn [mass_loop].
    assert (E1 : forall c n, length (m c) = npoints m -> (n < npoints m)%nat -> nth_error (m c) n = Some (nth n (m c) 0)) by (intros c n Hc Hn; apply nth_error_nth'; lia).
    rewrite !E1 by (try assumption; try reflexivity; lia). rewrite IH by lia. f_equal.
    assert (S0 : forall f, shell_sum f (S k) = f 0%nat + shell_sum (fun n => f (S n)) k).
    { intros f. clear. induction k as [|k IHk]; [cbn; ring|]. change (shell_sum f (S (S k))) with (shell_sum f (S k) + f (S k)). rewrite IHk. cbn. ring. }
    rewrite S0. rewrite Nat.add_0_r. rewrite <- Rplus_assoc. f_equal.
    - replace (i + 1)%nat with (S i) by lia. unfold shell, radius. field.
    - f_equal. apply functional_extensionality. intros n. replace (i + 1 + n)%nat with (i + S n)%nat by lia. reflexivity. }
  rewrite (G k 0%nat 0 Hk). f_equal. rewrite Rplus_0_l. reflexivity.
Qed.
Print Assumptions C55_mass_shells.
(** the hypotheses can be met: two shells of the table above *)
Example C55_mass_shells_nonvacuous : exists m, readtable even_file = Some m /\ npoints m = 3%nat /\ length (m 1%nat) = npoints m /\
  mass_loop (m 1%nat) (m 0%nat) 2 0 0 = Some (4 * (314 / 100) * ((8 + 16) / 2 + (16 + 18) / 2)).
Proof.
  destruct (C55_read even_file) as (m & E & P).
  { intros row [<-|[<-|[<-|[]]]]; reflexivity. }
  exists m. split; [exact E|].
  change (rows even_file) with [row11 1 8; row11 2 4; row11 3 2] in P. cbn [length] in P.
  destruct (P 0%nat ltac:(lia)) as [L0 V0]. destruct (P 1%nat ltac:(lia)) as [L1 V1].
  assert (N : npoints m = 3%nat) by exact L0. split; [exact N|]. split; [rewrite N; exact L1|].
  rewrite (C55_mass_shells m) by (rewrite N; try exact L1; lia). cbn [shell_sum]. unfold radius. rewrite !V0, !V1 by lia. cbn. f_equal. field.
Qed.
