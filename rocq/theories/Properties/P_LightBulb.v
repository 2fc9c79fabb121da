(** C41: light-bulb heating, cooling and deleptonisation. *)
From Coq Require Import Reals List Bool Lia Lra Psatz.
From Coquelicot Require Import Coquelicot.
From Flocq Require Import Core.
From Verif.Model Require Import Num Robust LinearAlgebra Geometry Prim2Con RadSource LightBulb.
From Verif.Spec Require Import Tensor.
From Verif.Proofs Require Import LightBulbProofs.
Import ListNotations.
Local Open Scope R_scope.

Lemma region_spec rho : 0 < rho -> in_density_region (log10 rho) = true <-> 10 ^ 8 <= rho <= 10 ^ 13.
Proof.
  intros H. unfold in_density_region. rewrite andb_true_iff.
  assert (L8 : 8 = log10 (10 ^ 8)) by (rewrite log10_pow; cbn [INR]; lra).
  assert (L13 : 13 = log10 (10 ^ 13)) by (rewrite log10_pow; cbn [INR]; lra).
  assert (P8 : 0 < 10 ^ 8) by lra. assert (P13 : 0 < 10 ^ 13) by lra.
  split.
  - intros [A B]. destruct (Rle_bool_spec 8 (log10 rho)) as [A'|]; [|discriminate]. destruct (Rle_bool_spec (log10 rho) 13) as [B'|]; [|discriminate].
    split.
    + destruct (Rle_lt_dec (10 ^ 8) rho) as [L|L]; [exact L|]. pose proof (log10_lt _ _ H L). rewrite <- L8 in H0. lra.
    + destruct (Rle_lt_dec rho (10 ^ 13)) as [L|L]; [exact L|]. pose proof (log10_lt _ _ P13 L). rewrite <- L13 in H0. lra.
  - intros [A B]. split; apply Rle_bool_true; [rewrite L8 | rewrite L13]; apply log10_le; assumption.
Qed.
Lemma region_log rho : 10 ^ 8 <= rho <= 10 ^ 13 -> 8 <= log10 rho <= 13.
Proof.
  intros [A B].
  assert (L8 : 8 = log10 (10 ^ 8)) by (rewrite log10_pow; cbn [INR]; lra).
  assert (L13 : 13 = log10 (10 ^ 13)) by (rewrite log10_pow; cbn [INR]; lra).
  split; [rewrite L8 | rewrite L13]; apply log10_le; lra.
Qed.

(** ** Deleptonisation of one zone.  Fluid with rest-mass density D (conserved), electron fraction Ye. *)
Definition Ye_of (c : Cons) : R := cye c / cD c.

Lemma zone_ye lieb u g rho Ye dt H C c : cD c <> 0 -> dt <> 0 -> cye c = cD c * Ye ->
  cD (lightbulb_zone lieb u g rho Ye dt H C c) = cD c /\
  Ye_of (lightbulb_zone lieb u g rho Ye dt H C c) = Ye + (if lieb && in_density_region (log10 rho) then ye_change rho Ye else 0).
Proof.
  intros HD Hdt HY. unfold lightbulb_zone, Ye_of, ApplyRadiationFourForce, add_lightbulb, ye_source. cbn [cD cye fst snd]. split; [reflexivity|].
  rewrite HY. destruct lieb; cbn [andb]; [destruct (in_density_region _)|]; field; auto.
Qed.

(** What one step does to the electron fraction, in every case. *)
Theorem C41_ye (u : vec) (g : mat) (rho Ye dt H C : R) (c : Cons) :
  0 < rho -> cD c <> 0 -> dt <> 0 -> cye c = cD c * Ye ->
  let after lieb := lightbulb_zone lieb u g rho Ye dt H C c in
  let fit := ye_fit (log10 rho) in
  let target := Rmin Ye (Rmax (95 / 100 * Ye) fit) in
  cD (after true) = cD c /\ Ye_of (after false) = Ye /\
  (~ (10 ^ 8 <= rho <= 10 ^ 13) \/ Ye < 27 / 100 -> Ye_of (after true) = Ye) /\
  (10 ^ 8 <= rho <= 10 ^ 13 -> 27 / 100 <= Ye ->
     28 / 100 <= fit <= 47 / 100 /\
     (3 * 10 ^ 8 <= rho -> Ye_of (after true) = target) /\
     (rho < 3 * 10 ^ 8 -> Ye_of (after true) = Ye + (rho - 10 ^ 8) / (2 * 10 ^ 8) * (target - Ye))).
Proof.
  intros Hr HD Hdt HY after fit target.
  destruct (zone_ye true u g rho Ye dt H C c HD Hdt HY) as [D1 Y1]. destruct (zone_ye false u g rho Ye dt H C c HD Hdt HY) as [D2 Y2].
  cbn [andb] in Y1, Y2. fold (after true) in D1, Y1. fold (after false) in D2, Y2.
  split; [exact D1|]. split; [rewrite Y2; ring|]. rewrite Y1. split.
  - intros [N|N].
    + destruct (in_density_region (log10 rho)) eqn:E; [|ring]. apply region_spec in E; [contradiction | exact Hr].
    + destruct (in_density_region (log10 rho)); [|ring]. unfold ye_change. rewrite (Rlt_bool_true _ _ N). ring.
  - intros Hin HYe. rewrite (proj2 (region_spec rho Hr) Hin).
    pose proof (region_log rho Hin) as HL. split; [split; [apply ye_fit_lower | apply ye_fit_upper]; exact HL|].
    assert (T : Rmax (- (5 / 100) * Ye) (Rmin 0 (ye_fit (log10 rho) - Ye)) = target - Ye).
    { unfold target. fold fit. unfold Rmax, Rmin. repeat destruct (Rle_dec _ _); lra. }
    unfold ye_change. rewrite (Rlt_bool_false _ _ HYe). rewrite T. split; intros Hp.
    + rewrite (Rlt_bool_false _ _ Hp). ring.
    + rewrite (Rlt_bool_true _ _ Hp). field.
Qed.
Print Assumptions C41_ye.

(** It never rises, falls by at most 5 per cent, never below 0.28 (or where it began). *)
Theorem C41_ye_bounds (lieb : bool) (u : vec) (g : mat) (rho Ye dt H C : R) (c : Cons) :
  0 < rho -> cD c <> 0 -> dt <> 0 -> cye c = cD c * Ye -> 0 <= Ye ->
  let Ye' := Ye_of (lightbulb_zone lieb u g rho Ye dt H C c) in
  95 / 100 * Ye <= Ye' <= Ye /\ Rmin Ye (28 / 100) <= Ye' /\
  (Ye' < Ye -> 10 ^ 8 < rho <= 10 ^ 13 /\ 27 / 100 <= Ye /\ ye_fit (log10 rho) < Ye).
Proof.
  intros Hr HD Hdt HY H0 Ye'.
  destruct (C41_ye u g rho Ye dt H C c Hr HD Hdt HY) as (_ & F & S1 & S2). cbv zeta in *.
  assert (M : Rmin Ye (28 / 100) <= Ye) by apply Rmin_l.
  destruct lieb; [|unfold Ye'; rewrite F; lra].
  assert (K : (~ (10 ^ 8 <= rho <= 10 ^ 13) \/ Ye < 27 / 100) \/ (10 ^ 8 <= rho <= 10 ^ 13 /\ 27 / 100 <= Ye)).
  { destruct (Rlt_le_dec Ye (27 / 100)); [left; right; assumption|]. destruct (Rle_lt_dec (10 ^ 8) rho); [|left; left; lra].
    destruct (Rle_lt_dec rho (10 ^ 13)); [right; lra | left; left; lra]. }
  destruct K as [K|[K1 K2]]; [unfold Ye'; rewrite (S1 K); lra|].
  destruct (S2 K1 K2) as (B & A1 & A2). set (fit := ye_fit (log10 rho)) in *. set (t := Rmin Ye (Rmax (95 / 100 * Ye) fit)) in *.
  assert (T : 95 / 100 * Ye <= t <= Ye /\ Rmin Ye (28 / 100) <= t /\ (t < Ye -> fit < Ye)).
  { unfold t, Rmin, Rmax. repeat destruct (Rle_dec _ _); lra. }
  destruct T as (T1 & T2 & T3).
  destruct (Rle_lt_dec (3 * 10 ^ 8) rho) as [P|P].
  - unfold Ye'. rewrite (A1 P). split; [exact T1|]. split; [exact T2|]. intros L. split; [lra|]. split; [exact K2 | exact (T3 L)].
  - unfold Ye'. rewrite (A2 P). set (x := (rho - 10 ^ 8) / (2 * 10 ^ 8)).
    assert (X : 0 <= x <= 1).
    { unfold x. lra. }
    split; [nra|]. split; [nra|]. intros L.
    assert (Xp : 0 < x) by (destruct (Req_dec x 0) as [Z|Z]; [rewrite Z in L; lra | lra]).
    assert (TL : t < Ye) by nra. split; [unfold x in Xp; lra|]. split; [exact K2 | exact (T3 TL)].
Qed.
Print Assumptions C41_ye_bounds.

(** Along any history of densities (a fluid element): monotone, with the same floor. *)
Definition follows (lieb : bool) (rho Ye : nat -> R) : Prop := forall n, exists u g dt H C c,
  cD c <> 0 /\ dt <> 0 /\ cye c = cD c * Ye n /\ Ye (S n) = Ye_of (lightbulb_zone lieb u g (rho n) (Ye n) dt H C c).
Theorem C41_ye_history (lieb : bool) (rho Ye : nat -> R) :
  (forall n, 0 < rho n) -> 0 <= Ye 0%nat -> follows lieb rho Ye ->
  (forall m n, (m <= n)%nat -> Ye n <= Ye m) /\ (forall n, Rmin (Ye 0%nat) (28 / 100) <= Ye n).
Proof.
  intros Hr H0 Hf.
  assert (P : forall n, 0 <= Ye n /\ Rmin (Ye 0%nat) (28 / 100) <= Ye n /\ Ye (S n) <= Ye n /\ 0 <= Ye (S n) /\ Rmin (Ye 0%nat) (28 / 100) <= Ye (S n)).
  { induction n as [|n IH].
    - destruct (Hf 0%nat) as (u & g & dt & H & C & c & A & B & D & E). destruct (C41_ye_bounds lieb u g _ _ dt H C c (Hr 0%nat) A B D H0) as (Q1 & Q2 & _).
      cbv zeta in *. rewrite <- E in Q1, Q2. pose proof (Rmin_l (Ye 0%nat) (28 / 100)). repeat split; lra.
    - destruct IH as (_ & _ & _ & I1 & I2). destruct (Hf (S n)) as (u & g & dt & H & C & c & A & B & D & E).
      destruct (C41_ye_bounds lieb u g _ _ dt H C c (Hr (S n)) A B D I1) as (Q1 & Q2 & _). cbv zeta in *. rewrite <- E in Q1, Q2.
      assert (Rmin (Ye 0%nat) (28 / 100) <= Rmin (Ye (S n)) (28 / 100)).
      { apply Rmin_glb; [exact I2 | apply Rmin_r]. }
      repeat split; lra. }
  split; [|intros n; apply P].
  intros m n L. induction L as [|n L IH]; [lra|]. destruct (P n) as (_ & _ & Q & _). lra.
Qed.
Print Assumptions C41_ye_history.

(** At fixed density it decays geometrically onto the fit and stays there. *)
Theorem C41_ye_relaxes (rho : R) (Ye : nat -> R) :
  3 * 10 ^ 8 <= rho <= 10 ^ 13 -> ye_fit (log10 rho) <= Ye 0%nat -> follows true (fun _ => rho) Ye ->
  forall n, Ye n = Rmax (ye_fit (log10 rho)) ((95 / 100) ^ n * Ye 0%nat).
Proof.
  intros Hr H0 Hf. set (fit := ye_fit (log10 rho)) in *.
  assert (F : 28 / 100 <= fit) by (apply ye_fit_lower, region_log; lra).
  induction n as [|n IH]; [cbn [pow]; rewrite Rmult_1_l, Rmax_right; lra|].
  destruct (Hf n) as (u & g & dt & H & C & c & A & B & D & E). cbv beta in E.
  destruct (C41_ye u g rho (Ye n) dt H C c ltac:(lra) A B D) as (_ & _ & _ & S2). cbv zeta in S2. fold fit in S2.
  assert (L : fit <= Ye n) by (rewrite IH; apply Rmax_l).
  destruct (S2 ltac:(lra) ltac:(lra)) as (_ & A1 & _). rewrite E, (A1 ltac:(lra)). cbn [pow]. rewrite Rmult_assoc.
  set (y := (95 / 100) ^ n * Ye 0%nat) in *. rewrite IH in *. clearbody y. clear -F. unfold Rmin, Rmax. repeat destruct (Rle_dec _ _); lra.
Qed.
Print Assumptions C41_ye_relaxes.
(** the fit itself *)
Theorem C41_fit (x y : R) : 8 <= x -> x < y -> y <= 13 -> 28 / 100 <= ye_fit y /\ ye_fit y < ye_fit x /\ ye_fit x <= 47 / 100.
Proof.
  intros A B D. split; [apply ye_fit_lower; lra|]. split; [apply ye_fit_decreasing; assumption | apply ye_fit_upper; lra].
Qed.
Print Assumptions C41_fit.
Example C41_ye_nonvacuous : exists c : Cons, cD c <> 0 /\ cye c = cD c * (1 / 2) /\
  10 ^ 8 <= 10 ^ 10 <= 10 ^ 13 /\ 27 / 100 <= 1 / 2 /\ ye_fit (log10 (10 ^ 10)) < 1 / 2.
Proof.
  exists {| cD := 3; cS := fun _ => 0; cB := fun _ => 0; ctau := 1; cye := 3 / 2; csig := fun _ => 1 |}. cbn [cD cye].
  split; [lra|]. split; [lra|]. split; [lra|]. split; [lra|]. pose proof (ye_fit_upper (log10 (10 ^ 10))) as K. rewrite log10_pow in *. cbn [INR] in *. lra.
Qed.

(** ** Optical depth *)
Theorem C41_tau (rho : R) : 0 < rho ->
  0 < calc_tau rho /\ continuous calc_tau rho /\
  (forall rho', rho < rho' -> calc_tau rho < calc_tau rho') /\
  (100 < calc_tau rho <-> pow10 (5729 / 420) < rho).
Proof.
  intros H. split; [rewrite calc_tau_exponent; apply pow10_pos|]. split.
  - apply (continuous_ext (fun r => pow10 (tau_exponent (log10 r)))); [intros; symmetry; apply calc_tau_exponent|].
    apply (continuous_comp (fun r => tau_exponent (log10 r)) pow10).
    + apply (continuous_comp log10 tau_exponent); [apply log10_continuous; exact H | apply tau_exponent_continuous].
    + apply pow10_continuous.
  - split.
    + intros rho' L. rewrite !calc_tau_exponent. apply pow10_lt. pose proof (log10_lt _ _ H L) as LL. pose proof (tau_exponent_slopes _ _ LL). lra.
    + rewrite calc_tau_exponent.
      assert (E2 : 100 = pow10 2). { replace 2 with (INR 2) by (cbn; lra). rewrite pow10_nat. lra. }
      assert (E3 : tau_exponent (5729 / 420) = 2).
      { unfold tau_exponent, XL1, XL2, XL3, XL4, YL1, YL2, YL3, YL4. rewrite !Rlt_bool_false by lra. field. }
      rewrite E2. split; intros K.
      * apply pow10_inv_lt in K. rewrite <- (pow10_log10 rho H). apply pow10_lt.
        destruct (Rlt_le_dec (5729 / 420) (log10 rho)) as [L|[L|L]]; [exact L | | rewrite L, E3 in K; lra].
        pose proof (tau_exponent_slopes _ _ L). lra.
      * apply pow10_lt. assert (L : 5729 / 420 < log10 rho). { rewrite <- (log10_pow10 (5729 / 420)). apply log10_lt; [apply pow10_pos | exact K]. }
        pose proof (tau_exponent_slopes _ _ L). lra.
Qed.
Print Assumptions C41_tau.

(** ** Net heating: its sign depends on luminosity, radius and temperature only; without the gain it never heats. *)
Theorem C41_net (gain : bool) (Xn Xp lum tau r T fact : R) :
  0 < Xn + Xp -> 0 < fact -> 0 < r -> 0 <= lum -> 0 <= T ->
  let net := heating gain Xn Xp lum tau r fact - cooling Xn Xp tau T fact in
  (0 < net <-> gain = true /\ 1399 * (T / T_norm) ^ 6 < 1544 * lum * (10 ^ 7 / r) ^ 2) /\
  (gain = false -> net <= 0) /\
  0 <= cooling Xn Xp tau T fact /\ 0 <= heating gain Xn Xp lum tau r fact.
Proof.
  intros HX Hf Hr Hl HT net. pose proof (exp_pos (- tau)) as He.
  set (q := (T / T_norm) ^ 6). set (h := (10 ^ 7 / r) ^ 2).
  assert (TN : 0 < T_norm) by (unfold T_norm; lra).
  assert (Hq : 0 <= q). { apply pow_le. apply Rmult_le_pos; [exact HT | left; apply Rinv_0_lt_compat; exact TN]. }
  assert (Hh : 0 < h). { apply pow_lt. apply Rdiv_lt_0_compat; lra. }
  set (w := (Xn + Xp) * exp (- tau) * fact * 10 ^ 17).
  assert (Hw : 0 < w). { unfold w. repeat apply Rmult_lt_0_compat; lra. }
  assert (EC : cooling Xn Xp tau T fact = w * (1399 * q)) by (unfold cooling, w, q; ring).
  assert (EH : heating gain Xn Xp lum tau r fact = if gain then w * (1544 * lum * h) else 0) by (unfold heating, w, h; destruct gain; ring).
  assert (LH : 0 <= 1544 * lum * h) by (apply Rmult_le_pos; [lra | lra]).
  assert (W1 : 0 <= w * (1399 * q)) by (apply Rmult_le_pos; lra).
  unfold net. rewrite EC, EH. split; [|split; [intros ->; lra | split; [exact W1 | destruct gain; [apply Rmult_le_pos; lra | lra]]]].
  destruct gain.
  - split; [intros L; split; [reflexivity|]; nra | intros [_ L]; nra].
  - split; [lra | intros [K _]; discriminate].
Qed.
Print Assumptions C41_net.
Example C41_net_nonvacuous : 0 < heating true 1 0 100 0 (10 ^ 7) 1 - cooling 1 0 0 (T_norm / 2) 1.
Proof.
  apply (C41_net true 1 0 100 0 (10 ^ 7) (T_norm / 2) 1); try lra.
  - unfold T_norm; lra.
  - split; [reflexivity|]. replace (T_norm / 2 / T_norm) with (/ 2) by (unfold T_norm; field). replace (10 ^ 7 / 10 ^ 7) with 1 by field. lra.
Qed.

(** ** The heating switch, for every order in which the tasks of a step may run *)
Lemma thick_spec ts : any_thick ts = true <-> exists t, In t ts /\ 100 < t.
Proof.
  unfold any_thick. rewrite negb_true_iff, Nat.eqb_neq. induction ts as [|t ts IH]; cbn [fold_right].
  - split; [intros K; exfalso; apply K; reflexivity | intros (t & [] & _)].
  - destruct (Rlt_bool_spec 100 t) as [L|L].
    + split; [intros _; exists t; split; [left; reflexivity | exact L] | intros _; lia].
    + cbn [Nat.add]. rewrite IH. split; intros (x & Hx & Lx); exists x.
      * split; [right; exact Hx | exact Lx].
      * destruct Hx as [->|Hx]; [lra | split; assumption].
Qed.
Lemma check_spec v ts : check_do_gain v ts = orb v (any_thick ts).
Proof. unfold check_do_gain. destruct v; [reflexivity | apply orb_false_r]. Qed.
Lemma run_app n rho l1 l2 w : run n rho (l1 ++ l2) w = run n rho l2 (run n rho l1 w).
Proof. apply fold_left_app. Qed.
Lemma upd1_same {A} (f : nat -> A) n x : upd1 f n x n = x.
Proof. unfold upd1. rewrite Nat.eqb_refl. reflexivity. Qed.
Lemma upd1_other {A} (f : nat -> A) n m x : m <> n -> upd1 f n x m = f m.
Proof. intros H. unfold upd1. rewrite (proj2 (Nat.eqb_neq m n) H). reflexivity. Qed.
Lemma upd2_same {A} (f : nat -> nat -> A) n m x : upd2 f n m x n m = x.
Proof. unfold upd2. rewrite !Nat.eqb_refl. reflexivity. Qed.
Lemma upd2_other {A} (f : nat -> nat -> A) n m x a b : (a, b) <> (n, m) -> upd2 f n m x a b = f a b.
Proof. intros H. unfold upd2. destruct (Nat.eqb_spec a n), (Nat.eqb_spec b m); try reflexivity. subst. exfalso. apply H. reflexivity. Qed.
Lemma before_prefix a b l1 l2 : before a b (l1 ++ l2) -> In b l1 -> In a l1.
Proof.
  intros H Hi. apply in_split in Hi. destruct Hi as (x & y & ->).
  apply in_or_app. left. apply (H x (y ++ l2)). rewrite <- app_assoc. reflexivity.
Qed.
Lemma before_now a b l1 l2 : before a b (l1 ++ b :: l2) -> In a l1.
Proof. intros H. apply (H l1 l2). reflexivity. Qed.
Lemma now_fresh (b : Task) l1 l2 : NoDup (l1 ++ b :: l2) -> ~ In b l1.
Proof. intros H Hi. apply NoDup_remove_2 in H. apply H, in_or_app. left. exact Hi. Qed.

(** Some zone of the machine is optically thick / the switch was on already on some rank. *)
Definition thick_somewhere (nranks nparts : nat) (rho : nat -> nat -> list R) : Prop :=
  exists r p x, (r < nranks)%nat /\ (p < nparts)%nat /\ In x (rho r p) /\ 100 < calc_tau x.
Definition on_somewhere (nranks : nat) (w : World) : Prop := exists r, (r < nranks)%nat /\ val w r = true.

Section OnePartition.
Variables (n : nat) (rho : nat -> nat -> list R) (w0 : World).
Definition new (r p : nat) := map calc_tau (rho r p).
Definition flag (r : nat) := orb (val w0 r) (any_thick (new r 0)).
Definition total := existsb flag (seq 0 n).
Record Inv (l1 : list Task) (w : World) : Prop := {
  I1 : forall r p, In (Tau r p) l1 -> taus w r p = new r p;
  I2 : forall r, ~ In (Check r 0) l1 -> ~ In (Finish r) l1 -> val w r = val w0 r;
  I3 : forall r, In (Check r 0) l1 -> ~ In (Finish r) l1 -> val w r = flag r;
  I4 : forall r, In (Start r) l1 -> contrib w r = flag r;
  I5 : forall r, In (Finish r) l1 -> val w r = total;
  I6 : forall r p, In (Force r p) l1 -> used w r p = Some (total, new r p) }.
Lemma inv_all l1 : forall l2, legal n 1 (l1 ++ l2) -> Inv l1 (run n rho l1 w0).
Proof.
  induction l1 as [|t l1 IH] using rev_ind; intros l2 L.
  { constructor; cbn [In]; try tauto. }
  - rewrite <- app_assoc in L. cbn [app] in L. specialize (IH (t :: l2) L).
    rewrite run_app. set (w := run n rho l1 w0) in *. clearbody w. unfold run. cbn [fold_left].
    pose proof (now_fresh t l1 l2 (once _ _ _ L)) as NF. destruct L as [LO LT L1 L2 L3 L4]. destruct IH as [J1 J2 J3 J4 J5 J6].
    assert (IN : In t (l1 ++ t :: l2)) by (apply in_or_app; right; left; reflexivity). apply LT in IN.
    assert (App : forall x, In x (l1 ++ [t]) <-> In x l1 \/ x = t).
    { intros x. rewrite in_app_iff. cbn [In]. intuition. }
    assert (CF : forall r, (r < n)%nat -> In (Finish r) l1 -> In (Check r 0) l1).
    { intros r Hr Hi. apply (before_prefix (Check r 0) (Start r) l1 (t :: l2) (L2 r)). apply (before_prefix (Start r) (Finish r) l1 (t :: l2) (L3 r r Hr)). exact Hi. }
    destruct t as [r p|r p|r|r|r p]; cbn [run_task]; constructor; cbn [val taus contrib used]; intros; rewrite ?App in *;
      repeat match goal with H : _ \/ _ |- _ => destruct H | H : ~ (_ \/ _) |- _ => apply Decidable.not_or in H; destruct H end;
      try discriminate; auto.
    + destruct (Nat.eq_dec r0 r) as [->|N1]; [destruct (Nat.eq_dec p0 p) as [->|N2]|]; [apply upd2_same | |];
      (rewrite upd2_other; [apply J1; assumption | congruence]).
    + injection H as -> ->. apply upd2_same.
    + destruct (Nat.eq_dec r0 r) as [->|N1]; [|rewrite upd1_other by exact N1; auto].
      destruct IN as [IN1 IN2]. assert (p = 0)%nat by lia. subst p. contradiction.
    + destruct (Nat.eq_dec r0 r) as [->|N1]; [|rewrite upd1_other by exact N1; auto].
      destruct IN as [IN1 IN2]. assert (p = 0)%nat by lia. subst p. contradiction.
    + injection H as -> <-. rewrite upd1_same. rewrite (J1 r 0%nat (before_now _ _ _ _ (L1 r 0%nat))). rewrite (J2 r NF) by assumption. apply check_spec.
    + destruct (Nat.eq_dec r0 r) as [->|N1]; [|rewrite upd1_other by exact N1; auto].
      destruct IN as [IN1 IN2]. assert (p = 0)%nat by lia. subst p. exfalso. apply NF. apply CF; assumption.
    + destruct (Nat.eq_dec r0 r) as [->|N1]; [contradiction | rewrite upd1_other by exact N1; auto].
    + injection H as ->. rewrite upd1_same. apply J3; [apply (before_now _ _ _ _ (L2 r))|].
      intros Hi. apply NF. apply (before_prefix (Start r) (Finish r) l1 (Start r :: l2) (L3 r r IN)). exact Hi.
    + rewrite upd1_other by congruence. auto.
    + rewrite upd1_other by congruence. auto.
    + destruct (Nat.eq_dec r0 r) as [->|N1]; [contradiction | rewrite upd1_other by exact N1; auto].
    + injection H as ->. rewrite upd1_same. unfold total.
      assert (K : forall l, (forall x, In x l -> (x < n)%nat) -> existsb (contrib w) l = existsb flag l).
      { induction l as [|x l IHl]; intros Hl; [reflexivity|]. cbn [existsb]. rewrite IHl by (intros y Hy; apply Hl; right; exact Hy).
        rewrite (J4 x); [reflexivity|]. apply (before_now _ _ _ _ (L3 r x (Hl x (or_introl eq_refl)))). }
      apply K. intros x Hx. apply in_seq in Hx. lia.
    + destruct (Nat.eq_dec r0 r) as [->|N1]; [destruct (Nat.eq_dec p0 p) as [->|N2]|]; [contradiction | |];
      (rewrite upd2_other; [apply J6; assumption | congruence]).
    + injection H as -> ->. rewrite upd2_same. destruct IN as [IN1 IN2]. assert (p = 0)%nat by lia. subst p.
      pose proof (before_now _ _ _ _ (L4 r 0%nat)) as Fi. rewrite (J5 r Fi).
      rewrite (J1 r 0%nat); [reflexivity|]. apply (before_prefix (Tau r 0) (Check r 0) l1 (Force r 0 :: l2) (L1 r 0%nat)). apply CF; assumption.
Qed.
Lemma total_spec : total = true <-> on_somewhere n w0 \/ thick_somewhere n 1 rho.
Proof.
  unfold total. rewrite existsb_exists. split.
  - intros (r & Hr & F). apply in_seq in Hr. unfold flag in F. apply orb_true_iff in F. destruct F as [F|F].
    + left. exists r. split; [lia | exact F].
    + right. apply thick_spec in F. destruct F as (t & Ht & Lt). unfold new in Ht. apply in_map_iff in Ht. destruct Ht as (x & <- & Hx).
      exists r, 0%nat, x. repeat split; auto; lia.
  - intros [(r & Hr & F)|(r & p & x & Hr & Hp & Hx & Lx)].
    + exists r. split; [apply in_seq; lia|]. unfold flag. rewrite F. reflexivity.
    + exists r. split; [apply in_seq; lia|]. unfold flag. assert (p = 0)%nat by lia. subst p. apply orb_true_iff. right.
      apply thick_spec. exists (calc_tau x). split; [apply in_map; exact Hx | exact Lx].
Qed.
End OnePartition.

(** With one partition on each of any number of ranks: whatever the order, every rank computes its
    four-force from the new optical depths, and heats exactly when the switch was on somewhere or
    some zone on some rank is now thick; all ranks agree afterwards. *)
Theorem C41_gain (nranks : nat) (rho : nat -> nat -> list R) (l : list Task) (w : World) :
  legal nranks 1 l -> forall r, (r < nranks)%nat -> let w' := run nranks rho l w in
  exists gain, used w' r 0 = Some (gain, map calc_tau (rho r 0%nat)) /\ val w' r = gain /\
  (gain = true <-> on_somewhere nranks w \/ thick_somewhere nranks 1 rho).
Proof.
  intros L r Hr w'.
  pose proof (inv_all nranks rho w l [] ltac:(rewrite app_nil_r; exact L)) as [_ _ _ _ J5 J6].
  exists (total nranks rho w). destruct L as [_ LT _ _ _ _]. split; [apply J6, LT; split; [exact Hr | lia]|].
  split; [apply J5, LT; exact Hr | apply total_spec].
Qed.
Print Assumptions C41_gain.

(** A legal order exists: list by list. *)
Lemma before_check a b l : (forall l1 l2, l = l1 ++ b :: l2 -> In a l1) -> before a b l.
Proof. auto. Qed.
Ltac prefix_cases E l1 := repeat (destruct l1 as [|? l1]; cbn [app] in E; [injection E as; subst; try discriminate; try (cbn; tauto)| injection E as <- E]); try (exfalso; destruct l1; discriminate).
Example C41_gain_nonvacuous : legal 2 1 [Tau 0 0; Check 0 0; Start 0; Tau 1 0; Check 1 0; Start 1; Finish 1; Finish 0; Force 0 0; Force 1 0].
Proof.
  constructor.
  - repeat constructor; cbn; intuition congruence.
  - intros t. split.
    + cbn [In]. intros H. repeat (destruct H as [<-|H]; [lia|]). destruct H.
    + destruct t; intros H; try destruct H as [H H']; try (assert (p = 0)%nat by lia; subst p); (destruct r as [|[|r]]; [| |lia]); cbn; tauto.
  - intros r p l1 l2 E. prefix_cases E l1.
  - intros r l1 l2 E. prefix_cases E l1.
  - intros r r' Hr l1 l2 E. destruct r' as [|[|r']]; [| |lia]; prefix_cases E l1.
  - intros r p l1 l2 E. prefix_cases E l1.
Qed.

(** Over a whole run: heating is on in step n exactly when always_gain is set or some zone was thick
    in step n or an earlier one. *)
Theorem C41_gain_history (nranks : nat) (always : bool) (w0 : World) (rho : nat -> nat -> nat -> list R) (order : nat -> list Task) (w : nat -> World) :
  (forall n, legal nranks 1 (order n)) -> w 0%nat = fresh always w0 -> (forall n, w (S n) = run nranks (rho n) (order n) (w n)) ->
  forall n r, (r < nranks)%nat -> exists gain, used (w (S n)) r 0 = Some (gain, map calc_tau (rho n r 0%nat)) /\
  (gain = true <-> always = true \/ exists m, (m <= n)%nat /\ thick_somewhere nranks 1 (rho m)).
Proof.
  intros HL H0 HS.
  assert (P : forall n r, (r < nranks)%nat -> exists gain, used (w (S n)) r 0 = Some (gain, map calc_tau (rho n r 0%nat)) /\ val (w (S n)) r = gain /\
    (gain = true <-> always = true \/ exists m, (m <= n)%nat /\ thick_somewhere nranks 1 (rho m))).
  { induction n as [|n IH]; intros r Hr.
    - destruct (C41_gain nranks (rho 0%nat) (order 0%nat) (w 0%nat) (HL 0%nat) r Hr) as (gain & U & V & G). rewrite <- HS in U, V.
      exists gain. split; [exact U|]. split; [exact V|]. rewrite G, H0. unfold on_somewhere, fresh. cbn [val]. split.
      + intros [(q & _ & A)|T]; [left; exact A | right; exists 0%nat; split; [lia | exact T]].
      + intros [A|(m & Hm & T)]; [left; exists r; split; assumption | right; assert (m = 0)%nat by lia; subst m; exact T].
    - destruct (C41_gain nranks (rho (S n)) (order (S n)) (w (S n)) (HL (S n)) r Hr) as (gain & U & V & G). rewrite <- HS in U, V.
      exists gain. split; [exact U|]. split; [exact V|]. rewrite G. split.
      + intros [(q & Hq & A)|T].
        * destruct (IH q Hq) as (g' & _ & V' & G'). rewrite V' in A. apply G' in A. destruct A as [A|(m & Hm & T)]; [left; exact A | right; exists m; split; [lia | exact T]].
        * right. exists (S n). split; [lia | exact T].
      + intros A.
        assert (K : (always = true \/ exists m, (m <= n)%nat /\ thick_somewhere nranks 1 (rho m)) \/ thick_somewhere nranks 1 (rho (S n))).
        { destruct A as [A|(m & Hm & T)]; [left; left; exact A|]. destruct (Nat.eq_dec m (S n)) as [->|N]; [right; exact T | left; right; exists m; split; [lia | exact T]]. }
        destruct K as [K|K]; [|right; exact K]. left. exists r. split; [exact Hr|]. destruct (IH r Hr) as (g' & _ & V' & G'). rewrite V'. apply G'. exact K. }
  intros n r Hr. destruct (P n r Hr) as (gain & U & _ & G). exists gain. split; assumption.
Qed.
Print Assumptions C41_gain_history.

(** The switch is not a restart parameter: a restart forgets it. *)
Theorem C41_restart_refuted (nranks : nat) (rho1 rho2 : nat -> nat -> list R) (l1 l2 : list Task) (w : World) (r : nat) :
  legal nranks 1 l1 -> legal nranks 1 l2 -> (r < nranks)%nat ->
  thick_somewhere nranks 1 rho1 -> ~ thick_somewhere nranks 1 rho2 ->
  let w1 := run nranks rho1 l1 w in
  (exists t, used (run nranks rho2 l2 w1) r 0 = Some (true, t)) /\ (exists t, used (run nranks rho2 l2 (fresh false w1)) r 0 = Some (false, t)).
Proof.
  intros L1 L2 Hr T1 T2 w1. split.
  - destruct (C41_gain nranks rho2 l2 w1 L2 r Hr) as (g & U & _ & G). exists (map calc_tau (rho2 r 0%nat)). rewrite U.
    assert (g = true); [|subst; reflexivity]. apply G. left. exists r. split; [exact Hr|].
    destruct (C41_gain nranks rho1 l1 w L1 r Hr) as (g1 & _ & V & G1). fold w1 in V. rewrite V. apply G1. right. exact T1.
  - destruct (C41_gain nranks rho2 l2 (fresh false w1) L2 r Hr) as (g & U & _ & G). exists (map calc_tau (rho2 r 0%nat)). rewrite U.
    destruct g; [|reflexivity]. exfalso. destruct (proj1 G eq_refl) as [(q & _ & A)|A]; [discriminate A | exact (T2 A)].
Qed.
Print Assumptions C41_restart_refuted.

(** With two partitions the second list's CheckReduce waits for nothing of its own list: a legal order
    computes its four-force from the optical depths of the previous step, without heating, although a zone is thick. *)
Theorem C41_partitions_refuted : exists l, legal 1 2 l /\
  forall (rho : nat -> nat -> list R) (w : World), val w 0%nat = false -> any_thick (map calc_tau (rho 0%nat 0%nat)) = false ->
  used (run 1 rho l w) 0 1 = Some (false, taus w 0 1%nat).
Proof.
  exists [Tau 0 0; Check 0 0; Start 0; Finish 0; Force 0 0; Force 0 1; Tau 0 1; Check 0 1]. split.
  - constructor.
    + repeat constructor; cbn; intuition congruence.
    + intros t. split.
      * cbn [In]. intros H. repeat (destruct H as [<-|H]; [lia|]). destruct H.
      * destruct t; intros H; try destruct H as [H H']; (assert (r = 0)%nat by lia; subst r); try (destruct p as [|[|p]]; [| |lia]); cbn; tauto.
    + intros r p l1 l2 E. prefix_cases E l1.
    + intros r l1 l2 E. prefix_cases E l1.
    + intros r r' Hr l1 l2 E. assert (r' = 0)%nat by lia. subst r'. prefix_cases E l1.
    + intros r p l1 l2 E. prefix_cases E l1.
  - intros rho w H0 H1. cbn. rewrite H0. unfold check_do_gain. rewrite H1. reflexivity.
Qed.
Print Assumptions C41_partitions_refuted.
Example C41_partitions_case : any_thick (map calc_tau [10 ^ 9]) = false /\ any_thick (map calc_tau [10 ^ 15]) = true.
Proof.
  split.
  - destruct (any_thick _) eqn:E; [|reflexivity]. apply thick_spec in E. destruct E as (t & [<-|[]] & L). apply C41_tau in L; [|lra].
    rewrite <- (pow10_nat 9) in L. apply pow10_inv_lt in L. cbn [INR] in L. lra.
  - apply thick_spec. exists (calc_tau (10 ^ 15)). split; [left; reflexivity|]. apply C41_tau; [lra|]. rewrite <- (pow10_nat 15). apply pow10_lt. cbn [INR]. lra.
Qed.
