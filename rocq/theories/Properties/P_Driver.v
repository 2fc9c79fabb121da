(** C45: time stepping. *)
From Coq Require Import Reals ZArith List Bool Arith Lra Lia Permutation FunctionalExtensionality.
From Flocq Require Import Core.
From Coquelicot Require Import Coquelicot.
From Verif.Model Require Import Driver ParFor FluxFix.
From Verif.Spec Require Import FluxSpec StepSpec.
From Verif.Proofs Require Import SumProofs.
From Verif.Properties Require Import P_Geodesics P_FluxFix.
Import ListNotations.
Local Open Scope R_scope.

(** *** orders of the tasks *)
Definition task_eqb (a b : Task) : bool :=
  match a, b with SendFlux, SendFlux | RecvFlux, RecvFlux | SetFlux, SetFlux | FluxDiv, FluxDiv | AddRhs, AddRhs | Avg, Avg | Upd, Upd => true | _, _ => false end.
Lemma task_eqb_spec a b : reflect (a = b) (task_eqb a b). Proof. destruct a, b; constructor; congruence. Qed.
Definition memb (x : Task) (l : list Task) : bool := existsb (task_eqb x) l.
Fixpoint beforeb (a b : Task) (l : list Task) : bool := match l with nil => false | h :: t => if task_eqb a h then memb b t else beforeb a b t end.
Lemma memb_in x l : In x l -> memb x l = true. Proof. intros H. apply existsb_exists. exists x. split; [exact H|]. destruct (task_eqb_spec x x); congruence. Qed.
Lemma before_b a b l : NoDup l -> before a b l -> beforeb a b l = true.
Proof.
  intros ND (l1 & l2 & l3 & ->). induction l1 as [|h l1 IH]; cbn [app beforeb].
  - destruct (task_eqb_spec a a); [|congruence]. apply memb_in. rewrite in_app_iff. right. left. reflexivity.
  - cbn in ND. inversion ND as [|? ? Hn ND']; subst. destruct (task_eqb_spec a h) as [->|_]; [|apply IH; exact ND']. exfalso. apply Hn. rewrite in_app_iff. right. left. reflexivity.
Qed.
Definition effective (t : Task) : bool := match t with SendFlux | RecvFlux | SetFlux => false | _ => true end.
Lemma exec_filter named beta dt inc outc l : forall m, exec_all named beta dt inc outc l m = exec_all named beta dt inc outc (filter effective l) m.
Proof. unfold exec_all. induction l as [|t l IH]; intros m; [reflexivity|]. destruct t; cbn [filter effective fold_left exec]; apply IH. Qed.
Lemma before_filter f a b (l : list Task) : f a = true -> f b = true -> before a b l -> before a b (filter f l).
Proof.
  intros Ha Hb (l1 & l2 & l3 & ->). exists (filter f l1), (filter f l2), (filter f l3). rewrite filter_app. cbn [filter]. rewrite Ha, filter_app. cbn [filter]. rewrite Hb. reflexivity.
Qed.
(** the three possible interleavings of the tasks that touch the data *)
Lemma legal_cases l : legal all_tasks depends l ->
  filter effective l = [FluxDiv; AddRhs; Avg; Upd] \/ filter effective l = [FluxDiv; Avg; AddRhs; Upd] \/ filter effective l = [FluxDiv; Avg; Upd; AddRhs].
Proof.
  intros (ND & All & Dep). set (k := filter effective l).
  assert (NDk : NoDup k) by (apply NoDup_filter; exact ND).
  assert (Hk : forall t, In t k <-> In t [FluxDiv; AddRhs; Avg; Upd]).
  { intros t. unfold k. rewrite filter_In, All. cbn. destruct t; cbn; intuition congruence. }
  assert (P : Permutation k [FluxDiv; AddRhs; Avg; Upd]) by (apply NoDup_Permutation; [exact NDk| |exact Hk]; repeat constructor; cbn; intuition congruence).
  pose proof (Permutation_length P) as Len. cbn in Len.
  assert (B : forall a b, In a (depends b) -> effective a = true -> effective b = true -> In b all_tasks -> beforeb a b k = true).
  { intros a b Hab Ea Eb Hb. apply before_b; [exact NDk|]. apply before_filter; auto. }
  pose proof (B FluxDiv AddRhs ltac:(cbn; auto) eq_refl eq_refl ltac:(cbn; tauto)) as B1.
  pose proof (B FluxDiv Avg ltac:(cbn; auto) eq_refl eq_refl ltac:(cbn; tauto)) as B2.
  pose proof (B Avg Upd ltac:(cbn; auto) eq_refl eq_refl ltac:(cbn; tauto)) as B3. clear B.
  assert (M : memb AddRhs k && memb Avg k && memb Upd k && memb FluxDiv k && beforeb FluxDiv AddRhs k && beforeb FluxDiv Avg k && beforeb Avg Upd k = true).
  { rewrite B1, B2, B3, !memb_in by (apply Hk; cbn; tauto). reflexivity. }
  clearbody k. clear - M Len. destruct k as [|a [|b [|c [|d [|]]]]]; try discriminate Len.
  destruct a; destruct b; try discriminate M; destruct c; try discriminate M; destruct d; try discriminate M; auto.
Qed.

(** *** one stage *)
Lemma put_same c n v : put c n v n = v. Proof. unfold put. rewrite Nat.eqb_refl. reflexivity. Qed.
Lemma put_other c n v k : k <> n -> put c n v k = c k. Proof. intros H. unfold put. destruct (Nat.eqb_spec k n); [contradiction|reflexivity]. Qed.
Definition with_sources (named : nat -> bool) (F S : Vars -> Vars) (v : Vars) : Vars := fun i => F v i + (if named i then S v i else 0).
(** memory after a stage run in order l; src says whether the sources were in time *)
Lemma stage_result (named : nat -> bool) (F S : Vars -> Vars) l n dt stage beta m (src : bool) :
  (filter effective l = [FluxDiv; AddRhs; Avg; Upd] /\ src = true \/ filter effective l = [FluxDiv; Avg; AddRhs; Upd] /\ src = true \/ filter effective l = [FluxDiv; Avg; Upd; AddRhs] /\ src = false) ->
  let inc := container n (stage - 1) in let outc := container n stage in
  let m' := rk_stage named F S l n dt stage beta m in
  (forall i, cont m' outc i = (1 - beta) * cont m 0%nat i + beta * (cont m inc i + dt * (F (cont m inc) i + (if src then if named i then S (cont m inc) i else 0 else 0)))) /\
  (outc <> 0%nat -> cont m' 0%nat = cont m 0%nat).
Proof.
  intros H inc outc m'. unfold m', rk_stage. fold inc outc. rewrite exec_filter.
  assert (Z : outc <> 0%nat -> inc = 0%nat -> put (cont m) inc (fun i => beta * cont m inc i + (1 - beta) * cont m 0%nat i) 0%nat = cont m 0%nat).
  { intros _ E. rewrite E. rewrite put_same. apply functional_extensionality. intros i. ring. }
  destruct H as [[E ->]|[[E ->]|[E ->]]]; rewrite E; unfold exec_all; cbn [fold_left exec cont dudt gsrc fluxdiv]; (split; [intros i; rewrite !put_same; try destruct (named i); ring|intros Ho; rewrite put_other by auto; destruct (Nat.eq_dec inc 0) as [Ei|Ei]; [apply Z; auto|rewrite put_other by auto; reflexivity]]).
Qed.

Lemma stages_result (named : nat -> bool) (F S : Vars -> Vars) l dt (src : bool) n :
  (filter effective l = [FluxDiv; AddRhs; Avg; Upd] /\ src = true \/ filter effective l = [FluxDiv; Avg; AddRhs; Upd] /\ src = true \/ filter effective l = [FluxDiv; Avg; Upd; AddRhs] /\ src = false) ->
  let rhs := fun (v : Vars) (i : nat) => F v i + (if src then if named i then S v i else 0 else 0) in
  forall betas stage m, betas <> nil -> (1 <= stage)%nat -> (stage + length betas = n + 1)%nat ->
  cont (rk_stages named F S l n dt stage betas m) 0%nat = shu_osher rhs dt (cont m 0%nat) betas (cont m (container n (stage - 1))).
Proof.
  intros H rhs betas. induction betas as [|b r IH]; intros stage m Hne Hst Hlen; [contradiction|]. cbn [rk_stages shu_osher length] in *.
  destruct (stage_result named F S l n dt stage b m src H) as (A & B). set (m' := rk_stage named F S l n dt stage b m) in *.
  assert (E : cont m' (container n stage) = (fun i => (1 - b) * cont m 0%nat i + b * (cont m (container n (stage - 1)) i + dt * rhs (cont m (container n (stage - 1))) i))) by (apply functional_extensionality; exact A).
  destruct r as [|b' r].
  - cbn [rk_stages shu_osher]. assert (C : container n stage = 0%nat) by (unfold container; cbn [length] in Hlen; replace (Nat.eqb stage n) with true by (symmetry; apply Nat.eqb_eq; lia); reflexivity).
    rewrite C in E. exact E.
  - rewrite IH; [|discriminate|lia|cbn [length] in *; lia].
    assert (C : container n stage = stage) by (unfold container; cbn [length] in Hlen; destruct (Nat.eqb_spec stage n); [lia|reflexivity]).
    rewrite B by (rewrite C; lia). f_equal. rewrite <- E. f_equal. f_equal. lia.
Qed.

(** Every Runge-Kutta table, right-hand side, and order of the tasks that is legal and adds the
    sources before the update: a step is the Shu-Osher scheme for the fluxes and sources. *)
Theorem C45_step : forall (named : nat -> bool) (F S : Vars -> Vars) betas dt order m, betas <> nil -> legal all_tasks depends order -> before AddRhs Upd order ->
  cont (rk_step named F S order dt betas m) 0%nat =
  shu_osher (fun v i => F v i + (if named i then S v i else 0)) dt (cont m 0%nat) betas (cont m 0%nat).
Proof.
  intros named F S betas dt order m Hne Hl Hb. unfold rk_step.
  assert (C : container (length betas) (1 - 1) = 0%nat) by (unfold container; destruct (Nat.eqb (1 - 1) (length betas)); reflexivity).
  rewrite (stages_result named F S order dt true (length betas)) with (stage := 1%nat); [rewrite C; reflexivity| |exact Hne|lia|lia].
  destruct (legal_cases order Hl) as [E|[E|E]]; [left|right; left|exfalso]; [split; auto|split; auto|].
  assert (X : beforeb AddRhs Upd (filter effective order) = true) by (apply before_b; [apply NoDup_filter; apply Hl|apply before_filter; auto]). rewrite E in X. discriminate X.
Qed.
Print Assumptions C45_step.

(** The order in which the tasks were added is such an order. *)
Lemma before_intro {T} (a b : T) l1 l2 l3 : before a b (l1 ++ a :: l2 ++ b :: l3). Proof. exists l1, l2, l3. reflexivity. Qed.
Lemma legal_fifo : legal all_tasks depends all_tasks.
Proof.
  split; [|split].
  - repeat constructor; cbn; intuition congruence.
  - intros t. reflexivity.
  - intros t d _ Hd. destruct t; cbn in Hd; destruct Hd as [<-|[]] || destruct Hd.
    + apply (before_intro RecvFlux SetFlux [SendFlux] [] [FluxDiv; AddRhs; Avg; Upd]).
    + apply (before_intro SetFlux FluxDiv [SendFlux; RecvFlux] [] [AddRhs; Avg; Upd]).
    + apply (before_intro FluxDiv AddRhs [SendFlux; RecvFlux; SetFlux] [] [Avg; Upd]).
    + apply (before_intro FluxDiv Avg [SendFlux; RecvFlux; SetFlux] [AddRhs] [Upd]).
    + apply (before_intro Avg Upd [SendFlux; RecvFlux; SetFlux; FluxDiv; AddRhs] [] []).
Qed.
Example C45_step_nonvacuous : legal all_tasks depends all_tasks /\ before AddRhs Upd all_tasks.
Proof. split; [apply legal_fifo|]. apply (before_intro AddRhs Upd [SendFlux; RecvFlux; SetFlux; FluxDiv] [Avg] []). Qed.

(** VIOLATION: the update depends on the averaging only, not on the addition of the sources.
    There is an order the task graph allows in which, for every table and right-hand side, the
    geometric (gravitational) sources never enter. *)
Definition late_sources : list Task := [SendFlux; RecvFlux; SetFlux; FluxDiv; Avg; Upd; AddRhs].
Theorem C45_schedule_refuted : legal all_tasks depends late_sources /\
  forall named F S betas dt m, betas <> nil -> cont (rk_step named F S late_sources dt betas m) 0%nat = shu_osher F dt (cont m 0%nat) betas (cont m 0%nat).
Proof.
  split.
  - split; [|split].
    + repeat constructor; cbn; intuition congruence.
    + intros t. unfold late_sources, all_tasks. cbn. tauto.
    + intros t d _ Hd. destruct t; cbn in Hd; destruct Hd as [<-|[]] || destruct Hd.
      * apply (before_intro RecvFlux SetFlux [SendFlux] [] [FluxDiv; Avg; Upd; AddRhs]).
      * apply (before_intro SetFlux FluxDiv [SendFlux; RecvFlux] [] [Avg; Upd; AddRhs]).
      * apply (before_intro FluxDiv AddRhs [SendFlux; RecvFlux; SetFlux] [Avg; Upd] []).
      * apply (before_intro FluxDiv Avg [SendFlux; RecvFlux; SetFlux] [] [Upd; AddRhs]).
      * apply (before_intro Avg Upd [SendFlux; RecvFlux; SetFlux; FluxDiv] [] [AddRhs]).
  - intros named F S betas dt m Hne. unfold rk_step.
    assert (C : container (length betas) (1 - 1) = 0%nat) by (unfold container; destruct (Nat.eqb (1 - 1) (length betas)); reflexivity).
    rewrite (stages_result named F S late_sources dt false (length betas)) with (stage := 1%nat); [rewrite C|right; right; split; reflexivity|exact Hne|lia|lia].
    f_equal. apply functional_extensionality. intros v. apply functional_extensionality. intros i. ring.
Qed.
Print Assumptions C45_schedule_refuted.

(** Variables without sources (density, composition, magnetic field): a stage gives the same
    value in every legal order. *)
Theorem C45_sourceless : forall named F S n dt stage beta m order order' i, named i = false -> legal all_tasks depends order -> legal all_tasks depends order' ->
  cont (rk_stage named F S order n dt stage beta m) (container n stage) i = cont (rk_stage named F S order' n dt stage beta m) (container n stage) i.
Proof.
  intros named F S n dt stage beta m order order' i Hi Hl Hl'.
  assert (A : forall l, legal all_tasks depends l -> cont (rk_stage named F S l n dt stage beta m) (container n stage) i = (1 - beta) * cont m 0%nat i + beta * (cont m (container n (stage - 1)) i + dt * F (cont m (container n (stage - 1))) i)).
  { intros l L. destruct (legal_cases l L) as [E|[E|E]].
    - destruct (stage_result named F S l n dt stage beta m true ltac:(left; split; auto)) as (X & _). rewrite X, Hi. ring.
    - destruct (stage_result named F S l n dt stage beta m true ltac:(right; left; split; auto)) as (X & _). rewrite X, Hi. ring.
    - destruct (stage_result named F S l n dt stage beta m false ltac:(right; right; split; auto)) as (X & _). rewrite X. ring. }
  rewrite (A order Hl), (A order' Hl'). reflexivity.
Qed.
Print Assumptions C45_sourceless.

(** *** the methods *)
(** rk1 is Euler's method, rk2 Heun's, rk3 the third order method of Shu and Osher, written with
    their slopes *)
Theorem C45_methods : forall rhs dt u i,
  let k1 := rhs u in let k2 := rhs (fun j => u j + dt * k1 j) in let k3 := rhs (fun j => u j + dt * (k1 j / 4 + k2 j / 4)) in
  shu_osher rhs dt u rk1 u i = u i + dt * k1 i /\
  shu_osher rhs dt u rk2 u i = u i + dt * (k1 i / 2 + k2 i / 2) /\
  shu_osher rhs dt u rk3 u i = u i + dt * (k1 i / 6 + k2 i / 6 + 2 / 3 * k3 i).
Proof.
  intros rhs dt u i k1 k2 k3.
  assert (E1 : (fun j => (1 - 1) * u j + 1 * (u j + dt * rhs u j)) = (fun j => u j + dt * k1 j)) by (apply functional_extensionality; intros j; unfold k1; ring).
  unfold rk1, rk2, rk3. cbn [shu_osher]. rewrite E1. fold k2. change (rhs u) with k1. cbv beta. split; [ring|]. split; [field|].
  assert (E2 : (fun j => (1 - 1 / 4) * u j + 1 / 4 * ((1 - 1) * u j + 1 * (u j + dt * k1 j) + dt * k2 j)) = (fun j => u j + dt * (k1 j / 4 + k2 j / 4))) by (apply functional_extensionality; intros j; field).
  rewrite E2. fold k3. field.
Qed.
Print Assumptions C45_methods.

(** VIOLATION: nothing stops an input file from choosing vl2, for which the averaging of the
    driver is wrong: for the constant rate 1 the step gains 3/2 dt. *)
Theorem C45_vl2_refuted : forall dt u i, shu_osher (fun _ _ => 1) dt u vl2 u i = u i + 3 / 2 * dt.
Proof. intros. unfold vl2. cbn [shu_osher]. field. Qed.
Print Assumptions C45_vl2_refuted.

(** Strong stability: every convex set preserved by forward Euler steps of size dt is preserved
    by the whole step, for every table with coefficients in [0,1]; in particular bounds,
    positivity and total variation. *)
Theorem C45_ssp : forall (A : Vars -> Prop) (named : nat -> bool) (F S : Vars -> Vars) betas dt order m, betas <> nil -> legal all_tasks depends order -> before AddRhs Upd order ->
  convex A -> (forall b, In b betas -> 0 <= b <= 1) ->
  (forall v, A v -> A (fun i => v i + dt * (F v i + (if named i then S v i else 0)))) -> A (cont m 0%nat) -> A (cont (rk_step named F S order dt betas m) 0%nat).
Proof.
  intros A named F S betas dt order m Hne Hl Hb Hc Hbs HE Hu. rewrite C45_step by assumption. set (u := cont m 0%nat) in *. clearbody u.
  assert (G : forall bs v, (forall b, In b bs -> 0 <= b <= 1) -> A v -> A (shu_osher (fun (v : Vars) (i : nat) => F v i + (if named i then S v i else 0)) dt u bs v)).
  { induction bs as [|b r IH]; intros v Hbs' Hv; [exact Hv|]. cbn [shu_osher]. apply IH; [intros; apply Hbs'; right; assumption|].
    apply Hc; [apply Hbs'; left; reflexivity|exact Hu|apply HE; exact Hv]. }
  apply G; assumption.
Qed.
Print Assumptions C45_ssp.
Example C45_ssp_nonvacuous : convex (fun v => forall i, 0 <= v i) /\ (forall b, In b rk3 -> 0 <= b <= 1).
Proof.
  split.
  - intros u v w Hw Hu Hv i. specialize (Hu i). specialize (Hv i). nra.
  - intros b [<-|[<-|[<-|[]]]]; lra.
Qed.

(** *** accuracy *)
(** Every system of N equations u' = R(u) with R Lipschitz and every solution with bounded second
    and third derivatives: one rk2 step is off by at most (M3/12 + L M2/4) dt^3. *)
Theorem C45_second_order : forall (N : nat) (rhs : Vars -> Vars) (u : R -> Vars) L M2 M3 T dt, 0 <= L -> 0 <= dt <= T ->
  (forall i, (i < N)%nat -> exists u2 u3, forall t, 0 <= t <= T ->
     is_derive (fun s => u s i) t (rhs (u t) i) /\ is_derive (fun s => rhs (u s) i) t (u2 t) /\ is_derive u2 t (u3 t) /\ Rabs (u2 t) <= M2 /\ Rabs (u3 t) <= M3) ->
  (forall v w e, (forall j, (j < N)%nat -> Rabs (v j - w j) <= e) -> forall i, (i < N)%nat -> Rabs (rhs v i - rhs w i) <= L * e) ->
  forall i, (i < N)%nat -> Rabs (shu_osher rhs dt (u 0) rk2 (u 0) i - u dt i) <= (M3 / 12 + L * M2 / 4) * dt ^ 3.
Proof.
  intros N rhs u L M2 M3 T dt HL Hdt Hu Hlip i Hi. destruct (C45_methods rhs dt (u 0) i) as (_ & E & _). rewrite E. clear E.
  set (k1 := rhs (u 0)). set (p := fun j => u 0 j + dt * k1 j).
  assert (P : forall j, (j < N)%nat -> Rabs (p j - u dt j) <= M2 * dt ^ 2 / 2).
  { intros j Hj. destruct (Hu j Hj) as (u2 & u3 & D).
    destruct (taylor1 (fun t => u t j) (fun t => rhs (u t) j) u2 T M2 ltac:(intros t Ht; destruct (D t Ht) as (A & B & _ & C & _); auto) dt Hdt) as [Tx _].
    rewrite Rabs_minus_sym. unfold p, k1. replace (u dt j - (u 0 j + dt * rhs (u 0) j)) with (u dt j - u 0 j - dt * rhs (u 0) j) by ring. exact Tx. }
  pose proof (Hlip p (u dt) (M2 * dt ^ 2 / 2) P i Hi) as Q.
  destruct (Hu i Hi) as (u2 & u3 & D).
  pose proof (trapezoid (fun t => u t i) (fun t => rhs (u t) i) u2 u3 T M3 ltac:(intros t Ht; destruct (D t Ht) as (A & B & C & _ & F); auto) dt Hdt) as Z. cbv beta in Z.
  replace (u 0 i + dt * (k1 i / 2 + rhs p i / 2) - u dt i) with (- (u dt i - u 0 i - dt / 2 * (rhs (u 0) i + rhs (u dt) i)) + dt / 2 * (rhs p i - rhs (u dt) i)) by (unfold k1; field).
  eapply Rle_trans; [apply Rabs_triang|]. rewrite Rabs_Ropp, Rabs_mult, (Rabs_right (dt / 2)) by lra.
  assert (dt / 2 * Rabs (rhs p i - rhs (u dt) i) <= dt / 2 * (L * (M2 * dt ^ 2 / 2))) by (apply Rmult_le_compat_l; lra).
  replace ((M3 / 12 + L * M2 / 4) * dt ^ 3) with (M3 * dt ^ 3 / 12 + dt / 2 * (L * (M2 * dt ^ 2 / 2))) by field. lra.
Qed.
Print Assumptions C45_second_order.
Example C45_second_order_nonvacuous : let u := fun (t : R) (_ : nat) => exp t in let rhs := fun (v : Vars) i => v i in
  (forall t, 0 <= t <= 1 -> is_derive (fun s => u s 0%nat) t (rhs (u t) 0%nat) /\ is_derive (fun s => rhs (u s) 0%nat) t (exp t) /\ is_derive exp t (exp t) /\ Rabs (exp t) <= exp 1) /\
  (forall v w e, (forall j, (j < 1)%nat -> Rabs (v j - w j) <= e) -> forall i, (i < 1)%nat -> Rabs (rhs v i - rhs w i) <= 1 * e).
Proof.
  cbv zeta. split.
  - intros t Ht. split; [apply is_derive_exp|]. split; [apply is_derive_exp|]. split; [apply is_derive_exp|].
    rewrite Rabs_right by (pose proof (exp_pos t); lra). destruct (Req_dec t 1) as [->|N]; [lra|left; apply exp_increasing; lra].
  - intros v w e H i Hi. rewrite Rmult_1_l. apply H. exact Hi.
Qed.

(** *** conservation *)
Definition linear (l : Vars -> R) : Prop := forall a b u v, l (fun i => a * u i + b * v i) = a * l u + b * l v.
Lemma shu_osher_linear (l : Vars -> R) rhs dt u : linear l -> (forall v, l (rhs v) = 0) -> forall betas v, l v = l u -> l (shu_osher rhs dt u betas v) = l u.
Proof.
  intros Hl H0 betas. induction betas as [|b r IH]; intros v Hv; [exact Hv|]. cbn [shu_osher]. apply IH.
  etransitivity; [apply (Hl (1 - b) b u (fun i => v i + dt * rhs v i))|].
  assert (E : l (fun i => v i + dt * rhs v i) = l v).
  { replace (fun i => v i + dt * rhs v i) with (fun i => 1 * v i + dt * rhs v i) by (apply functional_extensionality; intros; ring). rewrite (Hl 1 dt v (rhs v)), H0. ring. }
  rewrite E, Hv. ring.
Qed.
(** a run: any number of steps, each with its own size and order of tasks *)
Definition run_steps (named : nat -> bool) (F S : Vars -> Vars) (betas : list R) (steps : list (R * list Task)) (m : Mem) : Mem :=
  fold_left (fun m s => rk_step named F S (snd s) (fst s) betas m) steps m.

(** Every mesh block whose boundaries are sealed, every way of computing fluxes from the state
    (reconstruction, Riemann solver, order of the loops), every Runge-Kutta table, step size,
    number of steps and order of the tasks (also those that miss the sources): the total mass does
    not change.  [code] numbers the zones' densities among the variables. *)
Theorem C45_mass_conserved : forall cf B ord dx (flux : Vars -> FluxMem R) (code : Cell -> nat) named (F S : Vars -> Vars) betas steps m,
  runs cf B ord -> (forall d, 0 < dx d) -> (forall d inner, live (fndim cf) d -> sealed cf d inner) ->
  (forall v c, F v (code c) = gain (fndim cf) dx (fun d x => FixFluxes cf ord (flux v) (d, CD, x)) c) -> (forall c, named (code c) = false) ->
  betas <> nil -> (forall s, In s steps -> legal all_tasks depends (snd s)) ->
  total B (fun c => cont (run_steps named F S betas steps m) 0%nat (code c)) = total B (fun c => cont m 0%nat (code c)).
Proof.
  intros cf B ord dx flux code named F S betas steps m Hr Hdx Hse HF Hnm Hne. revert m.
  set (l := fun v : Vars => total B (fun c => v (code c))).
  assert (Hl : linear l).
  { intros a b u v. unfold l. rewrite total_plus. f_equal.
    - etransitivity; [|rewrite Rmult_comm; apply total_scal]. apply total_ext. intros; ring.
    - etransitivity; [|rewrite Rmult_comm; apply total_scal]. apply total_ext. intros; ring. }
  assert (HF0 : forall v, l (F v) = 0).
  { intros v. unfold l. etransitivity; [apply total_ext; intros c _; apply HF|].
    apply (C24_mass_budget cf B ord (flux v) dx Hr Hdx ltac:(intros d inner L; left; apply Hse; exact L)). exact Hse. }
  assert (HS0 : forall v (src : bool), l (fun i => F v i + (if src then if named i then S v i else 0 else 0)) = 0).
  { intros v src. etransitivity; [|apply (HF0 v)]. unfold l. apply total_ext. intros c _. rewrite Hnm. destruct src; ring. }
  induction steps as [|s r IH]; intros m Hs; [reflexivity|]. unfold run_steps in *. cbn [fold_left].
  etransitivity; [apply IH; intros x Hx; apply Hs; right; exact Hx|]. change (l (cont (rk_step named F S (snd s) (fst s) betas m) 0%nat) = l (cont m 0%nat)).
  destruct s as [dt order]. cbn [fst snd]. pose proof (Hs _ (or_introl eq_refl)) as Hleg. cbn [snd] in Hleg. unfold rk_step.
  assert (C : container (length betas) (1 - 1) = 0%nat) by (unfold container; destruct (Nat.eqb (1 - 1) (length betas)); reflexivity).
  assert (X : exists src, (filter effective order = [FluxDiv; AddRhs; Avg; Upd] /\ src = true \/ filter effective order = [FluxDiv; Avg; AddRhs; Upd] /\ src = true \/ filter effective order = [FluxDiv; Avg; Upd; AddRhs] /\ src = false)).
  { destruct (legal_cases order Hleg) as [E|[E|E]]; [exists true|exists true|exists false]; auto. }
  destruct X as (src & X).
  rewrite (stages_result named F S order dt src (length betas) X betas 1 m Hne) by lia. rewrite C. apply shu_osher_linear; auto.
Qed.
Print Assumptions C45_mass_conserved.

(** *** time of the geometry *)
(** Forward Euler and Heun: each stage evaluates a time-dependent metric at the time its input
    approximates. *)
Theorem C45_geometry_time : forall time dt,
  geometry_time time dt rk1 1 = time + stage_abscissa rk1 1 * dt /\
  (forall stage, (1 <= stage <= 2)%nat -> geometry_time time dt rk2 stage = time + stage_abscissa rk2 stage * dt) /\
  (forall stage, (1 <= stage <= 2)%nat -> geometry_time time dt rk3 stage = time + stage_abscissa rk3 stage * dt).
Proof.
  intros time dt. split; [reflexivity|].
  split; intros stage Hs; assert (E : stage = 1%nat \/ stage = 2%nat) by lia; destruct E as [-> | ->]; unfold geometry_time, stage_abscissa; cbn; ring.
Qed.
Print Assumptions C45_geometry_time.
(** the abscissa is the solution of u' = 1, u(0) = 0, after those stages *)
Theorem C45_abscissa : forall betas dt stage i,
  shu_osher (fun _ _ => 1) dt (fun _ => 0) (firstn (stage - 1) betas) (fun _ => 0) i = stage_abscissa betas stage * dt.
Proof.
  intros betas dt stage i. unfold stage_abscissa. set (l := firstn (stage - 1) betas). clearbody l.
  induction l as [|b l IH] using rev_ind; [cbn; ring|]. rewrite rev_app_distr. cbn [rev app abscissa].
  assert (A : forall k v, shu_osher (fun _ _ => 1) dt (fun _ => 0) (k ++ [b]) v i = b * (shu_osher (fun _ _ => 1) dt (fun _ => 0) k v i + dt)).
  { induction k as [|c k IHk]; intros v; [cbn; ring|]. cbn [app shu_osher]. apply IHk. }
  rewrite A, IH. ring.
Qed.
Print Assumptions C45_abscissa.
(** VIOLATION: rk3's last stage works on a state at half the step but gets the metric at a
    quarter.  A rate that grows linearly in time (an expanding metric), which the method is exact
    for, is off by a third of its change over the step. *)
Theorem C45_geometry_time_refuted : forall time dt,
  geometry_time time dt rk3 3 = time + dt / 4 /\ stage_abscissa rk3 3 = 1 / 2 /\
  forall r, dt * (1 / 6 * (r * geometry_time time dt rk3 1) + 1 / 6 * (r * geometry_time time dt rk3 2) + 2 / 3 * (r * geometry_time time dt rk3 3))
     = (r * (time + dt) ^ 2 / 2 - r * time ^ 2 / 2) - r * dt ^ 2 / 6.
Proof.
  intros time dt. unfold geometry_time, stage_abscissa. cbn. split; [field|]. split; [field|]. intros r. field.
Qed.
Print Assumptions C45_geometry_time_refuted.

(** *** size of the step *)
(** Every history of estimates: the run never passes tlim, no step exceeds the estimate or
    dt_init. *)
Definition time_after (time : R) (dts : list R) : R := fold_left Rplus dts time.
Lemma step_dt_props restart dt_init fact time tlim est : 0 <= dt_init -> 0 <= est -> 0 <= fact <= 1 -> time <= tlim ->
  let '(dt, fact') := step_dt restart dt_init fact time tlim est in
  0 <= dt /\ time + dt <= tlim /\ dt <= est /\ dt <= dt_init /\ 0 <= fact' <= 1 /\ fact' = (if restart then fact else 1) /\
  (time + dt < tlim -> dt = Rmin dt_init est * (if restart then 1 else fact)).
Proof.
  intros Hi He Hf Ht. unfold step_dt.
  assert (M : (if Rlt_bool dt_init est then dt_init else est) = Rmin dt_init est).
  { destruct (Rlt_bool_spec dt_init est); [rewrite Rmin_left|rewrite Rmin_right]; lra. }
  rewrite M. pose proof (Rmin_l dt_init est). pose proof (Rmin_r dt_init est). assert (0 <= Rmin dt_init est) by (apply Rmin_glb; lra).
  set (mm := Rmin dt_init est) in *. clearbody mm. clear M. destruct restart.
  - destruct (Rlt_bool_spec tlim (time + mm)); repeat split; lra.
  - assert (0 <= mm * fact <= mm) by nra. destruct (Rlt_bool_spec tlim (time + mm * fact)); repeat split; lra.
Qed.
Theorem C45_dt : forall restart dt_init fact time tlim ests, 0 <= dt_init -> 0 <= fact <= 1 -> time <= tlim -> (forall e, In e ests -> 0 <= e) ->
  let dts := run_dt restart dt_init fact time tlim ests in
  length dts = length ests /\ (forall n, time_after time (firstn n dts) <= tlim) /\
  (forall n, (n < length ests)%nat -> 0 <= nth n dts 0 <= nth n ests 0).
Proof.
  intros restart dt_init fact time tlim ests Hi. revert fact time.
  induction ests as [|e r IH]; intros fact time Hf Ht He.
  - cbn. split; [reflexivity|]. split; [intros [|n]; cbn; exact Ht|intros n Hn; lia].
  - cbn [run_dt]. pose proof (step_dt_props restart dt_init fact time tlim e Hi (He e (or_introl eq_refl)) Hf Ht) as P.
    destruct (step_dt restart dt_init fact time tlim e) as [dt fact']. destruct P as (P1 & P2 & P3 & P4 & P5 & _).
    destruct (IH fact' (time + dt) P5 P2 ltac:(intros x Hx; apply He; right; exact Hx)) as (A & B & C).
    cbn [length]. split; [f_equal; exact A|]. split.
    + intros [|n]; [exact Ht|]. cbn [firstn]. unfold time_after. cbn [fold_left]. apply B.
    + intros [|n] Hn; [cbn; lra|]. cbn [nth]. apply C. cbn in Hn. lia.
Qed.
Print Assumptions C45_dt.
(** A run whose steps are bounded below reaches tlim exactly. *)
Theorem C45_reaches_tlim : forall restart dt_init time tlim ests h, 0 < h -> h <= dt_init -> time <= tlim -> (forall e, In e ests -> h <= e) ->
  tlim - time <= INR (length ests) * h -> time_after time (run_dt restart dt_init 1 time tlim ests) = tlim.
Proof.
  intros restart dt_init time tlim ests h Hh Hi. revert time.
  induction ests as [|e r IH]; intros time Ht He Hn.
  - cbn in *. lra.
  - cbn [run_dt]. pose proof (He e (or_introl eq_refl)) as He0. pose proof (step_dt_props restart dt_init 1 time tlim e ltac:(lra) ltac:(lra) ltac:(lra) Ht) as P.
    destruct (step_dt restart dt_init 1 time tlim e) as [dt fact']. destruct P as (P1 & P2 & P3 & P4 & P5 & P6 & P7).
    assert (F : fact' = 1) by (rewrite P6; destruct restart; reflexivity). subst fact'. rewrite F. unfold time_after. cbn [fold_left]. cbn [length] in Hn. rewrite S_INR in Hn.
    apply IH; [exact P2|intros x Hx; apply He; right; exact Hx|].
    destruct (Rle_lt_dec tlim (time + dt)) as [G|G]; [pose proof (pos_INR (length r)); nra|].
    assert (h <= dt). { rewrite (P7 G). apply Rle_trans with (Rmin dt_init e); [apply Rmin_glb; lra|destruct restart; lra]. } lra.
Qed.
Print Assumptions C45_reaches_tlim.
Lemma step_dt_val r d f t T e : step_dt r d f t T e = (Rmin (Rmin d e * (if r then 1 else f)) (T - t), if r then f else 1).
Proof.
  unfold step_dt. assert (M : (if Rlt_bool d e then d else e) = Rmin d e) by (destruct (Rlt_bool_spec d e); [rewrite Rmin_left|rewrite Rmin_right]; lra). rewrite M.
  clear M. set (x := Rmin d e). clearbody x. destruct r; cbv beta iota zeta; f_equal; [destruct (Rlt_bool_spec T (t + x))|destruct (Rlt_bool_spec T (t + x * f))]; [rewrite Rmin_right|rewrite Rmin_left|rewrite Rmin_right|rewrite Rmin_left]; lra.
Qed.
Example C45_dt_nonvacuous : run_dt false 1 (1 / 10) 0 2 [3; 1; 1; 1] = [1 / 10; 1; 9 / 10; 0].
Proof.
  cbn [run_dt]. rewrite !step_dt_val. cbv beta iota zeta. rewrite (Rmin_left 1 3), (Rmin_left 1 1) by lra.
  rewrite (Rmin_left (1 * (1 / 10))) by lra. rewrite (Rmin_left (1 * 1) (2 - (0 + 1 * (1 / 10)))) by lra.
  rewrite (Rmin_right (1 * 1) (2 - (0 + 1 * (1 / 10) + 1 * 1))) by lra. rewrite Rmin_right by lra.
  repeat (apply f_equal2; [lra|]). reflexivity.
Qed.
(** VIOLATION: dt_init, documented as the initial step, caps every step of the run, however large
    the stable step is; [first_call] is never cleared. *)
Theorem C45_dt_init_refuted : forall restart dt_init fact time tlim ests n, 0 <= dt_init -> 0 <= fact <= 1 -> time <= tlim -> (forall e, In e ests -> 0 <= e) ->
  nth n (run_dt restart dt_init fact time tlim ests) 0 <= dt_init.
Proof.
  intros restart dt_init fact time tlim ests n Hi. revert fact time n.
  induction ests as [|e r IH]; intros fact time n Hf Ht He; [destruct n; exact Hi|].
  cbn [run_dt]. pose proof (step_dt_props restart dt_init fact time tlim e Hi (He e (or_introl eq_refl)) Hf Ht) as P.
  destruct (step_dt restart dt_init fact time tlim e) as [dt fact']. destruct P as (P1 & P2 & P3 & P4 & P5 & _).
  destruct n as [|n]; [exact P4|]. cbn [nth]. apply IH; [exact P5|exact P2|intros x Hx; apply He; right; exact Hx].
Qed.
Print Assumptions C45_dt_init_refuted.

(** *** failed stages *)
(** The stages stop at the first one that fails. *)
Theorem C45_stages_stop : forall stages s, let '(st, n) := run_stages stages s in
  (st <> complete -> (exists pre bad post, stages = pre ++ bad :: post /\ st = bad /\ n = S (length pre) /\ List.Forall (fun x => x = complete) pre /\ bad <> complete) \/ (stages = nil /\ st = s)) /\
  (List.Forall (fun x => x = complete) stages -> n = length stages).
Proof.
  induction stages as [|a r IH]; intros s; cbn [run_stages].
  - split; [intros _; right; auto|reflexivity].
  - destruct a; cbn [is_complete].
    + specialize (IH complete). destruct (run_stages r complete) as [st n]. destruct IH as (A & B). split.
      { intros H. destruct (A H) as [(pre & bad & post & E & E1 & E2 & E3 & E4)|[E1 E2]]; [|contradiction (H E2)].
        left. exists (complete :: pre), bad, post. cbn. rewrite E, E2. repeat (split; [solve [auto]|]). exact E4. }
      { intros F. inversion F; subst. cbn. rewrite B by assumption. reflexivity. }
    + split; [intros H; left; exists nil, running, r; cbn; repeat split; auto; discriminate|intros F; inversion F; discriminate].
    + split; [intros H; left; exists nil, fail, r; cbn; repeat split; auto; discriminate|intros F; inversion F; discriminate].
Qed.
Print Assumptions C45_stages_stop.
(** VIOLATION: the failure is not reported: the radiation step still runs and its status is
    returned. *)
Theorem C45_status_refuted : forall stages post, Step_status stages post = post /\ exists bad, fst (run_stages bad complete) = fail /\ Step_status bad complete = complete.
Proof.
  intros stages post. split; [unfold Step_status; destruct (run_stages stages complete); reflexivity|]. exists [complete; fail; complete]. split; reflexivity.
Qed.
Print Assumptions C45_status_refuted.
