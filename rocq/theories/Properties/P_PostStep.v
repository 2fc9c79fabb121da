(** C69: operator-split sources: what is conserved, what is written, what a restart changes. *)
From Coq Require Import Reals List Lra Lia.
From Verif.Spec Require Import PostStepSpec.
From Verif.Model Require Import Driver PostStep.
Import ListNotations.
Local Open Scope R_scope.

Lemma total_lin w n a b u v : total_of w n (fun i => a * u i + b * v i) = a * total_of w n u + b * total_of w n v.
Proof. induction n as [|n IH]; cbn; [ring|]. rewrite IH. ring. Qed.
Lemma total_add w n b u v : total_of w n (fun i => u i + b * v i) = total_of w n u + b * total_of w n v.
Proof. induction n as [|n IH]; cbn; [ring|]. rewrite IH. ring. Qed.

Section Run.
Variables (rate : Field -> Field) (settle : Field -> RunState) (force : R -> Field -> Field).
Notation step := (full_step rate settle force).
Notation run := (run_from rate settle force).

Lemma run_app betas l1 : forall s l2, run betas s (l1 ++ l2) = run betas (run betas s l1) l2.
Proof. induction l1 as [|d l1 IH]; intros s l2; cbn; [reflexivity|]. apply IH. Qed.

(** ** what is conserved *)
Section Budget.
Variables (w : nat -> R) (n : nat).
Hypothesis Hrate : forall p, total_of w n (rate p) = 0.
Hypothesis Hset : forall c, total_of w n (conserved (settle c)) = total_of w n c.
Lemma stages_total dt base betas : forall s, total_of w n (conserved s) = total_of w n base ->
  total_of w n (conserved (stage_updates rate settle dt betas base s)) = total_of w n base.
Proof.
  induction betas as [|b r IH]; intros s E; cbn; [exact E|]. apply IH. unfold stage_update. rewrite Hset, total_lin, total_add, Hrate, E. ring.
Qed.
Lemma step_total betas dt s : total_of w n (conserved (step betas dt s)) =
  total_of w n (conserved s) + dt * total_of w n (force dt (primitive (step betas dt s))).
Proof.
  unfold full_step, post_step. cbn [conserved primitive]. rewrite total_add, (stages_total dt (conserved s) betas s eq_refl). reflexivity.
Qed.
End Budget.

(** Any system, any Runge-Kutta table, any sequence of steps: if transport and repair keep a
    total (with periodic or sealed boundaries, and no zone floored), it changes by exactly the
    emission of every step, computed from the primitives that step leaves - the ones it
    writes to output. *)
Theorem C69_budget : forall (w : nat -> R) (n : nat) betas c0 dts,
  (forall p, total_of w n (rate p) = 0) -> (forall c, total_of w n (conserved (settle c)) = total_of w n c) ->
  let at_step k := run betas (start settle c0) (firstn k dts) in
  total_of w n (conserved (at_step (length dts))) =
    total_of w n c0 + total_of (fun k => nth k dts 0) (length dts) (fun k => total_of w n (force (nth k dts 0) (primitive (at_step (S k))))).
Proof.
  intros w n betas c0 dts Hr Hs at_step.
  assert (K : forall m, (m <= length dts)%nat -> total_of w n (conserved (at_step m)) =
    total_of w n c0 + total_of (fun k => nth k dts 0) m (fun k => total_of w n (force (nth k dts 0) (primitive (at_step (S k)))))).
  { induction m as [|m IH]; intros L.
    - unfold at_step. cbn [firstn run_from total_of]. unfold start. rewrite Hs. ring.
    - cbn [total_of]. rewrite <- Rplus_assoc, <- IH by lia.
      assert (E : firstn (S m) dts = firstn m dts ++ [nth m dts 0]).
      { clear - L. revert m L. induction dts as [|d l IHl]; intros m L; cbn in L; [lia|]. destruct m as [|m]; [reflexivity|]. cbn. f_equal. apply IHl. lia. }
      unfold at_step. rewrite E, run_app. cbn [run_from]. apply step_total; assumption. }
  apply (K (length dts)). lia.
Qed.

(** ** what is written *)
(** every zone converts, nothing is floored *)
Definition clean (convert : Field -> Field) : Prop := forall c, settle c = mkRun c (convert c).
Lemma clean_stages convert : clean convert -> forall dt base betas s, betas <> [] \/ primitive s = convert (conserved s) ->
  primitive (stage_updates rate settle dt betas base s) = convert (conserved (stage_updates rate settle dt betas base s)).
Proof.
  intros C dt base betas. induction betas as [|b r IH]; intros s H; cbn.
  - destruct H as [H|H]; [congruence|exact H].
  - apply IH. right. unfold stage_update. rewrite C. reflexivity.
Qed.

(** VIOLATION: the primitives a step leaves - in outputs, in the history, for the tracers - are
    those of the conserved data BEFORE the force of that step was added. *)
Theorem C69_output_refuted : forall convert betas s dt, clean convert -> betas <> [] ->
  let s' := step betas dt s in
  exists h, primitive s' = convert h /\ (forall i, conserved s' i = h i + dt * force dt (primitive s') i).
Proof.
  intros convert betas s dt C B s'. exists (conserved (stage_updates rate settle dt betas (conserved s) s)).
  unfold s', full_step, post_step. cbn [primitive conserved]. split; [apply clean_stages; auto|reflexivity].
Qed.

(** They are also what the next step computes its first fluxes and sources from.  With the
    one-stage method the state h before the force follows the sum of transport rate and force,
    both at h: with equal steps this is Euler's method for the whole system, not a splitting. *)
Theorem C69_unsplit : forall convert dt s, clean convert -> 
  let h s := conserved (stage_updates rate settle dt rk1 (conserved s) s) in
  let s' := step rk1 dt s in
  euler_step (fun u i => rate (convert u) i + force dt (convert u) i) dt (h s) (h s').
Proof.
  intros convert dt s C h s' i. unfold h, s', full_step, post_step, rk1. cbn [stage_updates]. unfold stage_update.
  rewrite !C. cbn [conserved primitive]. ring.
Qed.

(** ** restart *)
(** Without a force a restart after any step changes nothing: the run goes on from the same state. *)
Theorem C69_restart : forall convert betas c0 dts, clean convert -> betas <> [] ->
  (forall dt p i, force dt p i = 0) -> (forall u v, same u v -> convert u = convert v) ->
  let s := run betas (start settle c0) dts in
  same (conserved (start settle (conserved s))) (conserved s) /\ primitive (start settle (conserved s)) = primitive s.
Proof.
  intros convert betas c0 dts C B F X. intros s.
  assert (K : primitive s = convert (conserved s)).
  { unfold s, start. assert (K0 : primitive (settle c0) = convert (conserved (settle c0))) by (rewrite C; reflexivity).
    revert K0. generalize (settle c0) as t. induction dts as [|d l IH]; intros t Kt; cbn [run_from]; [exact Kt|]. apply IH.
    unfold full_step, post_step. cbn [primitive conserved]. rewrite (clean_stages convert C) by auto.
    apply X. intros i. rewrite F. ring. }
  unfold start. rewrite C. cbn [conserved primitive]. split; [intros i; reflexivity|symmetry; exact K].
Qed.

(** VIOLATION: with a force it does: one more step of the one-stage method after the restart
    computes its rate at the state after the force instead of before. *)
Theorem C69_restart_refuted : forall convert s dt, clean convert ->
  let s1 := step rk1 dt s in
  let h := conserved (stage_updates rate settle dt rk1 (conserved s) s) in
  let go_on := conserved (stage_updates rate settle dt rk1 (conserved s1) s1) in
  let restarted := let r := start settle (conserved s1) in conserved (stage_updates rate settle dt rk1 (conserved r) r) in
  forall i, restarted i - go_on i = dt * (rate (convert (fun i => h i + dt * force dt (convert h) i)) i - rate (convert h) i).
Proof.
  intros convert s dt C s1 h go_on restarted i. unfold restarted, go_on, h, s1, start, full_step, post_step, rk1. cbn [stage_updates].
  unfold stage_update. rewrite !C. cbn [conserved primitive]. ring.
Qed.
End Run.
Print Assumptions C69_budget.
Print Assumptions C69_output_refuted.
Print Assumptions C69_unsplit.
Print Assumptions C69_restart.
Print Assumptions C69_restart_refuted.

(** One variable decaying by transport at rate a and by cooling at rate g, and Heun's method: a
    step multiplies the state before the force by 1 + (a+g) dt + a (a+g) dt^2 / 2.  The method
    is second order for transport alone; VIOLATION: with the force it is not, the term in dt^2
    misses g (a+g) / 2. *)
Theorem C69_order_refuted : forall a g dt s, 
  let rate (p : Field) i := a * p i in let settle c := mkRun c c in let force (_ : R) (p : Field) i := g * p i in
  let h s := conserved (stage_updates rate settle dt rk2 (conserved s) s) in
  let s' := full_step rate settle force rk2 dt s in
  forall i, h s' i = (1 + (a + g) * dt + (a + g) ^ 2 * dt ^ 2 / 2 - g * (a + g) * dt ^ 2 / 2) * h s i.
Proof.
  intros a g dt s rate settle force h s' i. unfold h, s', full_step, post_step, rk2. cbn [stage_updates]. unfold stage_update, settle, rate, force.
  cbn [conserved primitive]. field.
Qed.
Print Assumptions C69_order_refuted.

(** two zones exchanging what one loses, both cooling at unit rate, rk2, two steps of length one *)
Definition two_rate : Field -> Field := fun p i => match i with O => p 1%nat - p 0%nat | 1%nat => p 0%nat - p 1%nat | _ => 0 end.
Definition two_settle : Field -> RunState := fun c => mkRun c c.
Definition two_force : R -> Field -> Field := fun _ p i => - p i / 2.
Example C69_nonvacuous :
  (forall p, total_of (fun _ => 1) 2 (two_rate p) = 0) /\ (forall c, total_of (fun _ => 1) 2 (conserved (two_settle c)) = total_of (fun _ => 1) 2 c) /\
  clean two_settle (fun c => c) /\
  total_of (fun _ => 1) 2 (conserved (run_from two_rate two_settle two_force rk2 (start two_settle (fun i => match i with O => 3 | _ => 1 end)) [1; 1])) <> 4 /\
  exists s i, let s1 := full_step two_rate two_settle two_force rk1 1 s in
    let r := start two_settle (conserved s1) in
    conserved (stage_updates two_rate two_settle 1 rk1 (conserved r) r) i <> conserved (stage_updates two_rate two_settle 1 rk1 (conserved s1) s1) i.
Proof.
  repeat split.
  - intros p. unfold total_of, two_rate. ring.
  - unfold run_from, full_step, post_step, rk2, start, two_settle. cbn [stage_updates]. unfold stage_update, two_rate, two_force. cbn [conserved primitive total_of]. lra.
  - exists (start two_settle (fun i => match i with O => 3 | _ => 1 end)), 0%nat. unfold full_step, post_step, rk1, start, two_settle. cbn [stage_updates]. unfold stage_update, two_rate, two_force. cbn [conserved primitive]. lra.
Qed.
