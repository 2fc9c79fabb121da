(** Reading the boundary conditions from the deck. *)
From Coq Require Import Reals String ZArith List Bool.
From Verif.Model Require Import Num Config FluxFix Boundary BoundaryDeck.
From Verif.Spec Require Import ConfigSpec BoundaryDeckSpec.
From Verif.Proofs Require Import ConfigProofs.
Import ListNotations.
Local Open Scope string_scope.
Local Open Scope R_scope.

Definition asks (d : deck) (dir : Dir) (inner : bool) (name : string) : Prop :=
  d ("parthenon/mesh", face_entry dir inner) = Some (VStr name).
Lemma run_bind {A B} (p : prog A) (f : A -> prog B) : forall d,
  run (bind p f) d = match run p d with Some (a, d') => run (f a) d' | None => None end.
Proof.
  induction p as [a| |k c IH|k v c IH]; intros d; cbn [bind run]; [reflexivity|reflexivity| |].
  - destruct (d k); [apply IH|reflexivity].
  - destruct (d k); apply IH.
Qed.
Lemma run_bind_some {A B} (p : prog A) (f : A -> prog B) d b d2 : run (bind p f) d = Some (b, d2) ->
  exists a d1, run p d = Some (a, d1) /\ run (f a) d1 = Some (b, d2).
Proof. rewrite run_bind. destruct (run p d) as [[a d1]|]; [|discriminate]. intros E. exists a, d1. split; [reflexivity|exact E]. Qed.
Lemma run_gs b n d s d' : run (GetString b n) d = Some (s, d') <-> d' = d /\ d (b, n) = Some (VStr s).
Proof.
  unfold GetString; cbn [run]. destruct (d (b, n)) as [w|]; [destruct w; cbn|];
  (split; [intros E; (discriminate || (split; congruence))|intros [-> E]; (discriminate || congruence)]).
Qed.
Lemma run_gs_bind {B} b n (f : string -> prog B) d s : d (b, n) = Some (VStr s) -> run (bind (GetString b n) f) d = run (f s) d.
Proof. intros E. rewrite run_bind. rewrite (proj2 (run_gs b n d s d) (conj eq_refl E)). reflexivity. Qed.
Lemma run_gos_present b n e d s d' x : d (b, n) = Some (VStr x) -> run (GetOrAddString b n e) d = Some (s, d') -> s = x /\ d' = d.
Proof. intros E. unfold GetOrAddString; cbn [run]. rewrite E. cbn. intros K. split; congruence. Qed.

(** the defaults of ProcessBoundaryConditions *)
Definition bdefaults : deck := assoc
  ([ (("radiation", "method"), VStr "None"); (("coordinates", "derefine_poles"), VBool true) ]
   ++ map (fun n => (("phoebus", n), VStr "gr_outflow")) ["ix1_bc"; "ox1_bc"; "ix2_bc"; "ox2_bc"; "ix3_bc"; "ox3_bc"]).
Lemma wf_guard g : wf bdefaults (pole_guard g).
Proof. unfold pole_guard; wfs. Qed.
Lemma wf_faces l : wf bdefaults (all_faces l).
Proof.
  induction l as [|[d i] t IH]; cbn [all_faces]; [constructor|]. apply wf_bind; [|intros; exact IH].
  unfold face_reads; cbn [fst snd]. destruct d, i; cbn [face_entry]; wfs.
Qed.
Lemma wf_pbc g : wf bdefaults (ProcessBoundaryConditions g).
Proof. unfold ProcessBoundaryConditions. apply wf_bind; [wfs|intros]. apply wf_bind; [apply wf_guard|intros]. apply wf_faces. Qed.

Lemma faces_inv l d x : pure (all_faces l) d = Some x -> forall f, In f l -> exists n, asks d (fst f) (snd f) n.
Proof.
  induction l as [|g t IH]; cbn [all_faces]; intros E f []; [subst g|].
  - apply bind_some in E. destruct E as (u & E & _). unfold face_reads in E. apply bind_some in E. destruct E as (s & E & _). apply gs in E. exists s. exact E.
  - apply bind_some in E. destruct E as (u & _ & E). apply (IH E f H).
Qed.
Lemma in_faces dir inner : In (dir, inner) face_order.
Proof. destruct dir, inner; cbn; tauto. Qed.
Lemma bdefault_face dir inner : bdefaults ("phoebus", face_entry dir inner) = Some (VStr "gr_outflow").
Proof. destruct dir, inner; reflexivity. Qed.

Lemma pbc_some g d x d1 : run (ProcessBoundaryConditions g) d = Some (x, d1) ->
  pure (ProcessBoundaryConditions g) d = Some x /\ ext bdefaults d d1.
Proof.
  intros E. pose proof (run_pure bdefaults _ (wf_pbc g) d d (fun k => or_introl eq_refl)) as K. rewrite E in K. exact K.
Qed.
Lemma pbc_mesh g d x d1 : run (ProcessBoundaryConditions g) d = Some (x, d1) -> forall dir inner, exists n, asks d dir inner n.
Proof.
  intros E dir inner. apply pbc_some in E. destruct E as [E _]. unfold ProcessBoundaryConditions in E.
  apply bind_some in E. destruct E as (? & _ & E). apply bind_some in E. destruct E as (? & _ & E).
  apply (faces_inv _ _ _ E (dir, inner) (in_faces dir inner)).
Qed.
(** what FixFluxes will see *)
Lemma pbc_phoebus g d x d1 dir inner s : run (ProcessBoundaryConditions g) d = Some (x, d1) ->
  d1 ("phoebus", face_entry dir inner) = Some (VStr s) -> s = word d "phoebus" (face_entry dir inner) "gr_outflow".
Proof.
  intros E K. apply pbc_some in E. destruct E as [_ E]. unfold word. destruct (E ("phoebus", face_entry dir inner)) as [Q|[Q1 Q2]].
  - rewrite <- Q, K. reflexivity.
  - rewrite Q1. rewrite Q2, bdefault_face in K. congruence.
Qed.

Lemma fluid_run d fl d' : run fluid_bcs d = Some (fl, d') ->
  d' = d /\ forall dir inner, d ("phoebus", face_entry dir inner) = Some (VStr (fl dir inner)).
Proof.
  unfold fluid_bcs. intros E.
  repeat (apply run_bind_some in E; let a := fresh "s" in let d1 := fresh "d" in let Q := fresh "Q" in destruct E as (a & d1 & Q & E); apply run_gs in Q; destruct Q as [-> Q]).
  cbn [run] in E. injection E as <- <-. split; [reflexivity|]. intros [] []; assumption.
Qed.
Lemma mesh_run d fl d' : run mesh_bcs d = Some (fl, d') ->
  d' = d /\ forall dir inner, asks d dir inner (fl dir inner).
Proof.
  unfold mesh_bcs, asks. intros E.
  repeat (apply run_bind_some in E; let a := fresh "s" in let d1 := fresh "d" in let Q := fresh "Q" in destruct E as (a & d1 & Q & E); apply run_gs in Q; destruct Q as [-> Q]).
  cbn [run] in E. injection E as <- <-. split; [reflexivity|]. intros [] []; assumption.
Qed.
Lemma mocmc_run bc t d r d' x : d ("phoebus", bc) = Some (VStr x) -> run (mocmc_side bc t) d = Some (r, d') ->
  fst r = mocmc_boundary x /\ (x = "fixed_temp" -> snd r = number d "phoebus" t 0) /\ (x <> "fixed_temp" -> snd r = 0).
Proof.
  intros K E. unfold mocmc_side in E. apply run_bind_some in E. destruct E as (n & d1 & E1 & E).
  destruct (run_gos_present _ _ _ _ _ _ _ K E1) as [-> ->]. destruct (String.eqb x "fixed_temp") eqn:X.
  - apply String.eqb_eq in X. apply run_bind_some in E. destruct E as (t0 & d2 & E2 & E). cbn [run] in E. injection E as <- <-. cbn [fst snd].
    split; [reflexivity|]. split; [intros _|intros C; contradiction].
    unfold GetOrAddReal in E2; cbn [run] in E2. unfold number. destruct (d ("phoebus", t)) as [[]|]; cbn in E2; congruence.
  - apply String.eqb_neq in X. cbn [run] in E. injection E as <- <-. cbn [fst snd]. split; [reflexivity|]. split; [intros C; contradiction|reflexivity].
Qed.

(** the whole start-up, inverted *)
Lemma startup_inv g d b d' : run (boundary_startup g) d = Some (b, d') ->
  (forall dir inner, asks d dir inner (mesh_name b dir inner)) /\
  (forall dir inner, flux_name b dir inner = word d "phoebus" (face_entry dir inner) "gr_outflow") /\
  fst (sample_inner b) = mocmc_boundary (flux_name b D1 true) /\ fst (sample_outer b) = mocmc_boundary (flux_name b D1 false).
Proof.
  unfold boundary_startup. intros E.
  apply run_bind_some in E. destruct E as (u & d1 & E1 & E).
  apply run_bind_some in E. destruct E as (fl & d2 & E2 & E).
  apply run_bind_some in E. destruct E as (si & d3 & E3 & E).
  apply run_bind_some in E. destruct E as (so & d4 & E4 & E).
  apply run_bind_some in E. destruct E as (me & d5 & E5 & E).
  cbn [run] in E. injection E as <- <-. cbn [mesh_name flux_name sample_inner sample_outer].
  apply fluid_run in E2. destruct E2 as [-> F].
  pose proof (mocmc_run _ _ _ _ _ _ (F D1 true) E3) as M1.
  pose proof (run_keeps _ _ _ _ _ _ E3 (F D1 false)) as F1.
  pose proof (mocmc_run _ _ _ _ _ _ F1 E4) as M2.
  split; [|split; [|split; [apply M1|apply M2]]].
  - intros dir inner. destruct (pbc_mesh _ _ _ _ E1 dir inner) as (n & N). unfold asks in N.
    pose proof (run_keeps _ _ _ _ _ _ E1 N) as N1. pose proof (run_keeps _ _ _ _ _ _ E3 N1) as N3. pose proof (run_keeps _ _ _ _ _ _ E4 N3) as N4.
    apply mesh_run in E5. destruct E5 as [_ M]. specialize (M dir inner). unfold asks in *. congruence.
  - intros dir inner. apply (pbc_phoebus _ _ _ _ _ _ _ E1 (F dir inner)).
Qed.

(** the guard *)
Lemma guard_inv d x : pure (pole_guard true) d = Some x -> flag d "coordinates" "derefine_poles" true = true ->
  let a := word d "phoebus" "ix2_bc" "gr_outflow" in let b := word d "phoebus" "ox2_bc" "gr_outflow" in
  a <> "reflect" /\ a <> "polar" /\ b <> "reflect" /\ b <> "polar".
Proof.
  unfold pole_guard. intros E F. apply bind_some in E. destruct E as (p & E1 & E). apply gob in E1. rewrite F in E1. subst p.
  apply bind_some in E. destruct E as (a & E1 & E). apply bind_some in E. destruct E as (b & E2 & E). apply gos in E1, E2. subst a b.
  apply rq in E. apply andb_prop in E. destruct E as [E E4]. apply andb_prop in E. destruct E as [E E3]. apply andb_prop in E. destruct E as [E1 E2].
  apply negb_true_iff in E1, E2, E3, E4. cbv zeta. repeat split; apply String.eqb_neq; assumption.
Qed.
Lemma guard_ok g d : well_typed boundary_entries d ->
  (g = true -> flag d "coordinates" "derefine_poles" true = true ->
   let a := word d "phoebus" "ix2_bc" "gr_outflow" in let b := word d "phoebus" "ox2_bc" "gr_outflow" in
   a <> "reflect" /\ a <> "polar" /\ b <> "reflect" /\ b <> "polar") ->
  pure (pole_guard g) d = Some tt.
Proof.
  intros W K. unfold pole_guard. destruct g; [|reflexivity]. rewrite pure_bind, (gob' _ _ _ _ _ W) by (cbn; tauto).
  destruct (flag d "coordinates" "derefine_poles" true) eqn:F; [|reflexivity]. specialize (K eq_refl eq_refl). cbv zeta in K. destruct K as (K1 & K2 & K3 & K4).
  rewrite pure_bind, (gos' _ _ _ _ _ W) by (cbn; tauto). rewrite pure_bind, (gos' _ _ _ _ _ W) by (cbn; tauto).
  apply String.eqb_neq in K1, K2, K3, K4. rewrite K1, K2, K3, K4. reflexivity.
Qed.
Lemma faces_ok l d : well_typed boundary_entries d -> (forall dir inner, exists n, asks d dir inner n) -> pure (all_faces l) d = Some tt.
Proof.
  intros W A. induction l as [|[dir inner] t IH]; cbn [all_faces]; [reflexivity|]. rewrite pure_bind. unfold face_reads; cbn [fst snd].
  destruct (A dir inner) as (n & N). unfold asks in N. rewrite pure_bind. rewrite (proj2 (gs _ _ _ _) N). rewrite pure_bind.
  rewrite (gos' _ _ _ _ _ W) by (destruct dir, inner; cbn; tauto). cbn [pure]. exact IH.
Qed.
Lemma face_present f d x d' : run (face_reads f) d = Some (x, d') -> exists s, d' ("phoebus", face_entry (fst f) (snd f)) = Some (VStr s).
Proof.
  unfold face_reads. intros E. apply run_bind_some in E. destruct E as (a & d1 & _ & E). apply run_bind_some in E. destruct E as (s & d2 & E1 & E).
  cbn [run] in E. injection E as _ <-. unfold GetOrAddString in E1; cbn [run] in E1. destruct (d1 _) as [w|] eqn:K.
  - destruct w; cbn in E1; try discriminate. exists s0. congruence.
  - cbn in E1. injection E1 as _ <-. exists "gr_outflow". apply put_same.
Qed.
Lemma faces_present l : forall d x d' f, run (all_faces l) d = Some (x, d') -> In f l -> exists s, d' ("phoebus", face_entry (fst f) (snd f)) = Some (VStr s).
Proof.
  induction l as [|g t IH]; intros d x d' f E []; cbn [all_faces] in E; apply run_bind_some in E; destruct E as (u & d1 & E1 & E).
  - subst g. destruct (face_present _ _ _ _ E1) as (s & Q). exists s. apply (run_keeps _ _ _ _ _ _ E Q).
  - apply (IH _ _ _ f E H).
Qed.
Lemma startup_ok g d : well_typed boundary_entries d -> (forall dir inner, exists n, asks d dir inner n) ->
  (g = true -> flag d "coordinates" "derefine_poles" true = true ->
   let a := word d "phoebus" "ix2_bc" "gr_outflow" in let b := word d "phoebus" "ox2_bc" "gr_outflow" in
   a <> "reflect" /\ a <> "polar" /\ b <> "reflect" /\ b <> "polar") ->
  exists b d', run (boundary_startup g) d = Some (b, d').
Proof.
  intros W A K.
  assert (P : pure (ProcessBoundaryConditions g) d = Some tt).
  { unfold ProcessBoundaryConditions. rewrite pure_bind, (gos' _ _ _ _ _ W) by (cbn; tauto). rewrite pure_bind, (guard_ok g d W K). apply faces_ok; assumption. }
  pose proof (run_pure bdefaults _ (wf_pbc g) d d (fun k => or_introl eq_refl)) as R.
  destruct (run (ProcessBoundaryConditions g) d) as [[u d1]|] eqn:E1; [|congruence]. destruct R as [_ X].
  assert (Pr : forall dir inner, exists s, d1 ("phoebus", face_entry dir inner) = Some (VStr s)).
  { intros dir inner. pose proof E1 as E. unfold ProcessBoundaryConditions in E. apply run_bind_some in E. destruct E as (a & d2 & _ & E).
    apply run_bind_some in E. destruct E as (c & d3 & _ & E). apply (faces_present _ _ _ _ (dir, inner) E (in_faces dir inner)). }
  assert (Mo : forall bc t dd, (exists s, dd ("phoebus", bc) = Some (VStr s)) -> (forall v, dd ("phoebus", t) = Some v -> has_ty v TReal = true) -> exists r dd', run (mocmc_side bc t) dd = Some (r, dd')).
  { intros bc t dd (s & Q) T. unfold mocmc_side. rewrite run_bind. unfold GetOrAddString; cbn [run]. rewrite Q. cbn [as_str run].
    destruct (String.eqb s "fixed_temp"); [|cbn [run]; eauto]. rewrite run_bind. unfold GetOrAddReal; cbn [run].
    destruct (dd ("phoebus", t)) as [v|]; [specialize (T v eq_refl); destruct v; try discriminate; cbn; eauto|cbn; eauto]. }
  assert (T1 : forall t, bdefaults ("phoebus", t) = None -> In (("phoebus", t), TReal) boundary_entries -> forall v, d1 ("phoebus", t) = Some v -> has_ty v TReal = true).
  { intros t N I v V. destruct (X ("phoebus", t)) as [Q|[_ Q]]; [|congruence]. rewrite Q in V. apply (W _ _ _ I V). }
  unfold boundary_startup. rewrite run_bind, E1. rewrite run_bind.
  assert (Fl : exists fl, run fluid_bcs d1 = Some (fl, d1)).
  { unfold fluid_bcs. destruct (Pr D1 true) as (a1 & A1), (Pr D1 false) as (a2 & A2), (Pr D2 true) as (a3 & A3), (Pr D2 false) as (a4 & A4), (Pr D3 true) as (a5 & A5), (Pr D3 false) as (a6 & A6).
    eexists. rewrite (run_gs_bind _ _ _ _ _ A1), (run_gs_bind _ _ _ _ _ A2), (run_gs_bind _ _ _ _ _ A3), (run_gs_bind _ _ _ _ _ A4), (run_gs_bind _ _ _ _ _ A5), (run_gs_bind _ _ _ _ _ A6). reflexivity. }
  destruct Fl as (fl & ->). rewrite run_bind. destruct (Mo "ix1_bc" "ix1_temp" d1 (Pr D1 true)) as (r1 & d2 & E2).
  { apply T1; [reflexivity|cbn; tauto]. }
  rewrite E2, run_bind.
  assert (O2 : forall v, d2 ("phoebus", "ox1_temp") = Some v -> has_ty v TReal = true).
  { intros v V. apply (T1 "ox1_temp"); [reflexivity|cbn; tauto|]. rewrite <- V. symmetry.
    unfold mocmc_side in E2. destruct (Pr D1 true) as (s & Q). cbn [face_entry] in Q. rewrite run_bind in E2. unfold GetOrAddString in E2; cbn [run] in E2. rewrite Q in E2. cbn [as_str run] in E2.
    destruct (String.eqb s "fixed_temp"); [|cbn [run] in E2; congruence]. rewrite run_bind in E2. unfold GetOrAddReal in E2; cbn [run] in E2.
    destruct (d1 ("phoebus", "ix1_temp")) as [w|]; [destruct w; cbn in E2; try discriminate; congruence|]. cbn in E2. injection E2 as _ <-. apply put_other. discriminate. }
  destruct (Mo "ox1_bc" "ox1_temp" d2) as (r2 & d3 & E3); [|exact O2|].
  { destruct (Pr D1 false) as (s & Q). exists s. apply (run_keeps _ _ _ _ _ _ E2 Q). }
  rewrite E3, run_bind.
  assert (A3 : forall dir inner, exists n, asks d3 dir inner n).
  { intros dir inner. destruct (A dir inner) as (n & N). exists n. unfold asks in *. apply (run_keeps _ _ _ _ _ _ E3), (run_keeps _ _ _ _ _ _ E2), (run_keeps _ _ _ _ _ _ E1), N. }
  assert (Me : exists me, run mesh_bcs d3 = Some (me, d3)).
  { unfold mesh_bcs. unfold asks in A3. destruct (A3 D1 true) as (a1 & A1), (A3 D1 false) as (a2 & A2), (A3 D2 true) as (a3 & A3'), (A3 D2 false) as (a4 & A4), (A3 D3 true) as (a5 & A5), (A3 D3 false) as (a6 & A6).
    eexists. rewrite (run_gs_bind _ _ _ _ _ A1), (run_gs_bind _ _ _ _ _ A2), (run_gs_bind _ _ _ _ _ A3'), (run_gs_bind _ _ _ _ _ A4), (run_gs_bind _ _ _ _ _ A5), (run_gs_bind _ _ _ _ _ A6). reflexivity. }
  destruct Me as (me & ->). cbn [run]. eauto.
Qed.
