(** C68: a run starts only in a consistent configuration. *)
From Coq Require Import Reals String List Bool.
From Verif.Model Require Import Num Config Startup.
From Verif.Spec Require Import ConfigSpec StartupSpec.
From Verif.Proofs Require Import ConfigProofs BoundaryDeckProofs.
Import ListNotations.
Local Open Scope string_scope.

Lemma is_one_in m l : is_one m l = true <-> In m l.
Proof.
  unfold is_one. rewrite existsb_exists. split.
  - intros (x & I & E). assert (m = x) as -> by (destruct m, x; (reflexivity || discriminate)). exact I.
  - intros I. exists m. split; [exact I|destruct m; reflexivity].
Qed.
Lemma count_in n l : count_name n l = true <-> In n l.
Proof.
  unfold count_name. rewrite existsb_exists. split; [intros (x & I & E); apply String.eqb_eq in E; subst; exact I|intros I; exists n; split; [exact I|apply String.eqb_refl]].
Qed.
Lemma mono_in m : metric_eqb m MonopoleCart || metric_eqb m MonopoleSph = true <-> In m monopole_metrics.
Proof. destruct m; cbn; split; intros; try discriminate; try tauto; intuition discriminate. Qed.

(** the defaults *)
Definition sdefaults : deck := assoc
  [ (("monopole_gr", "enabled"), VBool false); (("tov", "enabled"), VBool false); (("progenitor", "enabled"), VBool false) ].
Lemma wf_main c m r : wf sdefaults (main_startup c m r).
Proof.
  unfold main_startup. apply wf_bind; [unfold ProblemModifier; wfs|intros md].
  apply wf_bind; [unfold process_packages; wfs|intros [[t mo] p]].
  destruct r; [constructor|]. apply wf_bind; [unfold ProblemGenerator; wfs|intros g]. apply wf_bind; [unfold PostInitializationModifier; wfs|intros; constructor].
Qed.

Lemma packages_inv m d r : pure (process_packages m) d = Some r ->
  r = (wants_tov d, wants_monopole d, wants_progenitor d) /\ gravity_consistent d m.
Proof.
  unfold process_packages. intros E.
  apply bind_some in E. destruct E as (mo & E1 & E). apply gob in E1. subst mo. fold (wants_monopole d) in E.
  apply bind_some in E. destruct E as (t & E1 & E). apply gob in E1. subst t. fold (wants_tov d) in E.
  apply bind_some in E. destruct E as (u & _ & E).
  apply bind_some in E. destruct E as (p & E1 & E). apply gob in E1. subst p. fold (wants_progenitor d) in E.
  cbv zeta in E. apply bind_some in E. destruct E as (u1 & R1 & E). apply rq in R1.
  apply bind_some in E. destruct E as (u2 & R2 & E). apply rq in R2.
  apply bind_some in E. destruct E as (u3 & R3 & E). apply rq in R3.
  cbn [pure] in E. injection E as <-. split; [reflexivity|]. unfold gravity_consistent. rewrite <- mono_in.
  destruct (wants_tov d), (wants_monopole d), (wants_progenitor d), (metric_eqb m MonopoleCart || metric_eqb m MonopoleSph) eqn:Q; cbn in R1, R2, R3; try discriminate; intuition discriminate.
Qed.
Lemma packages_ok m d : well_typed startup_entries d -> gravity_consistent d m ->
  pure (process_packages m) d = Some (wants_tov d, wants_monopole d, wants_progenitor d).
Proof.
  intros W (G1 & G2 & G3). unfold process_packages. rewrite <- mono_in in G1.
  rewrite pure_bind, (gob' _ _ _ _ _ W) by (cbn; tauto). rewrite pure_bind, (gob' _ _ _ _ _ W) by (cbn; tauto).
  fold (wants_tov d) (wants_monopole d). rewrite pure_bind.
  assert (T : pure (if wants_tov d then bind (GetOrAddBoolean "monopole_gr" "enabled" false) (fun x => Require x) else Ret tt) d = Some tt).
  { destruct (wants_tov d); [|reflexivity]. rewrite pure_bind, (gob' _ _ _ _ _ W) by (cbn; tauto). fold (wants_monopole d). rewrite G2 by reflexivity. reflexivity. }
  rewrite T. rewrite pure_bind, (gob' _ _ _ _ _ W) by (cbn; tauto). fold (wants_progenitor d). cbv zeta.
  destruct (metric_eqb m MonopoleCart || metric_eqb m MonopoleSph) eqn:Q; destruct (wants_tov d), (wants_monopole d), (wants_progenitor d); cbn; try reflexivity;
  exfalso; intuition discriminate.
Qed.

(** the generators' own lists agree with the table *)
Lemma pgen_spec cached name m : In name pgen_names -> name <> "phoebus" ->
  (pgen_metric cached name m = true <-> set_up_for name m /\ (name = "check_cached_geom" -> cached = true)).
Proof.
  intros I N. unfold pgen_names in I. cbn [In] in I.
  assert (K : forall l, In (name, l) problem_table -> (forall l', In (name, l') problem_table -> l' = l) ->
     (set_up_for name m <-> In m l)).
  { intros l Il U. unfold set_up_for. split; [intros (l' & I1 & I2); rewrite <- (U _ I1); exact I2|intros I2; exists l; tauto]. }
  repeat (destruct I as [<-|I]; [|]); [congruence|..|destruct I];
  (erewrite K; [|unfold problem_table; cbn [In]; eauto 30|unfold problem_table; cbn [In]; intros l' P; repeat (destruct P as [P|P]; [first [discriminate P|injection P as <-; reflexivity]|]); destruct P]);
  unfold pgen_metric; cbn [String.eqb Ascii.eqb Bool.eqb]; rewrite ?is_one_in; destruct m; cbn; split; intros; intuition (try discriminate; try congruence).
Qed.

Definition starts (cached : bool) (m : Metric) (restart : bool) (d : deck) (s : Started) : Prop :=
  exists d', run (main_startup cached m restart) d = Some (s, d').
Lemma starts_pure c m r d s : starts c m r d s <-> pure (main_startup c m r) d = Some s.
Proof.
  unfold starts. rewrite <- (run_pure0 sdefaults _ d (wf_main c m r)). destruct (run (main_startup c m r) d) as [[a d']|]; cbn; split.
  - intros (x & E). congruence.
  - intros E. exists d'. congruence.
  - intros (x & E). discriminate.
  - discriminate.
Qed.
Lemma modifier_val d name l : d ("phoebus", "problem") = Some (VStr name) ->
  pure (bind (GetString "phoebus" "problem") (fun name => if String.eqb name "phoebus" || negb (count_name name l) then Ret None else Ret (Some name))) d =
  Some (if String.eqb name "phoebus" || negb (count_name name l) then None else Some name).
Proof. intros E. rewrite pure_bind, (proj2 (gs _ _ _ _) E). destruct (_ || _); reflexivity. Qed.
Lemma pick name l : name <> "phoebus" -> let r := if String.eqb name "phoebus" || negb (count_name name ("phoebus" :: l)) then None else Some name in
  r = Some name /\ In name l \/ r = None /\ ~ In name l.
Proof.
  intros N r. unfold r. rewrite (proj2 (String.eqb_neq _ _) N). rewrite orb_false_l. destruct (count_name name ("phoebus" :: l)) eqn:C.
  - left. split; [reflexivity|]. apply count_in in C. destruct C as [C|C]; [congruence|exact C].
  - right. split; [reflexivity|]. intros I. assert (K : count_name name ("phoebus" :: l) = true) by (apply count_in; right; exact I). congruence.
Qed.
Lemma in_table name m : set_up_for name m -> In name pgen_names /\ name <> "phoebus".
Proof.
  intros (l & I & _). unfold problem_table in I. cbn [In] in I.
  repeat (destruct I as [I|I]; [injection I as <- _; split; [unfold pgen_names; cbn [In]; tauto|discriminate]|]). destruct I.
Qed.

(** A fresh run starts exactly if the deck names one of the problems, the executable's metric is one that problem is set up
    for, gravity is consistent, and the star that the problem needs is there. *)
Theorem C68_starts : forall cached m d name, well_typed startup_entries d -> d ("phoebus", "problem") = Some (VStr name) ->
  (exists s, starts cached m false d s) <->
  (set_up_for name m /\ (name = "check_cached_geom" -> cached = true) /\ gravity_consistent d m /\
   (name = "tov" -> wants_tov d = true) /\ (name = "homologous" -> wants_progenitor d = true)).
Proof.
  intros cached m d name W N. split.
  - intros (s & S). apply starts_pure in S. unfold main_startup in S. apply bind_some in S. destruct S as (md & _ & S).
    apply bind_some in S. destruct S as (pk & P & S). apply packages_inv in P. destruct P as [-> G]. apply bind_some in S. destruct S as (g & S1 & _).
    unfold ProblemGenerator in S1. apply bind_some in S1. destruct S1 as (n & E & S1). apply gs in E. assert (n = name) as -> by congruence.
    apply bind_some in S1. destruct S1 as (u & R1 & S1). apply rq in R1. apply bind_some in S1. destruct S1 as (u2 & R2 & S1). apply rq in R2.
    apply bind_some in S1. destruct S1 as (u3 & R3 & S1). apply rq in R3.
    apply negb_true_iff, orb_false_iff in R1. destruct R1 as [N1 N2]. apply String.eqb_neq in N1. apply negb_false_iff, count_in in N2.
    apply (pgen_spec cached name m N2 N1) in R2. destruct R2 as [R2 R2']. split; [exact R2|]. split; [exact R2'|]. split; [exact G|].
    unfold pgen_packages in R3. split; intros ->; cbn in R3; [apply andb_prop in R3; tauto|exact R3].
  - intros (S & C & G & T & H). destruct (in_table _ _ S) as [I Np].
    eexists. apply starts_pure. unfold main_startup. rewrite pure_bind. unfold ProblemModifier. rewrite (modifier_val _ _ _ N).
    rewrite pure_bind, (packages_ok m d W G). rewrite pure_bind.
    assert (Pg : pure (ProblemGenerator cached m (wants_tov d) (wants_monopole d) (wants_progenitor d)) d = Some (Some name)).
    { unfold ProblemGenerator. rewrite pure_bind, (proj2 (gs _ _ _ _) N). rewrite pure_bind.
      assert (R1 : negb (String.eqb name "phoebus" || negb (count_name name pgen_names)) = true).
      { rewrite (proj2 (String.eqb_neq _ _) Np), (proj2 (count_in _ _) I). reflexivity. }
      rewrite R1. cbn [Require pure]. rewrite pure_bind, (proj2 (pgen_spec cached name m I Np) (conj S C)). cbn [Require pure]. rewrite pure_bind.
      assert (R3 : pgen_packages name (wants_tov d) (wants_monopole d) (wants_progenitor d) = true).
      { unfold pgen_packages. destruct (String.eqb name "tov") eqn:E1; [apply String.eqb_eq in E1; specialize (T E1); rewrite T; cbn; apply G, T|].
        destruct (String.eqb name "homologous") eqn:E2; [apply String.eqb_eq in E2; apply H, E2|reflexivity]. }
      rewrite R3. reflexivity. }
    rewrite Pg. unfold PostInitializationModifier. rewrite pure_bind, (modifier_val _ _ _ N). reflexivity.
Qed.
Print Assumptions C68_starts.

(** The problem that runs is the one named; only torus and radiation_advection change the deck before, only advection and torus
    the data after. *)
Theorem C68_problem : forall cached m d name s, d ("phoebus", "problem") = Some (VStr name) -> starts cached m false d s ->
  s_generator s = Some name /\
  (s_modifier s = Some name /\ In name ["torus"; "radiation_advection"] \/ s_modifier s = None /\ ~ In name ["torus"; "radiation_advection"]) /\
  (s_postinit s = Some name /\ In name ["advection"; "torus"] \/ s_postinit s = None /\ ~ In name ["advection"; "torus"]).
Proof.
  intros cached m d name s N S. apply starts_pure in S. unfold main_startup in S. apply bind_some in S. destruct S as (md & M & S).
  apply bind_some in S. destruct S as (pk & P & S). destruct pk as [[t mo] p]. apply bind_some in S. destruct S as (g & S1 & S).
  apply bind_some in S. destruct S as (q & Q & S). cbn [pure] in S. injection S as <-. cbn [s_generator s_modifier s_postinit].
  unfold ProblemModifier in M. rewrite (modifier_val _ _ _ N) in M. injection M as <-.
  unfold PostInitializationModifier in Q. rewrite (modifier_val _ _ _ N) in Q. injection Q as <-.
  unfold ProblemGenerator in S1. apply bind_some in S1. destruct S1 as (n & E & S1). apply gs in E. assert (n = name) as -> by congruence.
  apply bind_some in S1. destruct S1 as (u & R1 & S1). apply rq in R1. apply bind_some in S1. destruct S1 as (u2 & _ & S1).
  apply bind_some in S1. destruct S1 as (u3 & _ & S1). cbn [pure] in S1. injection S1 as <-. split; [reflexivity|].
  apply negb_true_iff, orb_false_iff in R1. destruct R1 as [N1 _]. apply String.eqb_neq in N1.
  split; [apply (pick name ["torus"; "radiation_advection"] N1)|apply (pick name ["advection"; "torus"] N1)].
Qed.
Print Assumptions C68_problem.

(** On a restart only gravity is checked: the deck may name any problem, known or not, and the executable may have any metric
    with consistent gravity - a torus restarts in flat space. *)
Theorem C68_restart_refuted : forall cached m d name, well_typed startup_entries d -> d ("phoebus", "problem") = Some (VStr name) ->
  ((exists s, starts cached m true d s) <-> gravity_consistent d m) /\
  (forall s, starts cached m true d s -> s_generator s = None /\ s_postinit s = None).
Proof.
  intros cached m d name W N. split; [split|].
  - intros (s & S). apply starts_pure in S. unfold main_startup in S. apply bind_some in S. destruct S as (md & _ & S).
    apply bind_some in S. destruct S as (pk & P & S). apply packages_inv in P. tauto.
  - intros G. eexists. apply starts_pure. unfold main_startup. rewrite pure_bind. unfold ProblemModifier. rewrite (modifier_val _ _ _ N).
    rewrite pure_bind, (packages_ok m d W G). reflexivity.
  - intros s S. apply starts_pure in S. unfold main_startup in S. apply bind_some in S. destruct S as (md & _ & S).
    apply bind_some in S. destruct S as (pk & P & S). destruct pk as [[t mo] p]. cbn [pure] in S. injection S as <-. split; reflexivity.
Qed.
Print Assumptions C68_restart_refuted.

(** decks *)
Definition torus_deck : deck := assoc [(("phoebus", "problem"), VStr "torus")].
Definition tov_deck : deck := assoc [(("phoebus", "problem"), VStr "tov"); (("tov", "enabled"), VBool true); (("monopole_gr", "enabled"), VBool true)].
Example C68_starts_nonvacuous :
  well_typed startup_entries torus_deck /\ well_typed startup_entries tov_deck /\
  (exists s, starts false FMKS false torus_deck s) /\ ~ (exists s, starts false Minkowski false torus_deck s) /\
  (exists s, starts false Minkowski true torus_deck s) /\
  (exists s, starts false MonopoleSph false tov_deck s) /\ ~ (exists s, starts false FMKS false tov_deck s).
Proof.
  assert (W1 : well_typed startup_entries torus_deck) by (intros k t v [I|[I|[I|[]]]] E; injection I as <- <-; cbv in E; discriminate).
  assert (W2 : well_typed startup_entries tov_deck) by (intros k t v [I|[I|[I|[]]]] E; injection I as <- <-; cbv in E; (discriminate || (injection E as <-; reflexivity))).
  assert (G1 : gravity_consistent torus_deck FMKS) by (split; [split; [discriminate|intros [K|[K|[]]]; discriminate]|split; discriminate]).
  assert (G1' : gravity_consistent torus_deck Minkowski) by (split; [split; [discriminate|intros [K|[K|[]]]; discriminate]|split; discriminate]).
  assert (G2 : gravity_consistent tov_deck MonopoleSph) by (split; [split; [intros _; left; reflexivity|intros _; reflexivity]|split; [intros _; reflexivity|intros _; left; reflexivity]]).
  split; [exact W1|]. split; [exact W2|]. split; [|split; [|split; [|split]]].
  - apply (C68_starts false FMKS torus_deck "torus" W1 eq_refl). split; [exists [FMKS]; split; [cbn; tauto|left; reflexivity]|].
    split; [discriminate|]. split; [exact G1|]. split; discriminate.
  - rewrite (C68_starts false Minkowski torus_deck "torus" W1 eq_refl). intros ((l & I & J) & _). unfold problem_table in I. cbn [In] in I.
    repeat (destruct I as [I|I]; [first [discriminate I|injection I as <-; destruct J as [J|[]]; discriminate J]|]). destruct I.
  - apply (C68_restart_refuted false Minkowski torus_deck "torus" W1 eq_refl), G1'.
  - apply (C68_starts false MonopoleSph tov_deck "tov" W2 eq_refl). split; [exists monopole_metrics; split; [cbn; tauto|left; reflexivity]|].
    split; [discriminate|]. split; [exact G2|]. split; [reflexivity|discriminate].
  - rewrite (C68_starts false FMKS tov_deck "tov" W2 eq_refl). intros (_ & _ & (G & _) & _). destruct (proj1 G eq_refl) as [K|[K|[]]]; discriminate.
Qed.
