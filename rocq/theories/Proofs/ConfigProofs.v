(** Reading a deck is a function of what the user wrote. *)
From Coq Require Import Reals String ZArith List Bool.
From Flocq Require Import Core.
From Verif.Model Require Import Num Robust Floors Config.
From Verif.Spec Require Import ConfigSpec.
Import ListNotations.
Local Open Scope string_scope.
Local Open Scope R_scope.

Lemma key_eqb_eq a b : key_eqb a b = true <-> a = b.
Proof.
  destruct a as [a1 a2], b as [b1 b2]; unfold key_eqb; cbn [fst snd]. rewrite andb_true_iff, !String.eqb_eq.
  split; [intros [-> ->]; reflexivity|intros E; injection E; auto].
Qed.
Lemma put_same d k v : put d k v k = Some v.
Proof. unfold put. destruct (key_eqb k k) eqn:E; [reflexivity|]. assert (key_eqb k k = true) by (apply key_eqb_eq; reflexivity). congruence. Qed.
Lemma put_other d k v k' : k' <> k -> put d k v k' = d k'.
Proof. unfold put; intros H. destruct (key_eqb k' k) eqn:E; [apply key_eqb_eq in E; contradiction|reflexivity]. Qed.

(** user entries survive *)
Lemma run_keeps {A} (p : prog A) : forall d a d' k v, run p d = Some (a, d') -> d k = Some v -> d' k = Some v.
Proof.
  induction p as [a0| |k0 c IH|k0 v0 c IH]; cbn [run]; intros d a d' k v E H.
  - inversion E; subst; assumption.
  - discriminate.
  - destruct (d k0) eqn:E0; [eauto|discriminate].
  - destruct (d k0) eqn:E0; [eauto|]. eapply IH; [eassumption|]. rewrite put_other; [assumption|]. intros ->; congruence.
Qed.
Lemma run_again {A} (p : prog A) : forall d a d', run p d = Some (a, d') -> run p d' = Some (a, d').
Proof.
  induction p as [a0| |k0 c IH|k0 v0 c IH]; cbn [run]; intros d a d' E.
  - inversion E; subst; reflexivity.
  - discriminate.
  - destruct (d k0) eqn:E0; [|discriminate]. rewrite (run_keeps _ _ _ _ _ _ E E0). eapply IH, E.
  - destruct (d k0) eqn:E0.
    + rewrite (run_keeps _ _ _ _ _ _ E E0). eapply IH, E.
    + rewrite (run_keeps _ _ _ _ k0 v0 E (put_same _ _ _)). eapply IH, E.
Qed.

(** stateless reading *)
Fixpoint pure {A} (p : prog A) (d : deck) : option A :=
  match p with
  | Ret a => Some a | Fail => None
  | Get k c => match d k with Some v => pure (c v) d | None => None end
  | GetOrAdd k v c => pure (c (match d k with Some w => w | None => v end)) d
  end.
Inductive wf (D : deck) {A} : prog A -> Prop :=
| wf_Ret a : wf D (Ret a) | wf_Fail : wf D Fail
| wf_Get k c : D k = None -> (forall v, wf D (c v)) -> wf D (Get k c)
| wf_GetOrAdd k v c : D k = Some v -> (forall w, wf D (c w)) -> wf D (GetOrAdd k v c).
Definition ext (D d d' : deck) : Prop := forall k, d' k = d k \/ (d k = None /\ d' k = D k).

Lemma run_pure {A} (D : deck) (p : prog A) : wf D p -> forall d d', ext D d d' ->
  match run p d' with Some (a, d'') => pure p d = Some a /\ ext D d d'' | None => pure p d = None end.
Proof.
  induction 1 as [a| |k c Hk Hc IH|k v c Hk Hc IH]; intros d d' He; cbn [run pure].
  - split; [reflexivity|assumption].
  - reflexivity.
  - destruct (He k) as [E|[E1 E2]].
    + rewrite E. destruct (d k); [apply IH; assumption|reflexivity].
    + rewrite E2, Hk, E1; reflexivity.
  - destruct (He k) as [E|[E1 E2]].
    + rewrite E. destruct (d k) eqn:Ed; [apply IH; assumption|].
      apply IH. intros k'. destruct (key_eqb k' k) eqn:Ek; unfold put; rewrite Ek; [apply key_eqb_eq in Ek; subst k'; right; auto|apply He].
    + rewrite E2, Hk, E1. apply IH; assumption.
Qed.
Lemma run_pure0 {A} (D : deck) (p : prog A) d : wf D p -> option_map fst (run p d) = pure p d.
Proof.
  intros H. pose proof (run_pure D p H d d (fun k => or_introl eq_refl)) as E. destruct (run p d) as [[a d']|]; cbn; [symmetry; apply E|symmetry; exact E].
Qed.
Lemma pure_bind {A B} (p : prog A) (f : A -> prog B) d :
  pure (bind p f) d = match pure p d with Some a => pure (f a) d | None => None end.
Proof. induction p as [a| |k c IH|k v c IH]; cbn [bind pure]; [reflexivity|reflexivity| |apply IH]. destruct (d k); [apply IH|reflexivity]. Qed.
Lemma wf_bind {A B} D (p : prog A) (f : A -> prog B) : wf D p -> (forall a, wf D (f a)) -> wf D (bind p f).
Proof. intros H Hf. induction H; cbn [bind]; [apply Hf|constructor|constructor; auto|constructor; auto]. Qed.
Lemma bind_some {A B} (p : prog A) (f : A -> prog B) d r : pure (bind p f) d = Some r ->
  exists a, pure p d = Some a /\ pure (f a) d = Some r.
Proof. rewrite pure_bind. destruct (pure p d); [eauto|discriminate]. Qed.

Lemma gob d b n e x : pure (GetOrAddBoolean b n e) d = Some x -> x = flag d b n e.
Proof. unfold GetOrAddBoolean, flag; cbn [pure]. destruct (d (b, n)) as [[]|]; cbn; congruence. Qed.
Lemma gor d b n e x : pure (GetOrAddReal b n e) d = Some x -> x = number d b n e.
Proof. unfold GetOrAddReal, number; cbn [pure]. destruct (d (b, n)) as [[]|]; cbn; congruence. Qed.
Lemma goi d b n e x : pure (GetOrAddInteger b n e) d = Some x -> x = count d b n e.
Proof. unfold GetOrAddInteger, count; cbn [pure]. destruct (d (b, n)) as [[]|]; cbn; congruence. Qed.
Lemma gos d b n e x : pure (GetOrAddString b n e) d = Some x -> x = word d b n e.
Proof. unfold GetOrAddString, word; cbn [pure]. destruct (d (b, n)) as [[]|]; cbn; congruence. Qed.
Lemma gb d b n x : pure (GetBoolean b n) d = Some x <-> d (b, n) = Some (VBool x).
Proof. unfold GetBoolean; cbn [pure]. destruct (d (b, n)) as [[]|]; cbn; split; congruence. Qed.
Lemma gr d b n x : pure (GetReal b n) d = Some x <-> d (b, n) = Some (VReal x).
Proof. unfold GetReal; cbn [pure]. destruct (d (b, n)) as [[]|]; cbn; split; congruence. Qed.
Lemma gi d b n x : pure (GetInteger b n) d = Some x <-> d (b, n) = Some (VInt x).
Proof. unfold GetInteger; cbn [pure]. destruct (d (b, n)) as [[]|]; cbn; split; congruence. Qed.
Lemma gs d b n x : pure (GetString b n) d = Some x <-> d (b, n) = Some (VStr x).
Proof. unfold GetString; cbn [pure]. destruct (d (b, n)) as [[]|]; cbn; split; congruence. Qed.
Lemma rq (b : bool) d x : pure (Require b) d = Some x <-> b = true.
Proof. destruct b, x; cbn; split; congruence. Qed.

(** the other way: well-typed entries are read *)
Lemma gob' l d b n e : well_typed l d -> In ((b, n), TBool) l -> pure (GetOrAddBoolean b n e) d = Some (flag d b n e).
Proof. intros W I. unfold GetOrAddBoolean, flag; cbn [pure]. destruct (d (b, n)) as [w|] eqn:E; [|reflexivity]. specialize (W _ _ w I E). destruct w; cbn in *; congruence. Qed.
Lemma gor' l d b n e : well_typed l d -> In ((b, n), TReal) l -> pure (GetOrAddReal b n e) d = Some (number d b n e).
Proof. intros W I. unfold GetOrAddReal, number; cbn [pure]. destruct (d (b, n)) as [w|] eqn:E; [|reflexivity]. specialize (W _ _ w I E). destruct w; cbn in *; congruence. Qed.
Lemma gos' l d b n e : well_typed l d -> In ((b, n), TStr) l -> pure (GetOrAddString b n e) d = Some (word d b n e).
Proof. intros W I. unfold GetOrAddString, word; cbn [pure]. destruct (d (b, n)) as [w|] eqn:E; [|reflexivity]. specialize (W _ _ w I E). destruct w; cbn in *; congruence. Qed.

(** all defaults used by the fluid and fixup packages *)
Fixpoint assoc (l : list (key * val)) : deck :=
  match l with [] => fun _ => None | (k, v) :: t => fun k' => if key_eqb k' k then Some v else assoc t k' end.
Definition defaults : deck := assoc
  (map (fun n => (("fixup", n), VBool false))
     [ "enable_flux_fixup"; "enable_ox1_fmks_inflow_check"; "enable_fixup"; "enable_floors"; "enable_c2p_fixup";
       "enable_source_fixup"; "enable_ceilings"; "report_c2p_fails"; "report_source_fails"; "enable_mhd_floors";
       "enable_rad_floors"; "enable_rad_ceilings"; "enable_phi_enforcement"; "c2p_failure_force_fixup_both" ]
  ++ map (fun n => (("fixup", n), VStr "interpolate")) ["fluid_c2p_failure_strategy"; "rad_c2p_failure_strategy"; "src_failure_strategy"]
  ++ map (fun n => (("fixup", n), VReal 0)) ["rho0_floor"; "sie0_floor"; "u0_floor"; "J0_floor"]
  ++ [ (("fluid", "mhd"), VBool false); (("physics", "rad"), VBool false);
       (("fixup", "enforced_phi_timescale"), VReal 1000); (("fixup", "enforced_phi_cadence"), VReal 10);
       (("fixup", "enforced_phi_start_time"), VReal 175); (("fixup", "rho_exp_floor"), VReal (-2));
       (("fixup", "sie_exp_floor"), VReal (-1)); (("fixup", "u_exp_floor"), VReal (-3));
       (("fixup", "ceiling_type"), VStr "ConstantGamSie"); (("fixup", "gam0_ceiling"), VReal 1000);
       (("fixup", "sie0_ceiling"), VReal 100); (("fixup", "J_exp_floor"), VReal (-2));
       (("fixup", "radiation_ceiling_type"), VStr "ConstantXi0"); (("fixup", "xi0_ceiling"), VReal (99 / 100));
       (("fixup", "tau0_ceiling"), VReal 100000); (("fixup", "mhd_ceiling_type"), VStr "ConstantBsqRat");
       (("fixup", "bsqorho0_ceiling"), VReal 50); (("fixup", "bsqou0_ceiling"), VReal 2500);
       (("fluid", "zero_fluxes"), VBool false); (("fluid", "zero_sources"), VBool false); (("fluid", "cfl"), VReal (8 / 10));
       (("fluid", "c2p_method"), VStr "robust"); (("fluid", "c2p_tol"), VReal (1 / 100000000)); (("fluid", "c2p_max_iter"), VInt 20);
       (("fluid", "c2p_floor_scale_fac"), VReal 1); (("fluid", "c2p_fail_on_floors"), VBool false);
       (("fluid", "c2p_fail_on_ceilings"), VBool false); (("fluid", "recon"), VStr "linear"); (("fluid", "riemann"), VStr "hll");
       (("fluid", "Ye"), VBool false); (("fluid", "sigma_cutoff"), VReal 1); (("phoebus/mesh", "bc_vars"), VStr "conserved") ]).

Lemma wf_as_bool D v : wf D (as_bool v). Proof. destruct v; constructor. Qed.
Lemma wf_as_real D v : wf D (as_real v). Proof. destruct v; constructor. Qed.
Lemma wf_as_int D v : wf D (as_int v). Proof. destruct v; constructor. Qed.
Lemma wf_as_str D v : wf D (as_str v). Proof. destruct v; constructor. Qed.
Lemma wf_req D b : wf D (Require b). Proof. destruct b; constructor. Qed.
#[export] Hint Resolve wf_as_bool wf_as_real wf_as_int wf_as_str wf_req : wfdb.
Ltac wfs := repeat first
  [ apply wf_Ret | apply wf_Fail | apply wf_req
  | apply wf_bind; [|intros ?]
  | apply wf_Get; [reflexivity|intros ?; auto with wfdb]
  | apply wf_GetOrAdd; [reflexivity|intros ?; auto with wfdb]
  | match goal with
    | |- wf _ (if ?b then _ else _) => destruct b
    | |- wf _ (match ?o with None => _ | Some _ => _ end) => destruct o
    | |- wf _ (let _ := _ in _) => cbv zeta
    end ].
Lemma wf_phi g : wf defaults (read_phi g). Proof. unfold read_phi; wfs. Qed.
Lemma wf_floor e : wf defaults (read_floor e). Proof. unfold read_floor; wfs. Qed.
Lemma wf_ceiling e : wf defaults (read_ceiling e). Proof. unfold read_ceiling; wfs. Qed.
Lemma wf_rfloor e : wf defaults (read_rad_floor e). Proof. unfold read_rad_floor; wfs. Qed.
Lemma wf_rceiling e : wf defaults (read_rad_ceiling e). Proof. unfold read_rad_ceiling; wfs. Qed.
Lemma wf_mceiling e : wf defaults (read_mhd_ceiling e). Proof. unfold read_mhd_ceiling; wfs. Qed.
Lemma wf_strat n : In n ["fluid_c2p_failure_strategy"; "rad_c2p_failure_strategy"; "src_failure_strategy"] -> wf defaults (read_strategy n).
Proof. intros [<-|[<-|[<-|[]]]]; unfold read_strategy; wfs. Qed.
Lemma wf_fixup g : wf defaults (fixup_Initialize g).
Proof.
  unfold fixup_Initialize; wfs; first [apply wf_phi|apply wf_floor|apply wf_ceiling|apply wf_rfloor|apply wf_rceiling|apply wf_mceiling
    |apply wf_strat; cbn; tauto].
Qed.
Lemma wf_fluid n : wf defaults (fluid_Initialize n).
Proof. unfold fluid_Initialize, read_active, read_recon; wfs. Qed.
