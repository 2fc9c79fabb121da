(** C58, second part: fluid options, restarts, order of the packages, concrete decks. *)
From Coq Require Import Reals String ZArith List Bool Lra Psatz.
From Flocq Require Import Core.
From Verif.Model Require Import Num Robust Floors Config.
From Verif.Spec Require Import ConfigSpec.
From Verif.Proofs Require Import NumR ConfigProofs.
From Verif.Properties Require Import P_Config.
Import ListNotations.
Local Open Scope string_scope.
Local Open Scope R_scope.

(** The method names a user may write, and what each selects *)
Definition recon_name (r : ReconType) : list string :=
  match r with rt_weno5z => ["weno5"; "weno5z"] | rt_mp5 => ["mp5"] | rt_linear => ["linear"] | rt_constant => ["constant"] end.
Definition riemann_name (s : solver) : string := match s with LLF => "llf" | HLL => "hll" end.
Definition c2p_name (m : C2PMethod) : string := match m with c2p_robust => "robust" | c2p_classic => "classic" end.

(** An accepted deck runs the fluid with the methods it names: five-point stencils only with at
    least four ghost zones, c2p floors never above the floors of ApplyFloors *)
Theorem C58_fluid : forall ng d p d', run (fluid_Initialize ng) d = Some (p, d') ->
  f_Ye p = flag d "fluid" "Ye" false /\ f_mhd p = flag d "fluid" "mhd" false /\
  f_sigma_cutoff p = number d "fluid" "sigma_cutoff" 1 /\
  word d "phoebus/mesh" "bc_vars" "conserved" = (if f_bc_primitive p then "primitive" else "conserved") /\
  map (fun n => d ("phoebus", n)) ["ix1_bc"; "ox1_bc"; "ix2_bc"; "ox2_bc"; "ix3_bc"; "ox3_bc"] = map (fun s => Some (VStr s)) (f_bcs p) /\
  exists act, d ("physics", "hydro") = Some (VBool act) /\
  match f_active p with
  | None => act = false
  | Some a => act = true /\
    f_zero_fluxes a = flag d "fluid" "zero_fluxes" false /\ f_zero_sources a = flag d "fluid" "zero_sources" false /\
    f_cfl a = number d "fluid" "cfl" (8 / 10) /\ f_c2p_tol a = number d "fluid" "c2p_tol" (1 / 100000000) /\
    f_c2p_max_iter a = count d "fluid" "c2p_max_iter" 20 /\
    f_c2p_floor_scale_fac a = number d "fluid" "c2p_floor_scale_fac" 1 /\ 0 < f_c2p_floor_scale_fac a <= 1 /\
    f_fail_on_floors a = flag d "fluid" "c2p_fail_on_floors" false /\ f_fail_on_ceilings a = flag d "fluid" "c2p_fail_on_ceilings" false /\
    word d "fluid" "c2p_method" "robust" = c2p_name (f_c2p_method a) /\
    word d "fluid" "riemann" "hll" = riemann_name (f_RiemannSolver a) /\
    In (word d "fluid" "recon" "linear") (recon_name (f_Recon a)) /\
    (f_Recon a = rt_weno5z \/ f_Recon a = rt_mp5 -> (4 <= ng)%Z)
  end.
Proof.
  intros ng d p d' H. assert (P : pure (fluid_Initialize ng) d = Some p).
  { rewrite <- (run_pure0 defaults _ d (wf_fluid ng)), H; reflexivity. }
  clear H. unfold fluid_Initialize in P.
  bs P act. bs P ap. bs P ye. bs P mhd. bs P sc. bs P bv. bs P prim. bs P b1. bs P b2. bs P b3. bs P b4. bs P b5. bs P b6. bs P nx3. bs P ndim. bs P z.
  cbn [pure] in P. use. apply (f_equal (fun o => match o with Some x => x | None => p end)) in P. subst p.
  cbn [f_Ye f_mhd f_sigma_cutoff f_bc_primitive f_bcs f_active map].
  split; [assumption|]. split; [assumption|]. split; [assumption|].
  split. { rewrite <- Ebv. destruct (String.eqb_spec bv "conserved") as [->|]; [injection Eprim as <-; reflexivity|].
    destruct (String.eqb_spec bv "primitive") as [->|]; [injection Eprim as <-; reflexivity|discriminate]. }
  split; [rewrite Eb1, Eb2, Eb3, Eb4, Eb5, Eb6; reflexivity|].
  exists act. split; [assumption|]. destruct act; [|injection Eap as <-; reflexivity].
  bs Eap q. injection Eap as <-. split; [reflexivity|]. unfold read_active in Eq.
  bs Eq zf. bs Eq zs. bs Eq cfl. bs Eq m. bs Eq c2p. bs Eq tol. bs Eq it. bs Eq fac. bs Eq u. bs Eq ff. bs Eq fc. bs Eq rt. bs Eq s. bs Eq rs.
  use. apply (f_equal (fun o => match o with Some x => x | None => q end)) in Eq. cbn [pure] in Eq. subst q.
  cbn [f_zero_fluxes f_zero_sources f_cfl f_c2p_method f_c2p_tol f_c2p_max_iter f_c2p_floor_scale_fac f_fail_on_floors f_fail_on_ceilings f_Recon f_RiemannSolver].
  repeat (split; [assumption|]). apply andb_true_iff in Eu. destruct Eu as [U1 U2].
  split. { destruct (Rle_bool_spec fac 1); [|discriminate]. destruct (Rlt_bool_spec 0 fac); [lra|discriminate]. }
  repeat (split; [assumption|]).
  split. { rewrite <- Em. destruct (String.eqb_spec m "robust") as [->|]; [injection Ec2p as <-; reflexivity|].
    destruct (String.eqb_spec m "classic") as [->|]; [injection Ec2p as <-; reflexivity|discriminate]. }
  split. { rewrite <- Es. destruct (String.eqb_spec s "llf") as [->|]; [injection Ers as <-; reflexivity|].
    destruct (String.eqb_spec s "hll") as [->|]; [injection Ers as <-; reflexivity|discriminate]. }
  unfold read_recon in Ert. bs Ert w. use. rewrite <- Ew.
  destruct (String.eqb_spec w "weno5") as [->|N1]; [|destruct (String.eqb_spec w "weno5z") as [->|N2];
   [|destruct (String.eqb_spec w "mp5") as [->|N3]; [|destruct (String.eqb_spec w "linear") as [->|N4];
    [|destruct (String.eqb_spec w "constant") as [->|N5]; [|discriminate Ert]]]]]; cbn [orb] in Ert;
  try (bs Ert y; use; apply Z.leb_le in Ey); cbn [pure] in Ert; injection Ert as <-; (split; [cbn; tauto|]); intros [Q|Q]; try discriminate Q; assumption.
Qed.
Print Assumptions C58_fluid.

(** Dimensions of the run as the mesh block states them *)
Theorem C58_dimension : forall ng d p d', run (fluid_Initialize ng) d = Some (p, d') ->
  exists n3, d ("parthenon/mesh", "nx3") = Some (VInt n3) /\
  ((1 < n3)%Z -> f_ndim p = 3%nat) /\
  ((n3 <= 1)%Z -> exists n2, d ("parthenon/mesh", "nx2") = Some (VInt n2) /\ ((1 < n2)%Z -> f_ndim p = 2%nat) /\ ((n2 <= 1)%Z -> f_ndim p = 1%nat)).
Proof.
  intros ng d p d' H. assert (P : pure (fluid_Initialize ng) d = Some p).
  { rewrite <- (run_pure0 defaults _ d (wf_fluid ng)), H; reflexivity. }
  clear H. unfold fluid_Initialize in P.
  bs P act. bs P ap. bs P ye. bs P mhd. bs P sc. bs P bv. bs P prim. bs P b1. bs P b2. bs P b3. bs P b4. bs P b5. bs P b6. bs P nx3. bs P ndim. bs P z.
  cbn [pure] in P. use. apply (f_equal (fun o => match o with Some x => x | None => p end)) in P. subst p. cbn [f_ndim].
  exists nx3. split; [assumption|]. destruct (Z.ltb_spec 1 nx3) as [L|L].
  - injection Endim as <-. split; [reflexivity|intros K; exfalso; apply (Z.lt_irrefl 1); eapply Z.lt_le_trans; eassumption].
  - split; [intros K; exfalso; apply (Z.lt_irrefl 1); eapply Z.lt_le_trans; eassumption|]. intros _.
    bs Endim n2. use. injection Endim as <-. exists n2. split; [assumption|]. split; intros K; destruct (Z.ltb_spec 1 n2); try reflexivity;
    exfalso; apply (Z.lt_irrefl 1); eapply Z.lt_le_trans; eassumption.
Qed.
Print Assumptions C58_dimension.

(** Nothing the user wrote is changed, and the deck that is written out, with the defaults
    filled in, sets up the same run when it is read again (restart) *)
Theorem C58_restart : forall g sc ng d r d', run (packages g sc ng) d = Some (r, d') ->
  (forall k v, d k = Some v -> d' k = Some v) /\ run (packages g sc ng) d' = Some (r, d').
Proof. intros g sc ng d r d' H. split; [intros k v; apply (run_keeps _ _ _ _ _ _ H)|apply (run_again _ _ _ _ H)]. Qed.
Print Assumptions C58_restart.

(** The fluid and fixup packages can be set up in either order *)
Theorem C58_order : forall g ng d,
  option_map fst (run (bind (fluid_Initialize ng) (fun f => bind (fixup_Initialize g) (fun x => Ret (f, x)))) d) =
  option_map fst (run (bind (fixup_Initialize g) (fun x => bind (fluid_Initialize ng) (fun f => Ret (f, x)))) d).
Proof.
  intros g ng d. rewrite !(run_pure0 defaults).
  - rewrite !pure_bind. destruct (pure (fluid_Initialize ng) d) eqn:E; [|destruct (pure (fixup_Initialize g) d); [rewrite pure_bind, E|]; reflexivity].
    rewrite pure_bind. destruct (pure (fixup_Initialize g) d); [|reflexivity]. rewrite pure_bind, E. reflexivity.
  - apply wf_bind; [apply wf_fixup|intros ?]. apply wf_bind; [apply wf_fluid|intros ?; constructor].
  - apply wf_bind; [apply wf_fluid|intros ?]. apply wf_bind; [apply wf_fixup|intros ?; constructor].
Qed.
Print Assumptions C58_order.

(** A deck: what inputs/tov-static.pin writes for these packages *)
Definition tov_static : deck := assoc
  [ (("physics", "hydro"), VBool true); (("physics", "rad"), VBool false);
    (("fluid", "cfl"), VReal (1 / 4)); (("fluid", "riemann"), VStr "llf"); (("fluid", "recon"), VStr "weno5");
    (("fluid", "c2p_max_iter"), VInt 1000); (("fluid", "Ye"), VBool false);
    (("fixup", "enable_floors"), VBool true); (("fixup", "enable_ceilings"), VBool true); (("fixup", "enable_flux_fixup"), VBool true);
    (("fixup", "enable_c2p_fixup"), VBool true); (("fixup", "floor_type"), VStr "X1RhoSie");
    (("fixup", "rho0_floor"), VReal (1 / 100000000)); (("fixup", "sie0_floor"), VReal (1 / 1000));
    (("fixup", "rho_exp_floor"), VReal (-2)); (("fixup", "sie_exp_floor"), VReal (-1));
    (("fixup", "ceiling_type"), VStr "ConstantGamSie"); (("fixup", "sie0_ceiling"), VReal 10); (("fixup", "gam0_ceiling"), VReal 10);
    (("phoebus", "ix1_bc"), VStr "reflect"); (("phoebus", "ox1_bc"), VStr "outflow"); (("phoebus", "ix2_bc"), VStr "reflect");
    (("phoebus", "ox2_bc"), VStr "reflect"); (("phoebus", "ix3_bc"), VStr "periodic"); (("phoebus", "ox3_bc"), VStr "periodic");
    (("parthenon/mesh", "nx2"), VInt 1); (("parthenon/mesh", "nx3"), VInt 1) ].

Lemma run_fixup_some g d : well_typed fixup_entries d -> pure (fixup_Initialize g) d <> None -> exists p d', run (fixup_Initialize g) d = Some (p, d').
Proof.
  intros _ Q. pose proof (run_pure0 defaults _ d (wf_fixup g)) as R0.
  destruct (run (fixup_Initialize g) d) as [[p d']|]; [eauto|]. exfalso; apply Q; rewrite <- R0; reflexivity.
Qed.
Lemma tov_typed : well_typed fixup_entries tov_static.
Proof.
  assert (A : forallb (fun kt => match tov_static (fst kt) with Some v => has_ty v (snd kt) | None => true end) fixup_entries = true) by reflexivity.
  intros k t v I E. rewrite forallb_forall in A. specialize (A _ I). cbn [fst snd] in A. rewrite E in A. exact A.
Qed.
Lemma tov_runs : exists p d', run (fixup_Initialize false) tov_static = Some (p, d').
Proof.
  apply C58_accepts; [apply tov_typed|]. split; [intros Q; discriminate Q|]. split; [intros _; exists "X1RhoSie"; split; [reflexivity|cbn; tauto]|].
  split; [intros Q; discriminate Q|]. split; [reflexivity|]. split; [intros Q; discriminate Q|]. split; [intros Q; discriminate Q|].
  intros n [<-|[<-|[<-|[]]]]; left; reflexivity.
Qed.

(** The shipped deck asks for sie >= 10^-3 near the star; the run it sets up enforces nothing *)
Theorem C58_tov_static_refuted : exists p d', run (fixup_Initialize false) tov_static = Some (p, d') /\
  p_enable_floors p = true /\
  (forall x1 x2 x3 rin, snd (GetFloors (p_floor p 0 0) x1 x2 x3 rin) = 0) /\
  (forall x1 x2 x3 rin, 1 <= x1 -> fst (GetFloors (p_floor p 0 0) x1 x2 x3 rin) = 1 / 100000000 * Rpower x1 (-2)) /\
  number tov_static "fixup" "sie0_floor" 0 = 1 / 1000.
Proof.
  destruct tov_runs as (p & d' & H). exists p, d'. split; [exact H|].
  split. { destruct (C58_switches _ _ _ _ H) as (_ & _ & _ & _ & _ & _ & _ & _ & _ & _ & _ & E). rewrite E. reflexivity. }
  split. { intros. apply (C58_sie_floor_refuted _ _ _ _ H eq_refl (or_introl eq_refl) eq_refl); lra. }
  split; [|reflexivity]. intros x1 x2 x3 rin Hx.
  destruct (C58_floors _ _ _ _ H 0 0 x1 x2 x3 rin) as [_ F]. cbv zeta in F. destruct (F eq_refl) as (_ & _ & _ & _ & F4 & _).
  rewrite (F4 eq_refl). clear F F4. change (number tov_static "fixup" "rho0_floor" 0) with (1 / 100000000). change (number tov_static "fixup" "rho_exp_floor" (-2)) with (-2).
  assert (E : Rpower x1 (-2) <= 1).
  { unfold Rpower. rewrite <- exp_0. destruct (Req_dec x1 1) as [->|N]; [rewrite ln_1; right; f_equal; ring|].
    left; apply exp_increasing. pose proof (ln_increasing 1 x1 ltac:(lra) ltac:(lra)) as L. rewrite ln_1 in L. lra. }
  pose proof (exp_pos (-2 * ln x1)) as P. fold (Rpower x1 (-2)) in P.
  num_R. rewrite Rmin_right by assumption. apply Rmax_left. nra.
Qed.
Print Assumptions C58_tov_static_refuted.

(** Full statement: the light bulb imposes no radiation time step (radiation.cpp:543-546).
    It always does: the variable tested there is never assigned. *)
Theorem C58_lightbulb_dt_refuted : forall sc d p d', run (radiation_Initialize sc) d = Some (p, d') ->
  d ("physics", "rad") = Some (VBool true) -> r_limits_dt p = true.
Proof.
  intros sc d p d' H E. unfold radiation_Initialize, GetBoolean in H. cbn [run bind] in H. rewrite E in H. cbn [as_bool bind run negb] in H.
  assert (G : forall (q : prog RadParams) d0, (forall d1 p1 d2, run q d1 = Some (p1, d2) -> r_limits_dt p1 = true) -> run q d0 = Some (p, d') -> r_limits_dt p = true) by eauto.
  assert (B : forall {A} (q : prog A) (f : A -> prog RadParams), (forall a d1 p1 d2, run (f a) d1 = Some (p1, d2) -> r_limits_dt p1 = true) ->
    forall d1 p1 d2, run (bind q f) d1 = Some (p1, d2) -> r_limits_dt p1 = true).
  { intros A q f Hf. induction q as [a| |k c IH|k v c IH]; cbn [bind run]; intros d1 p1 d2 Hr.
    - eapply Hf, Hr.
    - discriminate.
    - destruct (d1 k); [eapply IH, Hr|discriminate].
    - destruct (d1 k); eapply IH, Hr. }
  revert H. generalize d at 1. clear E G. revert p d'. intros p d' d0. cbv zeta.
  revert d0 p d'. apply B; intros m. apply B; intros _. apply B; intros bc. apply B; intros cfl. apply B; intros _.
  cbn [run negb]. intros d1 p1 d2 Hr. apply (f_equal (fun o => match o with Some (x, _) => r_limits_dt x | None => true end)) in Hr. symmetry; exact Hr.
Qed.
Print Assumptions C58_lightbulb_dt_refuted.

(** physics/rad has a default in the fixup package, but the radiation package, set up before it,
    insists on the entry: with the packages the other way round the same deck is accepted *)
Theorem C58_order_rad_refuted :
  (forall g sc ng d, d ("physics", "rad") = None -> run (packages g sc ng) d = None) /\
  exists d, d ("physics", "rad") = None /\
  run (bind (fixup_Initialize false) (fun x => bind (radiation_Initialize false) (fun r => Ret (r, x)))) d <> None.
Proof.
  split.
  - intros g sc ng d E. unfold packages.
    assert (B : forall {A B} (q : prog A) (f : A -> prog B), wf defaults q -> (forall a d1, run q d = Some (a, d1) -> run (f a) d1 = None) -> run (bind q f) d = None).
    { intros A B q f _. generalize d. induction q as [a| |k c IH|k v c IH]; cbn [bind run]; intros d0 Hf; [apply (Hf a d0 eq_refl)|reflexivity| |].
      - destruct (d0 k); [apply IH; exact Hf|reflexivity].
      - destruct (d0 k); apply IH; exact Hf. }
    apply B; [apply wf_fluid|]. intros f d1 H.
    assert (E1 : d1 ("physics", "rad") = None).
    { set (D := fun k => if key_eqb k ("physics", "rad") then None else defaults k).
      assert (W : wf D (fluid_Initialize ng)) by (unfold fluid_Initialize, read_active, read_recon; subst D; wfs).
      pose proof (run_pure D _ W d d (fun k => or_introl eq_refl)) as R. rewrite H in R. destruct R as [_ R].
      destruct (R ("physics", "rad")) as [->|[_ ->]]; [exact E|reflexivity]. }
    unfold radiation_Initialize, GetBoolean. cbn [bind run]. rewrite E1. reflexivity.
  - exists (fun _ => None). split; [reflexivity|]. vm_compute. discriminate.
Qed.
Print Assumptions C58_order_rad_refuted.

(** The three packages of the shipped deck: accepted with four ghost zones, rejected with two *)
Definition fluid_recon (o : option ((FluidParams * RadParams * FixupParams) * deck)) : option ReconType :=
  match o with Some ((f, _, _), _) => option_map f_Recon (f_active f) | None => None end.
Lemma wf_packages_pure g sc ng d : d ("physics", "rad") = Some (VBool false) -> forall f x,
  pure (fluid_Initialize ng) d = Some f -> pure (fixup_Initialize g) d = Some x ->
  exists r d', run (packages g sc ng) d = Some ((f, r, x), d').
Proof.
  intros E f x Hf Hx. unfold packages.
  assert (B : forall {A B} (q : prog A) (k : A -> prog B) d0, run (bind q k) d0 = match run q d0 with Some (a, d1) => run (k a) d1 | None => None end).
  { intros A B q k. induction q as [a| |k0 c IH|k0 v c IH]; cbn [bind run]; intros d0; [reflexivity|reflexivity| |]; destruct (d0 k0); try apply IH; reflexivity. }
  rewrite B. pose proof (run_pure defaults _ (wf_fluid ng) d d (fun k => or_introl eq_refl)) as R.
  destruct (run (fluid_Initialize ng) d) as [[f' d1]|] eqn:E1; [|congruence]. destruct R as [R1 R2].
  assert (f' = f) by congruence. subst f'. rewrite B. unfold radiation_Initialize at 1. unfold GetBoolean. cbn [bind run].
  rewrite (run_keeps _ _ _ _ _ _ E1 E). cbn [as_bool bind run negb]. rewrite B.
  pose proof (run_pure defaults _ (wf_fixup g) d d1 R2) as S.
  destruct (run (fixup_Initialize g) d1) as [[x' d2]|]; [|congruence]. destruct S as [S1 _]. assert (x' = x) by congruence. subst x'.
  cbn [run]. eauto.
Qed.
Example C58_packages_ex : (exists r d', run (packages false false 4) tov_static = Some (r, d') /\ fluid_recon (Some (r, d')) = Some rt_weno5z) /\
  run (packages false false 2) tov_static = None.
Proof.
  split.
  - destruct tov_runs as (x & d1 & Hx). assert (Px : pure (fixup_Initialize false) tov_static = Some x) by (rewrite <- (run_pure0 defaults _ _ (wf_fixup false)), Hx; reflexivity).
    destruct (pure (fluid_Initialize 4) tov_static) as [f|] eqn:Ef.
    + destruct (wf_packages_pure false false 4 tov_static eq_refl f x Ef Px) as (r & d' & E). exists (f, r, x), d'. split; [exact E|].
      cbn [fluid_recon].
      pose proof (run_pure defaults _ (wf_fluid 4) tov_static tov_static (fun k => or_introl eq_refl)) as R.
      destruct (run (fluid_Initialize 4) tov_static) as [[f' d2]|] eqn:E2; [|congruence]. destruct R as [R _]. assert (f' = f) by congruence. subst f'.
      destruct (C58_fluid _ _ _ _ E2) as (_ & _ & _ & _ & _ & act & Ea & F). destruct (f_active f) as [a|].
      * destruct F as (_ & _ & _ & _ & _ & _ & _ & _ & _ & _ & _ & _ & F & _). change (word tov_static "fluid" "recon" "linear") with "weno5" in F.
        cbn. destruct (f_Recon a); [reflexivity| | |]; cbn in F; destruct F as [F|[]]; discriminate F.
      * subst act. discriminate Ea.
    + exfalso. revert Ef. unfold fluid_Initialize, read_active, read_recon.
      assert (G : forall fac, Rle_bool fac 1 && Rlt_bool 0 fac = true -> fac = 1 -> True) by auto.
      do 1 rewrite pure_bind. cbn [GetBoolean pure]. change (tov_static ("physics", "hydro")) with (Some (VBool true)). cbn [as_bool pure].
      repeat (rewrite pure_bind || cbn [GetOrAddBoolean GetOrAddReal GetOrAddString GetOrAddInteger GetString GetInteger pure]).
      cbn -[Rle_bool Rlt_bool]. rewrite Rle_bool_true, Rlt_bool_true by lra. cbn. discriminate.
  - destruct (run (packages false false 2) tov_static) as [[[[f r] x] d']|] eqn:E; [|reflexivity]. exfalso.
    unfold packages in E.
    assert (B : forall {A B} (q : prog A) (k : A -> prog B) d0, run (bind q k) d0 = match run q d0 with Some (a, d1) => run (k a) d1 | None => None end).
    { intros A B q k. induction q as [a| |k0 c IH|k0 v c IH]; cbn [bind run]; intros d0; [reflexivity|reflexivity| |]; destruct (d0 k0); try apply IH; reflexivity. }
    rewrite B in E. destruct (run (fluid_Initialize 2) tov_static) as [[f' d2]|] eqn:E2; [|discriminate].
    destruct (C58_fluid _ _ _ _ E2) as (_ & _ & _ & _ & _ & act & Ea & F). destruct (f_active f') as [a|]; [|subst act; discriminate Ea].
    destruct F as (_ & _ & _ & _ & _ & _ & _ & _ & _ & _ & _ & _ & F & G). change (word tov_static "fluid" "recon" "linear") with "weno5" in F.
    destruct (f_Recon a); cbn in F; [|destruct F as [F|[]]; discriminate F ..]. apply (G (or_introl eq_refl)). reflexivity.
Qed.
