(** C23, second part: radiation variables of repaired zones. *)
From Coq Require Import ZArith Reals List Bool Lia Lra Psatz FunctionalExtensionality.
From Flocq Require Import Core.
From Verif.Spec Require Import Tensor GeomSpec Relativity RadSpec FixupSpec.
From Verif.Model Require Import Num Robust Geometry Relativity Prim2Con Con2PrimRobust ApplyFloors Fixup RadClosure RadTransport FixupRad.
From Verif.Proofs Require Import NumR RobustProofs RelProofs RelativityProofs Prim2ConProofs FloorProofs FixupProofs FlatWitness.
From Verif.Properties Require Import P_Fixup P_RadTransform.
Import ListNotations.
Local Open Scope R_scope.

(** * Specification *)
(** geometry of a zone: what the kernels read belongs to one spacetime metric *)
Definition zone_geometry (g : CellGeom) (gamma : mat) : Prop :=
  exists ginv gi sg sgg, adm_consistent (c_lapse g) (c_beta g) (c_gcov4 g) ginv gamma gi sg sgg.
(** velocity of the fluid with respect to Eulerian observers *)
Definition three_velocity (gamma : mat) (vp : vec) : vec := fun i => vp i / GetLorentzFactor vp gamma.
(** flux factor |H|/J of comoving moments seen from that fluid; h = H/J *)
Definition flux_factor (gamma : mat) (alpha : R) (rs : Strategy) (vp h : vec) : R :=
  sqrt (flux_sq (mkClosure (three_velocity gamma vp) gamma alpha rs) h).
(** velocity of the repaired zone before the clamp (components 0, 1, 2) *)
Definition repaired_velocity (flag : Zone -> R) (ndim : nat) (interp : bool) (m : Mem R) (c : Zone) : vec :=
  fun i => if Nat.ltb i 3 then
             if (match good_neighbours flag ndim c with nil => false | _ => true end) && interp
             then mean (map (fun d => m d (Vvel i)) (good_neighbours flag ndim c)) else 0
           else m c (Vvel i).
(** a variable that is no comoving radiation moment *)
Definition not_moment (v : FVar) : Prop := (forall s, v <> VJ s) /\ (forall s i, v <> VH s i).

(** * Helpers *)
Lemma complete_tail ndim (flag : Zone -> R) interp groups fallback t1 t2 sched active :
  complete sched active (kernel ndim flag interp groups fallback t1) -> complete sched active (kernel ndim flag interp groups fallback t2).
Proof.
  intros C c A. specialize (C c A). unfold kernel in *. rewrite app_length in *. cbn [length] in *. exact C.
Qed.
Lemma LF_ext v w g : (forall i, (i < 3)%nat -> v i = w i) -> GetLorentzFactor v g = GetLorentzFactor w g.
Proof. intros E. unfold GetLorentzFactor, sum3. rewrite !E by lia. reflexivity. Qed.
Lemma mom_ext pi gamma alpha sg rs vp J h h' : (forall i, h i = h' i) -> MomentPrim2Con pi gamma alpha sg rs vp J h = MomentPrim2Con pi gamma alpha sg rs vp J h'.
Proof. intros E. replace h' with h by (apply functional_extensionality; exact E). reflexivity. Qed.

(** * Fluid kernel *)
(** The radiation step of the fluid repair changes nothing but J and H (so everything
    C23_fluid_repair says of the fluid holds with radiation too), and these only where the
    radiation inversion had succeeded. *)
Theorem C23_fluid_repair_with_radiation : forall ndim flag dom interp nspec rs gam geom valencia mhd hasye eos gamma_max hasrad radok tilPi (m : Mem R) sched c,
  (ndim = 1 \/ ndim = 2 \/ ndim = 3)%nat -> binary flag ->
  let active := failed flag dom in
  let prog := fluid_kernel ndim flag interp hasye (fluid_rad_tail nspec rs gam geom valencia mhd hasye eos gamma_max hasrad radok tilPi) in
  let prog0 := fluid_kernel ndim flag interp hasye (fluid_tail valencia mhd hasye eos gamma_max geom) in
  complete sched active prog -> active c = true ->
  let m' := fst (run flag sched (init active prog m)) in let m0 := fst (run flag sched (init active prog0 m)) in
  (forall v, not_moment v -> m' c v = m0 c v) /\ (hasrad && radok c = false -> m' c = m0 c).
Proof.
  intros ndim flag dom interp nspec rs gam geom val mhd hasye eos gmax hasrad radok tilPi m sched c Hnd H01 active prog prog0 C A m' m0.
  pose proof (run_kernel ndim flag dom interp Hnd H01 [(fluid_vars hasye, fluid_max)] (fun _ => fluid_fallback hasye) (fluid_rad_tail nspec rs gam geom val mhd hasye eos gmax hasrad radok tilPi) m sched c C A) as E.
  pose proof (run_kernel ndim flag dom interp Hnd H01 [(fluid_vars hasye, fluid_max)] (fun _ => fluid_fallback hasye) (fluid_tail val mhd hasye eos gmax geom) m sched c (complete_tail ndim flag interp [(fluid_vars hasye, fluid_max)] (fun _ => fluid_fallback hasye) _ _ sched active C) A) as E0.
  assert (E' : m' c = _) by exact E. assert (E0' : m0 c = _) by exact E0. clear E E0. rewrite E', E0'.
  set (r := if _ && _ then _ else _). clearbody r. unfold fluid_rad_tail. destruct (clamp_velocity _ _ _) as [vp W]. split.
  - intros v [N1 N2]. destruct (hasrad && radok c); [|reflexivity]. unfold rad_reinvert.
    destruct v; try reflexivity; exfalso; [apply (N1 s eq_refl)|apply (N2 s i eq_refl)].
  - intros ->. reflexivity.
Qed.
Print Assumptions C23_fluid_repair_with_radiation.

(** Where the velocity clamp does not act and the inversion meets no special case, the new J
    and H have the conserved moments the zone held before the repair, as seen from the new
    fluid velocity.  [tilPi] is the closure; for the Eddington closure (tilPi = 0) the
    regularity hypothesis always holds (C29_eddington_regular). *)
Theorem C23_fluid_repair_moments : forall ndim flag dom interp nspec rs gam geom valencia mhd hasye eos gamma_max radok tilPi (m : Mem R) sched c s,
  (ndim = 1 \/ ndim = 2 \/ ndim = 3)%nat -> binary flag ->
  let active := failed flag dom in
  let prog := fluid_kernel ndim flag interp hasye (fluid_rad_tail nspec rs gam geom valencia mhd hasye eos gamma_max true radok tilPi) in
  complete sched active prog -> active c = true -> radok c = true -> (s < nspec)%nat ->
  zone_geometry (geom c) (gam c) -> c_gdet (geom c) <> 0 ->
  let vbar := repaired_velocity flag ndim interp m c in
  GetLorentzFactor vbar (gam c) <= gamma_max -> dot3 (gam c) (three_velocity (gam c) vbar) (three_velocity (gam c) vbar) <= 9999 / 10000 ->
  let cl := mkClosure (three_velocity (gam c) vbar) (gam c) (c_lapse (geom c)) rs in
  let sg := c_gdet (geom c) in
  let E := m c (VE s) / sg in let F : vec := fun i => m c (VF s i) / sg in
  c2p_lam cl (tilPi cl E F) <> 0 -> snd (Con2Prim cl energy_conserve E F (tilPi cl E F)) = Csuccess ->
  let m' := fst (run flag sched (init active prog m)) in
  let J := m' c (VJ s) in let h : vec := fun i => m' c (VH s i) in
  (forall i, (i < 3)%nat -> m' c (Vvel i) = vbar i) /\ m' c (VE s) = m c (VE s) /\ (forall i, m' c (VF s i) = m c (VF s i)) /\
  let '(E', F') := Prim2Con cl energy_conserve J (fun i => J * h i) (tilPi cl E F) in
  sg * E' = m' c (VE s) /\ forall i, (i < 3)%nat -> sg * F' i = m' c (VF s i).
Proof.
  intros ndim flag dom interp nspec rs gam geom val mhd hasye eos gmax radok tilPi m sched c s Hnd H01 active prog C A Rk Hs (ginv & gi & sg0 & sgg & Adm) Sg vbar Wm V2 cl sg E F Lam St m' J h.
  pose proof (run_kernel ndim flag dom interp Hnd H01 [(fluid_vars hasye, fluid_max)] (fun _ => fluid_fallback hasye) (fluid_rad_tail nspec rs gam geom val mhd hasye eos gmax true radok tilPi) m sched c C A) as E0.
  assert (E' : m' c = _) by exact E0. clear E0.
  set (r := if _ && _ then segments _ _ _ _ _ _ _ else _) in E'.
  assert (Vl : forall j, (j < 3)%nat -> In (Vvel j) (fluid_vars hasye)).
  { intros j Hj. unfold fluid_vars. apply in_or_app. left. destruct j as [|[|[|j]]]; [cbn; tauto|cbn; tauto|cbn; tauto|lia]. }
  assert (Rv : forall i, r (Vvel i) = vbar i).
  { intros i. unfold r, vbar, repaired_velocity. destruct (Nat.ltb_spec i 3) as [Hi|Hi].
    - destruct (good_neighbours flag ndim c) as [|d G] eqn:Eg.
      + cbn [andb]. destruct hasye; destruct i as [|[|[|i]]]; try lia; cbn; num_R; field.
      + destruct interp; cbn [andb].
        * cbn [segments fold_left fst snd]. rewrite <- Eg.
          assert (K : filled ndim flag m c (m c) (1 / num_valid ndim flag c) (fluid_vars hasye) (Vvel i) = mean (map (fun d => m d (Vvel i)) (good_neighbours flag ndim c))).
          { apply (filled_mean ndim flag Hnd H01 m c (m c) (fluid_vars hasye) (Vvel i)); [rewrite Eg; discriminate|apply Vl, Hi]. }
          rewrite <- K. reflexivity.
        * destruct hasye; destruct i as [|[|[|i]]]; try lia; cbn; num_R; field.
    - destruct (_ && _).
      + cbn [segments fold_left fst snd]. change (fluid_max ?q (Vvel i)) with (q (Vvel i)). apply filled_out. unfold fluid_vars. intros X. apply in_app_or in X.
        destruct X as [X|X]; [cbn in X; repeat (destruct X as [X|X]; [try discriminate X; injection X; lia|]); exact X|].
        destruct hasye; [destruct X as [X|[]]; discriminate|destruct X].
      + destruct i as [|[|[|i]]]; try lia. destruct hasye; reflexivity. }
  assert (Re : forall v, (v = VE s \/ exists i, v = VF s i) -> r v = m c v).
  { intros v Hv. unfold r. destruct (_ && _).
    - cbn [segments fold_left fst snd].
      assert (Q : fluid_max (filled ndim flag m c (m c) (1 / num_valid ndim flag c) (fluid_vars hasye)) v = filled ndim flag m c (m c) (1 / num_valid ndim flag c) (fluid_vars hasye) v)
        by (destruct Hv as [-> | [i ->]]; reflexivity).
      rewrite Q. apply filled_out. intros X. unfold fluid_vars in X. apply in_app_or in X. destruct X as [X|X].
      + destruct Hv as [-> | [i ->]]; cbn in X; intuition discriminate.
      + destruct hasye; [|destruct X]. destruct X as [X|[]]. destruct Hv as [-> | [i ->]]; discriminate.
    - destruct Hv as [-> | [i ->]]; destruct hasye; reflexivity. }
  clearbody r. assert (Rv' : (fun i => r (Vvel i)) = vbar) by (apply functional_extensionality; exact Rv).
  pose proof (clamp_inside _ _ _ _ _ _ _ _ Adm gmax vbar Wm) as Cl.
  assert (Tl : fluid_rad_tail nspec rs gam geom val mhd hasye eos gmax true radok tilPi c r
             = rad_reinvert nspec rs gam geom tilPi vbar (GetLorentzFactor vbar (gam c)) c (fluid_tail val mhd hasye eos gmax geom c r)).
  { unfold fluid_rad_tail. rewrite Rv', Cl, Rk. reflexivity. }
  rewrite Tl in E'. clear Tl.
  set (r' := fluid_tail val mhd hasye eos gmax geom c r) in E'.
  assert (Ve : r' (VE s) = m c (VE s)) by (apply (Re (VE s)); left; reflexivity).
  assert (Vf : forall i, r' (VF s i) = m c (VF s i)) by (intros i; apply (Re (VF s i)); right; exists i; reflexivity).
  assert (Vv : forall i, r' (Vvel i) = vbar i).
  { intros i. unfold r', fluid_tail. rewrite Rv', Cl. reflexivity. }
  clearbody r'. apply Nat.ltb_lt in Hs.
  destruct (Con2Prim cl energy_conserve E F (tilPi cl E F)) as [[J0 H0] st] eqn:EC. cbn [snd] in St. subst st.
  assert (EF : (fun i => r' (VF s i) / c_gdet (geom c)) = F) by (apply functional_extensionality; intros i; unfold F, sg; rewrite Vf; reflexivity).
  assert (EE : r' (VE s) / c_gdet (geom c) = E) by (unfold E, sg; rewrite Ve; reflexivity).
  assert (HJ : J = J0 /\ forall i, h i = H0 i / J0).
  { unfold J, h. rewrite E'. unfold rad_reinvert. rewrite Hs.
    change (mkClosure (fun i : nat => vbar i / GetLorentzFactor vbar (gam c)) (gam c) (c_lapse (geom c)) rs) with cl.
    rewrite EE, EF, EC. split; reflexivity. }
  destruct HJ as [HJ Hh].
  assert (Raw : c2p_raw cl energy_conserve E F (tilPi cl E F) = (J0, H0) /\ J0 <> 0).
  { unfold Con2Prim in EC. destruct (c2p_raw cl energy_conserve E F (tilPi cl E F)) as [J1 H1].
    destruct (xi_defined cl J1 H1) eqn:Xd; cbn [negb] in EC; [|discriminate].
    unfold xi_defined in Xd. apply andb_prop in Xd. destruct Xd as [_ Xd].
    destruct (Req_bool_spec J1 0) as [?|Nz]; [discriminate|].
    destruct (Rlt_bool J1 0 || Rle_bool 1 (flux_xi cl J1 H1)); [destruct (robust_c2p cl); discriminate|]. injection EC as -> ->. split; [reflexivity|exact Nz]. }
  destruct Raw as [Raw Nz].
  assert (EJ : (fun i => J * h i) = H0) by (apply functional_extensionality; intros i; rewrite HJ, Hh; field; exact Nz).
  assert (LO : lorentz_of (gam c) (three_velocity (gam c) vbar) (GetLorentzFactor vbar (gam c))).
  { pose proof (adm_tpo _ _ _ _ _ _ _ _ Adm) as T3. pose proof (lorentz_sq _ _ _ _ vbar T3) as LS. pose proof (lorentz_ge1 _ _ _ _ vbar T3) as L1.
    split; [lra|]. unfold three_velocity. set (W := GetLorentzFactor vbar (gam c)) in *.
    replace (dot3 (gam c) (fun i => vbar i / W) (fun i => vbar i / W)) with (dot3 (gam c) vbar vbar / (W * W)) by (unfold dot3, sum3; field; lra).
    field_simplify; [|lra]. lra. }
  split; [intros i _; rewrite E'; apply Vv|]. split; [rewrite E'; exact Ve|]. split; [intros i; rewrite E'; apply Vf|].
  pose proof (C29_con_prim_con _ _ _ _ _ _ _ _ _ _ rs (tilPi cl E F) E F Adm LO V2 Lam) as K. fold cl in K. rewrite Raw in K.
  rewrite EJ, HJ. destruct (Prim2Con cl energy_conserve J0 H0 (tilPi cl E F)) as [E2 F2]. destruct K as [K1 K2]. split.
  - rewrite K1, E'. change (rad_reinvert nspec rs gam geom tilPi vbar (GetLorentzFactor vbar (gam c)) c r' (VE s)) with (r' (VE s)). rewrite Ve. unfold E, sg. field. exact Sg.
  - intros i Hi. rewrite (K2 i Hi), E'. change (rad_reinvert nspec rs gam geom tilPi vbar (GetLorentzFactor vbar (gam c)) c r' (VF s i)) with (r' (VF s i)). rewrite Vf. unfold F, sg. field. exact Sg.
Qed.
Print Assumptions C23_fluid_repair_moments.

(** * Radiation kernel *)
Lemma flux_scale cl (h : vec) k : 0 <= k -> sqrt (flux_sq cl (fun i => h i * k)) = k * sqrt (flux_sq cl h).
Proof.
  intros Hk. replace (flux_sq cl (fun i => h i * k)) with (k * k * flux_sq cl h) by (unfold flux_sq, contractCov3Vectors, contractConCov3Vectors, sum3; ring).
  destruct (Rle_or_lt 0 (flux_sq cl h)) as [P|P].
  - rewrite sqrt_mult by (first [apply Rle_0_sqr|exact P]). rewrite sqrt_square by exact Hk. reflexivity.
  - rewrite (sqrt_neg_0 (flux_sq cl h)) by lra. rewrite sqrt_neg_0; [ring|]. assert (0 <= k * k) by apply Rle_0_sqr. nra.
Qed.
(** A failed zone gets the average J of its good neighbours (or a tiny one), the average H/J
    shortened in its direction to the flux ceiling where it exceeds it, and the conserved
    moments of these; nothing else changes.  Any closure. *)
Theorem C23_rad_repair_state : forall ndim flag dom interp nspec rs gam geom pi_of xi_max (m : Mem R) sched c s,
  (ndim = 1 \/ ndim = 2 \/ ndim = 3)%nat -> binary flag ->
  let active := failed flag dom in
  let prog := rad_kernel ndim flag interp nspec (rad_tail nspec rs gam geom pi_of xi_max) in
  complete sched active prog -> active c = true -> (s < nspec)%nat -> 0 < xi_max -> zone_geometry (geom c) (gam c) ->
  let m' := fst (run flag sched (init active prog m)) in
  let G := good_neighbours flag ndim c in let avg v := mean (map (fun d => m d v) G) in
  let vp : vec := fun i => m c (Vvel i) in
  let factor := flux_factor (gam c) (c_lapse (geom c)) rs vp in
  let h : vec := fun i => m' c (VH s i) in
  (G <> nil -> interp = true -> m' c (VJ s) = avg (VJ s) /\
     (exists k, 0 < k <= 1 /\ forall i, (i < 3)%nat -> h i = k * avg (VH s i)) /\
     (factor (fun i => avg (VH s i)) <= xi_max -> forall i, (i < 3)%nat -> h i = avg (VH s i))) /\
  (G = nil \/ interp = false -> m' c (VJ s) = tiny 10 /\ forall i, (i < 3)%nat -> h i = 0) /\
  factor h <= xi_max /\
  (m' c (VE s), fun i => m' c (VF s i)) = MomentPrim2Con pi_of (gam c) (c_lapse (geom c)) (c_gdet (geom c)) rs vp (m' c (VJ s)) h /\
  (forall v, not_moment v -> (forall t, v <> VE t) -> (forall t i, v <> VF t i) -> m' c v = m c v).
Proof.
  intros ndim flag dom interp nspec rs gam geom pi_of xi_max m sched c s Hnd H01 active prog C A Hs Xm (ginv & gi & sg0 & sgg & Adm) m' G avg vp factor h.
  destruct (C23_rad_repair ndim flag dom interp nspec (rad_tail nspec rs gam geom pi_of xi_max) m sched c Hnd H01 C A) as (r & E & R1 & R2 & R3).
  fold G in R1, R2. assert (E' : m' c = rad_tail nspec rs gam geom pi_of xi_max c r) by exact E. clear E.
  assert (Rv : (fun i => r (Vvel i)) = vp) by (apply functional_extensionality; intros i; apply R3; discriminate).
  assert (Wq : GetLorentzFactor4 vp (c_gcov4 (geom c)) = GetLorentzFactor vp (gam c)) by exact (W_eq _ _ _ _ _ _ _ _ Adm vp).
  set (v := three_velocity (gam c) vp). set (cl := mkClosure v (gam c) (c_lapse (geom c)) rs).
  assert (Tl : rad_tail nspec rs gam geom pi_of xi_max c r = rad_prim2con nspec rs gam geom pi_of v c (rad_clamp nspec gam xi_max v c r)).
  { unfold rad_tail. rewrite Rv, Wq.
    assert (Q : (fun i => r (Vvel i) / GetLorentzFactor vp (gam c)) = v) by (apply functional_extensionality; intros i; unfold v, three_velocity; rewrite <- Rv; reflexivity).
    rewrite Q. reflexivity. }
  rewrite Tl in E'. clear Tl. pose proof Hs as Hsb. apply Nat.ltb_lt in Hsb.
  set (h0 := fun i => r (VH s i)).
  assert (Fx : forall q : vec, factor q = sqrt (flux_sq cl q)) by reflexivity.
  assert (Fh0 : sqrt (contractCov3Vectors (fst (LinearAlgebra.matrixInverse3x3 (gam c))) h0 h0 - contractConCov3Vectors v h0 * contractConCov3Vectors v h0) = factor h0) by reflexivity.
  assert (EJ : m' c (VJ s) = r (VJ s)) by (rewrite E'; reflexivity).
  assert (Eh : h = if Rlt_bool xi_max (factor h0) then (fun i => h0 i * (xi_max / factor h0)) else h0).
  { apply functional_extensionality. intros i. unfold h. rewrite E'.
    change (rad_prim2con nspec rs gam geom pi_of v c (rad_clamp nspec gam xi_max v c r) (VH s i)) with (rad_clamp nspec gam xi_max v c r (VH s i)).
    unfold rad_clamp. rewrite Hsb. cbn [andb]. fold h0. rewrite Fh0. destruct (Rlt_bool xi_max (factor h0)); reflexivity. }
  assert (Kk : exists k, 0 < k <= 1 /\ (forall i, h i = k * h0 i) /\ (factor h0 <= xi_max -> k = 1) /\ factor h <= xi_max).
  { destruct (Rlt_bool_spec xi_max (factor h0)) as [L|L].
    - exists (xi_max / factor h0). assert (0 < xi_max / factor h0) by (apply Rdiv_lt_0_compat; lra).
      split; [split; [assumption|apply (Rmult_le_reg_r (factor h0)); [lra|]; unfold Rdiv; rewrite Rmult_assoc, Rinv_l by lra; lra]|].
      split; [intros i; rewrite Eh; ring|]. split; [lra|]. rewrite Eh, Fx, flux_scale, <- Fx by lra. right. field. lra.
    - exists 1. split; [lra|]. split; [intros i; rewrite Eh; ring|]. split; [reflexivity|]. rewrite Eh. exact L. }
  destruct Kk as (k & Kb & Kh & K1 & Kf).
  split; [|split; [|split; [|split]]].
  - intros N I. destruct (R1 N I s Hs) as [a1 a2]. split; [rewrite EJ; exact a1|]. split.
    + exists k. split; [exact Kb|]. intros i Hi. rewrite Kh. unfold h0. rewrite (a2 i Hi). reflexivity.
    + intros L i Hi. rewrite Kh, K1; [unfold h0; rewrite (a2 i Hi); unfold avg; ring|].
      rewrite Fx in *. replace (flux_sq cl h0) with (flux_sq cl (fun i => avg (VH s i))); [exact L|].
      unfold flux_sq, contractCov3Vectors, contractConCov3Vectors, sum3, h0. rewrite !a2 by lia. reflexivity.
  - intros N. destruct (R2 N s Hs) as [a1 a2]. split; [rewrite EJ; exact a1|]. intros i Hi. rewrite Kh. unfold h0. rewrite (a2 i Hi). ring.
  - exact Kf.
  - assert (Eh' : (fun i => rad_clamp nspec gam xi_max v c r (VH s i)) = h) by (apply functional_extensionality; intros i; unfold h; rewrite E'; reflexivity).
    assert (Hc : (fun i => rad_clamp nspec gam xi_max v c r (VH s i) * rad_clamp nspec gam xi_max v c r (VJ s)) = (fun i => m' c (VJ s) * h i)).
    { apply functional_extensionality. intros i. rewrite <- Eh', E'. cbn [rad_prim2con]. ring. }
    unfold MomentPrim2Con. change (mkClosure (fun i => vp i / GetLorentzFactor vp (gam c)) (gam c) (c_lapse (geom c)) rs) with cl.
    assert (K : forall x, Prim2Con cl energy_conserve (m' c (VJ s)) (fun i => m' c (VJ s) * h i) (pi_of cl (m' c (VJ s)) (fun i => m' c (VJ s) * h i)) = x ->
      m' c (VE s) = c_gdet (geom c) * fst x /\ forall i, m' c (VF s i) = c_gdet (geom c) * snd x i).
    { intros x Hx. rewrite <- Hx. rewrite <- Hc. rewrite EJ. rewrite E'. unfold rad_prim2con at 1. rewrite Hsb. split; [reflexivity|].
      intros i. unfold rad_prim2con. rewrite Hsb. reflexivity. }
    destruct (Prim2Con cl energy_conserve (m' c (VJ s)) (fun i => m' c (VJ s) * h i) (pi_of cl (m' c (VJ s)) (fun i => m' c (VJ s) * h i))) as [E2 F2].
    destruct (K _ eq_refl) as [K2 K3]. cbn [fst snd] in K2, K3. f_equal; [exact K2|]. apply functional_extensionality. exact K3.
  - intros w [N1 N2] N3 N4. rewrite E'. transitivity (r w); [|apply R3; assumption].
    destruct w; try reflexivity; exfalso; [apply (N2 s0 i eq_refl)|apply (N3 s0 eq_refl)|apply (N4 s0 i eq_refl)].
Qed.
Print Assumptions C23_rad_repair_state.

(** * Coupled source kernel *)
Lemma src_eos_keeps hasye eos : forall (r : Row R) v, v <> Vtmp -> v <> Vprs -> v <> Vgm1 -> src_eos hasye eos r v = r v.
Proof. intros r v A B C. unfold src_eos. destruct v; try reflexivity; congruence. Qed.
(** A failed zone gets the averages of its good interior neighbours (or almost empty gas and
    radiation at rest); its conserved fluid variables are those of its primitives; its
    conserved moments are those of J and H, unless the velocity clamp acts. *)
Theorem C23_src_repair_state : forall ndim flag interior dom interp nspec rs gam geom valencia mhd hasye eos gamma_max pi_of (m : Mem R) sched c s,
  (ndim = 1 \/ ndim = 2 \/ ndim = 3)%nat -> binary flag ->
  let fl := src_flags flag interior in
  let active := failed fl dom in
  let prog := src_kernel ndim fl interp hasye nspec (src_eos hasye eos) (src_tail nspec rs gam geom valencia mhd hasye gamma_max pi_of) in
  complete sched active prog -> active c = true -> (s < nspec)%nat -> zone_geometry (geom c) (gam c) ->
  let m' := fst (run fl sched (init active prog m)) in
  let G := good_neighbours fl ndim c in let avg v := mean (map (fun d => m d v) G) in
  let g := geom c in let vp : vec := fun i => m' c (Vvel i) in
  (G <> nil -> interp = true ->
     m' c Vrho = avg Vrho /\ m' c Veng = avg Veng /\ (hasye = true -> m' c Vye = avg Vye) /\
     m' c (VJ s) = avg (VJ s) /\ (forall i, (i < 3)%nat -> m' c (VH s i) = avg (VH s i)) /\
     (forall i, (i < 3)%nat -> m' c (Vvel i) = fst (clamp_velocity gamma_max (c_gcov4 g) (fun j => avg (Vvel j))) i)) /\
  (G = nil \/ interp = false ->
     m' c Vrho = tiny 10 /\ m' c Veng = tiny 10 /\ (hasye = true -> m' c Vye = / 2) /\
     m' c (VJ s) = tiny 10 /\ (forall i, (i < 3)%nat -> m' c (VH s i) = 0) /\ (1 <= gamma_max -> forall i, (i < 3)%nat -> m' c (Vvel i) = 0)) /\
  (let n := p2c valencia (m' c Vrho) vp (fun i => if mhd then m' c (VB i) else 0) (m' c Veng)
              (if hasye then m' c Vye else 0) (m' c Vprs) (m' c Vgm1) (c_gcov4 g) (c_gcon g) (c_beta g) (c_lapse g) (c_gdet g) in
   m' c VcD = cD n /\ m' c Vctau = ctau n /\ (forall i, m' c (VcS i) = cS n i) /\ (hasye = true -> m' c Vcye = cye n)) /\
  (forall vbar : vec, (forall i, (i < 3)%nat -> vbar i = if match G with nil => false | _ => true end && interp then avg (Vvel i) else 0) ->
     GetLorentzFactor vbar (gam c) <= gamma_max ->
     (m' c (VE s), fun i => m' c (VF s i)) = MomentPrim2Con pi_of (gam c) (c_lapse g) (c_gdet g) rs vp (m' c (VJ s)) (fun i => m' c (VH s i))).
Proof.
  intros ndim flag interior dom interp nspec rs gam geom val mhd hasye eos gmax pi_of m sched c s Hnd H01 fl active prog C A Hs (ginv & gi & sg0 & sgg & Adm) m' G avg g vp.
  destruct (C23_src_repair ndim flag interior dom interp hasye nspec (src_eos hasye eos) (src_tail nspec rs gam geom val mhd hasye gmax pi_of) m sched c Hnd H01 (src_eos_keeps hasye eos) C A) as (_ & r & E & R1 & R2).
  fold fl in E. fold fl G in R1, R2. assert (E' : m' c = src_tail nspec rs gam geom val mhd hasye gmax pi_of c r) by exact E. clear E.
  pose proof Hs as Hsb. apply Nat.ltb_lt in Hsb.
  destruct (clamp_velocity gmax (c_gcov4 g) (fun i => r (Vvel i))) as [vc Wc] eqn:Cl.
  set (n := p2c val (r Vrho) vc (fun i => if mhd then r (VB i) else 0) (r Veng) (if hasye then r Vye else 0) (r Vprs) (r Vgm1) (c_gcov4 g) (c_gcon g) (c_beta g) (c_lapse g) (c_gdet g)).
  set (r' := fun v => match v with Vvel i => vc i | VcD => cD n | VcS i => cS n i | Vctau => ctau n | Vcye => if hasye then cye n else r Vcye | Vsig i => csig n i | _ => r v end).
  assert (Tl : src_tail nspec rs gam geom val mhd hasye gmax pi_of c r = rad_prim2con nspec rs gam geom pi_of (fun i => vc i / Wc) c r').
  { unfold src_tail. fold g. rewrite Cl. reflexivity. }
  rewrite Tl in E'. clear Tl.
  assert (Ev : forall v, (forall t, v <> VE t) -> (forall t i, v <> VF t i) -> m' c v = r' v).
  { intros v N1 N2. rewrite E'. destruct v; try reflexivity; exfalso; [apply (N1 s0 eq_refl)|apply (N2 s0 i eq_refl)]. }
  assert (Vp : vp = vc) by (apply functional_extensionality; intros i; unfold vp; rewrite Ev by discriminate; reflexivity).
  assert (Cx : forall i, fst (clamp_velocity gmax (c_gcov4 g) (fun i => r (Vvel i))) i = vc i) by (intros i; rewrite Cl; reflexivity).
  split; [|split; [|split]].
  - intros N I. destruct (R1 N I) as [F1 F2]. destruct (F2 s Hs) as [a1 a2].
    split; [rewrite Ev by discriminate; apply F1; left; reflexivity|].
    split; [rewrite Ev by discriminate; apply F1; right; left; reflexivity|].
    split; [intros Y; rewrite Ev by discriminate; apply F1; right; right; right; split; [exact Y|reflexivity]|].
    split; [rewrite Ev by discriminate; exact a1|].
    split; [intros i Hi; rewrite Ev by discriminate; apply a2; exact Hi|].
    intros i Hi. rewrite Ev by discriminate. cbn [r']. rewrite <- Cx. apply clamp_ext; [|exact Hi].
    intros j Hj. apply F1. right; right; left. exists j. split; [exact Hj|reflexivity].
  - intros N. destruct (R2 N) as (F1 & F2 & F3 & F4 & F5). destruct (F5 s Hs) as [a1 a2].
    split; [rewrite Ev by discriminate; exact F1|]. split; [rewrite Ev by discriminate; exact F2|].
    split; [intros Y; rewrite Ev by discriminate; exact (F4 Y)|]. split; [rewrite Ev by discriminate; exact a1|].
    split; [intros i Hi; rewrite Ev by discriminate; exact (a2 i Hi)|].
    intros G1 i Hi. rewrite Ev by discriminate. cbn [r']. rewrite <- Cx. rewrite (clamp_ext gmax (c_gcov4 g) _ (fun _ => 0) F3 i Hi). unfold clamp_velocity.
    assert (W1 : GetLorentzFactor4 (fun _ => 0) (c_gcov4 g) = 1).
    { unfold GetLorentzFactor4, sum3. replace (1 + _) with 1 by ring. apply sqrt_1. }
    rewrite W1, Rlt_bool_false by exact G1. reflexivity.
  - rewrite Vp. rewrite !Ev by discriminate. cbn [r'].
    assert (Eb : (fun i => if mhd then m' c (VB i) else 0) = (fun i => if mhd then r (VB i) else 0)).
    { apply functional_extensionality. intros i. destruct mhd; [|reflexivity]. rewrite Ev by discriminate. reflexivity. }
    rewrite Eb. cbn [r']. fold n. split; [reflexivity|]. split; [reflexivity|]. split; [intros i; rewrite Ev by discriminate; reflexivity|]. intros ->. reflexivity.
  - intros vbar Hv Wm.
    assert (Rv : forall i, (i < 3)%nat -> r (Vvel i) = vbar i).
    { intros i Hi. rewrite (Hv i Hi). destruct (match G with nil => false | _ => true end && interp) eqn:D.
      - apply andb_prop in D. destruct D as [D I]. assert (N : G <> nil) by (intros K; rewrite K in D; discriminate).
        destruct (R1 N I) as [F1 _]. apply F1. right; right; left. exists i. split; [exact Hi|reflexivity].
      - apply andb_false_iff in D. assert (N : G = nil \/ interp = false) by (destruct D as [D|D]; [left; destruct G; [reflexivity|discriminate]|right; exact D]).
        destruct (R2 N) as (_ & _ & F3 & _). apply F3. exact Hi. }
    assert (Wr : GetLorentzFactor (fun i => r (Vvel i)) (gam c) <= gmax).
    { replace (GetLorentzFactor (fun i => r (Vvel i)) (gam c)) with (GetLorentzFactor vbar (gam c)) by (apply LF_ext; intros i Hi; symmetry; apply Rv; exact Hi). exact Wm. }
    pose proof (clamp_inside _ _ _ _ _ _ _ _ Adm gmax (fun i => r (Vvel i)) Wr) as Ci. unfold g in Cl. rewrite Ci in Cl. injection Cl as Evc EWc.
    set (cl := mkClosure (fun i => vc i / Wc) (gam c) (c_lapse g) rs).
    assert (Ecl : mkClosure (fun i => vp i / GetLorentzFactor vp (gam c)) (gam c) (c_lapse g) rs = cl).
    { unfold cl. rewrite Vp. rewrite <- EWc, <- Evc. reflexivity. }
    unfold MomentPrim2Con. rewrite Ecl. rewrite (Ev (VJ s)) by discriminate.
    assert (Eh : (fun i => r' (VJ s) * m' c (VH s i)) = (fun i => r (VH s i) * r (VJ s))).
    { apply functional_extensionality. intros i. rewrite Ev by discriminate. cbn [r']. ring. }
    rewrite Eh. cbn [r'].
    assert (K : forall x, Prim2Con cl energy_conserve (r (VJ s)) (fun i => r (VH s i) * r (VJ s)) (pi_of cl (r (VJ s)) (fun i => r (VH s i) * r (VJ s))) = x ->
      m' c (VE s) = c_gdet g * fst x /\ forall i, m' c (VF s i) = c_gdet g * snd x i).
    { intros x Hx. rewrite <- Hx, E'. unfold rad_prim2con. rewrite Hsb. split; reflexivity. }
    destruct (Prim2Con cl energy_conserve (r (VJ s)) (fun i => r (VH s i) * r (VJ s)) (pi_of cl (r (VJ s)) (fun i => r (VH s i) * r (VJ s)))) as [E2 F2].
    destruct (K _ eq_refl) as [K2 K3]. cbn [fst snd] in K2, K3. f_equal; [exact K2|]. apply functional_extensionality. exact K3.
Qed.
Print Assumptions C23_src_repair_state.

(** * Limits *)
Definition flat_cell : CellGeom := mkCell eta4 delta zero3 1 1.
Definition lone (c : Zone) : bool := if Zone_dec c (z1 1) then true else false.
Definition lone_flag (c : Zone) : R := if lone c then 0 else 1.
Definition lone_sched : list Zone := repeat (z1 1) 60.
Lemma lone_binary : binary lone_flag.
Proof. intros c. unfold lone_flag. destruct (lone c); tauto. Qed.
Lemma lone_good : good_neighbours lone_flag 1 (z1 1) = [z1 0; z1 2].
Proof.
  unfold good_neighbours. assert (A : forall i, i <> 1%Z -> Req_bool (lone_flag (z1 i)) 1 = true).
  { intros i Hi. unfold lone_flag, lone. destruct (Zone_dec (z1 i) (z1 1)) as [K|K]; [exfalso; apply Hi; injection K; auto|]. apply Req_bool_true. reflexivity. }
  change (neighbours 1 (z1 1)) with [z1 0; z1 2]. cbn [filter]. rewrite (A 0%Z), (A 2%Z) by lia. reflexivity.
Qed.
Lemma lone_failed : failed lone_flag lone (z1 1) = true.
Proof. unfold failed, lone_flag, lone. destruct (Zone_dec (z1 1) (z1 1)) as [_|K]; [|exfalso; apply K; reflexivity]. cbn [andb]. num_R. apply Req_bool_true. field. Qed.
Lemma lone_complete (fl : Zone -> R) groups fallback tail : (length (flat_map (fun g : list FVar * (Row R -> Row R) => flat_map (fixup_var 1 (z1 1) 0%R) (fst g) ++ [own (snd g)]) groups) <= 50)%nat ->
  complete lone_sched (failed fl lone) (kernel 1 fl true groups fallback tail).
Proof.
  intros L c A. unfold failed in A. apply andb_prop in A. destruct A as [A _]. unfold lone in A. destruct (Zone_dec c (z1 1)) as [->|]; [|discriminate].
  replace (count_occ Zone_dec lone_sched (z1 1)) with 60%nat by (vm_compute; reflexivity).
  unfold kernel. rewrite app_length. destruct (_ && _); cbn [length]; [|lia].
  replace (length (flat_map (fun g : list FVar * (Row R -> Row R) => flat_map (fixup_var 1 (z1 1) (nlit 1 1 / num_valid 1 fl (z1 1))%num) (fst g) ++ [own (snd g)]) groups))
    with (length (flat_map (fun g : list FVar * (Row R -> Row R) => flat_map (fixup_var 1 (z1 1) 0%R) (fst g) ++ [own (snd g)]) groups)); [lia|].
  clear. induction groups as [|[l f] gs IH]; [reflexivity|]. cbn [flat_map fst snd]. rewrite !app_length, IH. f_equal. f_equal.
  induction l as [|v l IHl]; [reflexivity|]. cbn [flat_map]. rewrite !app_length, IHl. reflexivity.
Qed.
Lemma mean2 a b : mean [a; b] = (a + b) / 2.
Proof. unfold mean, sum_list. cbn. field. Qed.
(** a memory with the same fluid and radiation everywhere, moving in x1 *)
Definition clamp_mem : Mem R := fun _ v => match v with
  | Vvel O => 2 | Vvel _ => 0 | VE _ => 103 / 91 | VF _ O => 40 / 91 | VF _ _ => 0 | _ => 1 end.
(** VIOLATION: where the velocity clamp acts, the moments are inverted with the velocity
    divided by gamma_max, which is not the Lorentz factor of the velocity that is stored
    (C21_clamp_refuted): the primitive and conserved moments of the zone no longer belong
    together.  Flat space, gamma_max = 5/4, neighbours at v = 2/sqrt 5, Eddington closure. *)
Theorem C23_clamped_moments_refuted : forall rs eos,
  let prog := fluid_kernel 1 lone_flag true false (fluid_rad_tail 1 rs (fun _ => delta) (fun _ => flat_cell) true false false eos (5 / 4) true (fun _ => true) pi_eddington) in
  complete lone_sched (failed lone_flag lone) prog /\ failed lone_flag lone (z1 1) = true /\ zone_geometry flat_cell delta /\
  let m' := fst (run lone_flag lone_sched (init (failed lone_flag lone) prog clamp_mem)) in
  let z := z1 1 in
  let '(E, F) := MomentPrim2Con pi_eddington delta 1 1 rs (fun i => m' z (Vvel i)) (m' z (VJ 0)) (fun i => m' z (VH 0 i)) in
  E = 19 / 16 /\ m' z (VE 0) = 103 / 91.
Proof.
  intros rs eos prog.
  assert (Cm : complete lone_sched (failed lone_flag lone) prog) by (apply lone_complete; cbn; lia).
  split; [exact Cm|]. split; [exact lone_failed|]. split. { exists eta4, delta, 1, 1. exact eta4_consistent. }
  intros m' z.
  pose proof (run_kernel 1 lone_flag lone true ltac:(tauto) lone_binary [(fluid_vars false, fluid_max)] (fun _ => fluid_fallback false)
    (fluid_rad_tail 1 rs (fun _ => delta) (fun _ => flat_cell) true false false eos (5 / 4) true (fun _ => true) pi_eddington) clamp_mem lone_sched (z1 1) Cm lone_failed) as E.
  rewrite lone_good in E. cbn [andb] in E. cbn [segments fold_left fst snd] in E.
  set (r := fluid_max _) in E. assert (E' : m' z = fluid_rad_tail 1 rs (fun _ => delta) (fun _ => flat_cell) true false false eos (5 / 4) true (fun _ => true) pi_eddington (z1 1) r) by exact E. clear E.
  assert (Rv : (fun i => r (Vvel i)) = v3 2 0 0).
  { apply functional_extensionality. intros i. unfold r. change (fluid_max ?q (Vvel i)) with (q (Vvel i)).
    assert (K : (i < 3)%nat -> filled 1 lone_flag clamp_mem (z1 1) (clamp_mem (z1 1)) (1 / num_valid 1 lone_flag (z1 1)) (fluid_vars false) (Vvel i) = clamp_mem (z1 0) (Vvel i)).
    { intros Hi. rewrite (filled_mean 1 lone_flag ltac:(tauto) lone_binary clamp_mem (z1 1) (clamp_mem (z1 1)) (fluid_vars false) (Vvel i)); [|rewrite lone_good; discriminate|].
      - rewrite lone_good. cbn [map]. rewrite mean2. change (clamp_mem (z1 2)) with (clamp_mem (z1 0)). field.
      - destruct i as [|[|[|i]]]; [cbn; tauto|cbn; tauto|cbn; tauto|lia]. }
    destruct i as [|[|[|i]]]; [rewrite K by lia; reflexivity|rewrite K by lia; reflexivity|rewrite K by lia; reflexivity|].
    rewrite filled_out; [reflexivity|]. cbn. intuition discriminate. }
  assert (Re : r (VE 0) = 103 / 91 /\ (fun i => r (VF 0 i)) = v3 (40 / 91) 0 0).
  { split; [|apply functional_extensionality; intros i]; unfold r.
    - change (fluid_max ?q (VE 0)) with (q (VE 0%nat)). rewrite filled_out; [reflexivity|]. cbn. intuition discriminate.
    - change (fluid_max ?q (VF 0 i)) with (q (VF 0%nat i)). rewrite filled_out; [destruct i as [|[|[|i]]]; reflexivity|]. cbn. intuition discriminate. }
  destruct Re as [Re Rf]. clearbody r.
  assert (W5 : GetLorentzFactor (v3 2 0 0) delta * GetLorentzFactor (v3 2 0 0) delta = 5).
  { rewrite (lorentz_sq _ _ _ _ _ (adm_tpo _ _ _ _ _ _ _ _ eta4_consistent)). unfold dot3, sum3, delta, v3. cbn. ring. }
  assert (W1 : 1 <= GetLorentzFactor (v3 2 0 0) delta) by exact (lorentz_ge1 _ _ _ _ _ (adm_tpo _ _ _ _ _ _ _ _ eta4_consistent)).
  pose proof (clamp_acts _ _ _ _ _ _ _ _ eta4_consistent (5 / 4) (v3 2 0 0) ltac:(nra)) as Cl.
  assert (Vc : rescaled (5 / 4) (GetLorentzFactor (v3 2 0 0) delta) (v3 2 0 0) = v3 (3 / 8) 0 0).
  { apply functional_extensionality. intros i. unfold rescaled, rescale_fac. rewrite W5.
    replace (5 / 4 * (5 / 4) - 1) with (3 / 4 * (3 / 4)) by field. rewrite sqrt_square by lra. destruct i as [|[|[|i]]]; cbn; field. }
  rewrite Vc in Cl.
  set (cl := mkClosure (v3 (3 / 10) 0 0) delta 1 rs).
  assert (Ecl : mkClosure (fun i => v3 (3 / 8) 0 0 i / (5 / 4)) delta 1 rs = cl).
  { unfold cl. f_equal. apply functional_extensionality. intros i. destruct i as [|[|[|i]]]; cbn; field. }
  assert (Dv : dot3 delta (v3 (3 / 10) 0 0) (v3 (3 / 10) 0 0) = 9 / 100) by (unfold dot3, sum3, delta, v3; cbn; field).
  assert (W2 : cW2 cl = 100 / 91 /\ cW cl * cW cl = 100 / 91).
  { unfold cl, mkClosure. cbn [cW2 cW]. replace (sum3 _) with (9 / 100) by (unfold sum3, lower3Vector, sum3, delta, v3; cbn; field).
    rewrite Rmin_left by lra. assert (S : sqrt (1 - 9 / 100) * sqrt (1 - 9 / 100) = 91 / 100) by (rewrite sqrt_sqrt by lra; lra).
    assert (Sp : 0 < sqrt (1 - 9 / 100)) by (apply sqrt_lt_R0; lra). assert (K : 1 / sqrt (1 - 9 / 100) * (1 / sqrt (1 - 9 / 100)) = 100 / 91).
    { replace (1 / sqrt (1 - 9 / 100) * (1 / sqrt (1 - 9 / 100))) with (1 / (sqrt (1 - 9 / 100) * sqrt (1 - 9 / 100))) by (field; lra). rewrite S. field. }
    split; exact K. }
  destruct W2 as [W2 Wq].
  assert (Cv : forall i, cov_v cl i = v3 (3 / 10) 0 0 i).
  { intros i. unfold cl, mkClosure, lower3Vector, sum3, delta, v3. cbn [cov_v]. destruct i as [|[|[|i]]]; cbn; field. }
  assert (P2 : Prim2Con cl energy_conserve 1 (fun _ => 0) (pi_eddington cl (103 / 91) (v3 (40 / 91) 0 0)) = (103 / 91, v3 (40 / 91) 0 0)).
  { unfold Prim2Con. rewrite W2.
    assert (Z : forall Q, (forall i j, Q i j = 0) -> vvTilPi cl Q = 0 /\ forall i, cov_vTilPi cl Q i = 0).
    { intros Q HQ. unfold vvTilPi, cov_vTilPi, con_vTilPi, lower3Vector, sum3. split; [rewrite !HQ; ring|]. intros i. rewrite !HQ. ring. }
    destruct (Z (pi_eddington cl (103 / 91) (v3 (40 / 91) 0 0)) (fun _ _ => eq_refl)) as [Z1 Z2]. rewrite Z1. apply (f_equal2 (fun a b => (a, b))).
    - unfold sum3. field.
    - apply functional_extensionality. intros i. rewrite Z2, Cv. unfold sum3, v3. destruct i as [|[|[|i]]]; field. }
  assert (Lam : c2p_lam cl (pi_eddington cl (103 / 91) (v3 (40 / 91) 0 0)) <> 0).
  { pose proof (C29_eddington_regular 1 delta (v3 (3 / 10) 0 0) rs (pi_eddington cl (103 / 91) (v3 (40 / 91) 0 0)) (fun _ _ _ _ => eq_refl)) as K. fold cl in K. lra. }
  pose proof (C29_success _ _ _ _ _ _ _ _ (v3 (3 / 10) 0 0) (cW cl) rs (pi_eddington cl (103 / 91) (v3 (40 / 91) 0 0)) 1 (fun _ => 0) (fun _ => 0) eta4_consistent) as K.
  assert (Wp : 0 < cW cl). { unfold cl, mkClosure. cbn [cW]. apply Rdiv_lt_0_compat; [lra|]. apply sqrt_lt_R0. assert (Rmin (sum3 (fun i : nat => v3 (3 / 10) 0 0 i * lower3Vector delta (v3 (3 / 10) 0 0) i)) (9999 / 10000) <= 9999 / 10000) by apply Rmin_r. lra. }
  assert (LO : lorentz_of delta (v3 (3 / 10) 0 0) (cW cl)) by (split; [exact Wp|rewrite Wq, Dv; field]).
  specialize (K LO ltac:(rewrite Dv; lra) Lam ltac:(intros; unfold lower3, sum3; ring) ltac:(lra) ltac:(unfold dot3, sum3; lra)).
  fold cl in K. rewrite P2 in K.
  destruct (Con2Prim cl energy_conserve (103 / 91) (v3 (40 / 91) 0 0) (pi_eddington cl (103 / 91) (v3 (40 / 91) 0 0))) as [[J0 H0] st] eqn:EC. destruct K as (_ & -> & KH).
  set (r' := fluid_tail true false false eos (5 / 4) (fun _ => flat_cell) (z1 1) r).
  assert (Tl : m' z = rad_reinvert 1 rs (fun _ => delta) (fun _ => flat_cell) pi_eddington (v3 (3 / 8) 0 0) (5 / 4) (z1 1) r').
  { rewrite E'. unfold fluid_rad_tail. rewrite Rv. change (c_gcov4 flat_cell) with eta4. rewrite Cl. reflexivity. }
  assert (Vv : (fun i => m' z (Vvel i)) = v3 (3 / 8) 0 0).
  { apply functional_extensionality. intros i. rewrite Tl. change (r' (Vvel i) = v3 (3 / 8) 0 0 i). unfold r', fluid_tail. rewrite Rv. change (c_gcov4 flat_cell) with eta4. rewrite Cl. reflexivity. }
  assert (Ef : (fun i => r' (VF 0 i) / c_gdet flat_cell) = v3 (40 / 91) 0 0).
  { apply functional_extensionality. intros i. rewrite <- Rf. change (r (VF 0 i) / 1 = r (VF 0 i)). field. }
  assert (Ee : r' (VE 0) / c_gdet flat_cell = 103 / 91) by (change (r (VE 0) / 1 = 103 / 91); rewrite Re; field).
  assert (Jv : m' z (VJ 0) = 1 /\ forall i, (i < 3)%nat -> m' z (VH 0 i) = 0).
  { rewrite Tl. unfold rad_reinvert. change (Nat.ltb 0 1) with true. cbv iota. change (c_lapse flat_cell) with 1. rewrite Ecl, Ee, Ef, EC. split; [reflexivity|].
    intros i Hi. cbn [snd]. rewrite (KH i Hi). field. }
  destruct Jv as [Jv Hv].
  rewrite Vv, Jv.
  unfold MomentPrim2Con. unfold Prim2Con. split.
  - assert (L2 : GetLorentzFactor (v3 (3 / 8) 0 0) delta * GetLorentzFactor (v3 (3 / 8) 0 0) delta = 73 / 64).
    { rewrite (lorentz_sq _ _ _ _ _ (adm_tpo _ _ _ _ _ _ _ _ eta4_consistent)). unfold dot3, sum3, delta, v3. cbn. field. }
    assert (L1 : 1 <= GetLorentzFactor (v3 (3 / 8) 0 0) delta) by exact (lorentz_ge1 _ _ _ _ _ (adm_tpo _ _ _ _ _ _ _ _ eta4_consistent)).
    set (L := GetLorentzFactor (v3 (3 / 8) 0 0) delta) in *.
    set (c2 := mkClosure (fun i => v3 (3 / 8) 0 0 i / L) delta 1 rs).
    assert (W3 : cW2 c2 = 73 / 64).
    { unfold c2, mkClosure. cbn [cW2].
      assert (Sm : sum3 (fun i => v3 (3 / 8) 0 0 i / L * lower3Vector delta (fun i0 => v3 (3 / 8) 0 0 i0 / L) i) = 9 / 73).
      { transitivity (9 / 64 / (L * L)); [unfold lower3Vector, sum3, delta, v3; cbn; field; lra|rewrite L2; field]. }
      rewrite Sm. rewrite Rmin_left by lra. assert (S : sqrt (1 - 9 / 73) * sqrt (1 - 9 / 73) = 64 / 73) by (rewrite sqrt_sqrt by lra; lra).
      assert (Sp : 0 < sqrt (1 - 9 / 73)) by (apply sqrt_lt_R0; lra).
      replace (1 / sqrt (1 - 9 / 73) * (1 / sqrt (1 - 9 / 73))) with (1 / (sqrt (1 - 9 / 73) * sqrt (1 - 9 / 73))) by (field; lra). rewrite S. field. }
    rewrite W3. assert (Zv : forall a b, vvTilPi c2 (pi_eddington c2 a b) = 0) by (intros a b; unfold vvTilPi, con_vTilPi, pi_eddington, sum3; ring).
    rewrite Zv. unfold sum3. rewrite !Hv by lia. field.
  - rewrite Tl. exact Re.
Qed.
Print Assumptions C23_clamped_moments_refuted.

(** two streams of gas approaching the zone, each with radiation streaming to the right with
    a flux factor below one *)
Definition clash_mem : Mem R := fun d v => match v with
  | Vvel O => if Zone_dec d (z1 0) then 2 else if Zone_dec d (z1 2) then -2 else 0 | Vvel _ => 0
  | VH _ O => 2 | VH _ _ => 0 | _ => 1 end.
Lemma clash_aux rs (m' : Mem R) : let avg v := mean (map (fun d => clash_mem d v) [z1 0; z1 2]) in
  m' (z1 1) (VJ 0) = avg (VJ 0) -> (forall i, (i < 3)%nat -> m' (z1 1) (VH 0 i) = avg (VH 0 i)) ->
  (forall i, (i < 3)%nat -> m' (z1 1) (Vvel i) = fst (clamp_velocity 10 (c_gcov4 flat_cell) (fun j => avg (Vvel j))) i) ->
  (m' (z1 1) (VE 0), fun i => m' (z1 1) (VF 0 i)) = MomentPrim2Con pi_eddington delta (c_lapse flat_cell) (c_gdet flat_cell) rs (fun i => m' (z1 1) (Vvel i)) (m' (z1 1) (VJ 0)) (fun i => m' (z1 1) (VH 0 i)) ->
  flux_factor delta 1 rs (fun i => m' (z1 1) (Vvel i)) (fun i => m' (z1 1) (VH 0 i)) = 2 /\ m' (z1 1) (VE 0) = 1 /\ m' (z1 1) (VF 0 0) = 2.
Proof.
  intros avg AJ AH AV B'. unfold avg in AJ, AH, AV. clear avg.
  cbn [map] in AJ, AH, AV. rewrite mean2 in AJ.
  assert (Zv : forall j, (j < 3)%nat -> (clash_mem (z1 0) (Vvel j) + clash_mem (z1 2) (Vvel j)) / 2 = 0).
  { intros j Hj. destruct j as [|[|[|j]]]; try lia; cbn; field. }
  assert (MV : forall i, (i < 3)%nat -> m' (z1 1) (Vvel i) = 0).
  { intros i Hi. rewrite (AV i Hi). rewrite (clamp_ext 10 (c_gcov4 flat_cell) _ (fun _ => 0) (fun j Hj => eq_trans (mean2 _ _) (Zv j Hj)) i Hi). unfold clamp_velocity.
    assert (W1 : GetLorentzFactor4 (fun _ => 0) (c_gcov4 flat_cell) = 1) by (unfold GetLorentzFactor4, sum3; replace (1 + _) with 1 by ring; apply sqrt_1).
    rewrite W1, Rlt_bool_false by lra. reflexivity. }
  assert (MH : m' (z1 1) (VH 0 0) = 2 /\ m' (z1 1) (VH 0 1) = 0 /\ m' (z1 1) (VH 0 2) = 0).
  { rewrite !AH by lia. rewrite !mean2. cbn. repeat split; field. }
  assert (MJ : m' (z1 1) (VJ 0) = 1) by (rewrite AJ; cbn; field).
  destruct MH as (H0 & H1 & H2).
  assert (W0 : GetLorentzFactor (fun i => m' (z1 1) (Vvel i)) delta = 1).
  { unfold GetLorentzFactor, sum3. rewrite !MV by lia. replace (1 + _) with 1 by ring. apply sqrt_1. }
  unfold MomentPrim2Con, Prim2Con in B'. rewrite W0 in B'.
  set (c2 := mkClosure (fun i => m' (z1 1) (Vvel i) / 1) delta (c_lapse flat_cell) rs) in B'.
  assert (Cw : cW2 c2 = 1 /\ cW c2 = 1).
  { unfold c2, mkClosure. cbn [cW2 cW]. replace (sum3 _) with 0 by (unfold sum3, lower3Vector, sum3; rewrite !MV by lia; field).
    rewrite Rmin_left by lra. rewrite Rminus_0_r, sqrt_1. split; field. }
  assert (Cv : forall i, cov_v c2 i = 0) by (intros i; unfold c2, mkClosure, lower3Vector, sum3; cbn [cov_v]; rewrite !MV by lia; field).
  assert (Vz : forall i, (i < 3)%nat -> con_v c2 i = 0) by (intros i Hi; unfold c2, mkClosure; cbn [con_v]; rewrite MV by exact Hi; field).
  destruct Cw as [Cw2 Cw1]. pose proof (f_equal fst B') as B3. pose proof (f_equal snd B') as B4. cbn [fst snd] in B3, B4. pose proof (equal_f B4 0%nat) as B5. cbn beta in B5. split; [|split].
  - unfold flux_factor, three_velocity. rewrite W0.
    change (mkClosure (fun i => m' (z1 1) (Vvel i) / 1) delta 1 rs) with c2.
    replace (flux_sq c2 (fun i => m' (z1 1) (VH 0 i))) with (2 * 2); [apply sqrt_square; lra|].
    assert (Ig : forall i j, (i < 3)%nat -> (j < 3)%nat -> con_gamma c2 i j = delta i j).
    { intros i j Hi Hj. unfold c2. cbn [con_gamma mkClosure]. unfold LinearAlgebra.matrixInverse3x3, delta. cbn [fst]. destruct i as [|[|[|i]]]; destruct j as [|[|[|j]]]; try lia; cbn; field. }
    unfold flux_sq, contractCov3Vectors, contractConCov3Vectors, sum3. rewrite !Ig, !Vz by lia. rewrite H0, H1, H2. unfold delta. cbn [Nat.eqb]. ring.
  - rewrite B3, Cw2, Cw1. unfold vvTilPi, con_vTilPi, pi_eddington, sum3. rewrite !Vz by lia. rewrite MJ. change (c_gdet flat_cell) with 1. field.
  - rewrite B5, Cw2, Cw1, Cv. unfold cov_vTilPi, con_vTilPi, lower3Vector, pi_eddington, sum3. rewrite !Vz by lia. rewrite MJ, H0. change (c_gdet flat_cell) with 1. field.
Qed.

(** VIOLATION: the repair after a failed source update computes the flux factor but does not
    limit it: the zone between the streams is left with twice the flux light could carry,
    in its primitive and in its conserved moments. *)
Theorem C23_src_flux_refuted : forall rs eos,
  let fl := src_flags lone_flag (fun _ => true) in
  let prog := src_kernel 1 fl true false 1 (src_eos false eos) (src_tail 1 rs (fun _ => delta) (fun _ => flat_cell) true false false 10 pi_eddington) in
  let factor (m : Mem R) c := flux_factor delta 1 rs (fun i => m c (Vvel i)) (fun i => m c (VH 0 i)) in
  complete lone_sched (failed fl lone) prog /\
  good_neighbours fl 1 (z1 1) = [z1 0; z1 2] /\ (forall d, In d [z1 0; z1 2] -> factor clash_mem d < 1) /\
  let m' := fst (run fl lone_sched (init (failed fl lone) prog clash_mem)) in
  factor m' (z1 1) = 2 /\ m' (z1 1) (VE 0) = 1 /\ m' (z1 1) (VF 0 0) = 2.
Proof.
  intros rs eos fl prog factor.
  assert (Efl : fl = lone_flag) by reflexivity.
  assert (Cm : complete lone_sched (failed fl lone) prog) by (apply lone_complete; cbn; lia).
  split; [exact Cm|]. split; [rewrite Efl; exact lone_good|].
  assert (Fv : forall a b L, 0 < L -> a * a <= 9999 / 10000 * (L * L) -> flux_sq (mkClosure (fun i => v3 a 0 0 i / L) delta 1 rs) (v3 b 0 0) = b * b - a * a * b * b / (L * L)).
  { intros a b L HL Ha. unfold flux_sq. cbn [con_gamma con_v mkClosure].
    assert (Ig : forall i j, (i < 3)%nat -> (j < 3)%nat -> fst (LinearAlgebra.matrixInverse3x3 delta) i j = delta i j).
    { intros i j Hi Hj. unfold LinearAlgebra.matrixInverse3x3, delta. cbn [fst]. destruct i as [|[|[|i]]]; destruct j as [|[|[|j]]]; try lia; cbn; field. }
    unfold contractCov3Vectors, contractConCov3Vectors, sum3. rewrite !Ig by lia. unfold delta, v3. cbn [Nat.eqb]. field. lra. }
  assert (Lz : forall a, GetLorentzFactor (v3 a 0 0) delta * GetLorentzFactor (v3 a 0 0) delta = 1 + a * a).
  { intros a. rewrite (lorentz_sq _ _ _ _ _ (adm_tpo _ _ _ _ _ _ _ _ eta4_consistent)). unfold dot3, sum3, delta, v3. cbn. ring. }
  assert (L1 : forall a, 1 <= GetLorentzFactor (v3 a 0 0) delta) by (intros a; exact (lorentz_ge1 _ _ _ _ _ (adm_tpo _ _ _ _ _ _ _ _ eta4_consistent))).
  assert (Hh : forall d, (fun i => clash_mem d (VH 0 i)) = v3 2 0 0) by (intros d; apply functional_extensionality; intros i; destruct i as [|[|[|i]]]; reflexivity).
  assert (Fq : forall a, a * a = 4 -> sqrt (flux_sq (mkClosure (three_velocity delta (v3 a 0 0)) delta 1 rs) (v3 2 0 0)) < 1).
  { intros a Ha. unfold three_velocity. rewrite Fv; [|pose proof (L1 a); lra|rewrite Lz, Ha; lra]. rewrite Lz, Ha.
    apply (Rlt_le_trans _ (sqrt 1)); [apply sqrt_lt_1; lra|rewrite sqrt_1; lra]. }
  split.
  { intros d [<-|[<-|[]]]; unfold factor, flux_factor; rewrite Hh.
    - replace (fun i => clash_mem (z1 0) (Vvel i)) with (v3 2 0 0) by (apply functional_extensionality; intros i; destruct i as [|[|[|i]]]; reflexivity). apply Fq. ring.
    - replace (fun i => clash_mem (z1 2) (Vvel i)) with (v3 (-2) 0 0) by (apply functional_extensionality; intros i; destruct i as [|[|[|i]]]; reflexivity). apply Fq. ring. }
  intros m'.
  destruct (C23_src_repair_state 1 lone_flag (fun _ => true) lone true 1 rs (fun _ => delta) (fun _ => flat_cell) true false false eos 10 pi_eddington clash_mem lone_sched (z1 1) 0
    ltac:(tauto) lone_binary Cm lone_failed ltac:(lia) ltac:(exists eta4, delta, 1, 1; exact eta4_consistent)) as (A & _ & _ & B).
  rewrite (lone_good : good_neighbours (src_flags lone_flag (fun _ => true)) 1 (z1 1) = [z1 0; z1 2]) in A, B.
  destruct (A ltac:(discriminate) eq_refl) as (_ & _ & _ & AJ & AH & AV). clear A.
  assert (WZ : GetLorentzFactor (fun _ => 0) delta <= 10) by (unfold GetLorentzFactor, sum3; replace (1 + _) with 1 by ring; rewrite sqrt_1; lra).
  refine (clash_aux rs m' AJ AH AV (B (fun _ => 0) _ WZ)).
  intros i Hi. cbn [map andb]. rewrite mean2. symmetry. destruct i as [|[|[|i]]]; try lia; cbn; field.
Qed.
Print Assumptions C23_src_flux_refuted.

(** hypotheses of the theorems: the first three are met by the examples above (also of the
    radiation kernel); for the moments, gas at rest with beamed radiation *)
Definition rest_mem : Mem R := fun _ v => match v with Vvel _ => 0 | VF _ O => / 2 | VF _ _ => 0 | VH _ _ => 0 | _ => 1 end.
Example C23_moments_nonvacuous : forall rs,
  let vbar := repaired_velocity lone_flag 1 true rest_mem (z1 1) in
  let cl := mkClosure (three_velocity delta vbar) delta (c_lapse flat_cell) rs in
  let E := rest_mem (z1 1) (VE 0) / c_gdet flat_cell in let F : vec := fun i => rest_mem (z1 1) (VF 0 i) / c_gdet flat_cell in
  zone_geometry flat_cell delta /\ GetLorentzFactor vbar delta <= 10 /\ dot3 delta (three_velocity delta vbar) (three_velocity delta vbar) <= 9999 / 10000 /\
  c2p_lam cl (pi_eddington cl E F) <> 0 /\ snd (Con2Prim cl energy_conserve E F (pi_eddington cl E F)) = Csuccess.
Proof.
  intros rs vbar cl E F.
  assert (Vz : vbar = fun _ => 0).
  { apply functional_extensionality. intros i. unfold vbar, repaired_velocity. rewrite lone_good. cbn [andb]. destruct (Nat.ltb i 3); [|reflexivity]. cbn [map]. rewrite mean2. cbn. field. }
  assert (W0 : GetLorentzFactor vbar delta = 1) by (rewrite Vz; unfold GetLorentzFactor, sum3; replace (1 + _) with 1 by ring; apply sqrt_1).
  assert (T0 : three_velocity delta vbar = fun _ => 0) by (apply functional_extensionality; intros i; unfold three_velocity; rewrite W0, Vz; field).
  assert (D0 : dot3 delta (fun _ => 0) (fun _ => 0) = 0) by (unfold dot3, sum3; ring).
  assert (Lam : c2p_lam cl (pi_eddington cl E F) <> 0).
  { pose proof (C29_eddington_regular (c_lapse flat_cell) delta (three_velocity delta vbar) rs (pi_eddington cl E F) (fun _ _ _ _ => eq_refl)) as K. fold cl in K. lra. }
  split; [exists eta4, delta, 1, 1; exact eta4_consistent|]. split; [lra|]. split; [rewrite T0; lra|]. split; [exact Lam|].
  assert (Cw : cW2 cl = 1 /\ cW cl = 1).
  { unfold cl, mkClosure. cbn [cW2 cW]. rewrite T0. replace (sum3 _) with 0 by (unfold sum3; ring). rewrite Rmin_left by lra. rewrite Rminus_0_r, sqrt_1. split; field. }
  destruct Cw as [Cw2 Cw1].
  assert (Cv : forall i, cov_v cl i = 0) by (intros i; unfold cl, mkClosure, lower3Vector, sum3; cbn [cov_v]; rewrite T0; ring).
  pose proof (C29_success _ _ _ _ _ _ _ _ (three_velocity delta vbar) 1 rs (pi_eddington cl E F) 1 (v3 (/ 2) 0 0) (v3 (/ 2) 0 0) eta4_consistent) as K.
  assert (LO : lorentz_of delta (three_velocity delta vbar) 1) by (split; [lra|rewrite T0, D0; ring]).
  specialize (K LO ltac:(rewrite T0; lra) Lam).
  assert (HH : forall i, (i < 3)%nat -> v3 (/ 2) 0 0 i = lower3 delta (v3 (/ 2) 0 0) i) by (intros i Hi; unfold lower3, sum3, delta, v3; destruct i as [|[|[|i]]]; try lia; cbn; field).
  specialize (K HH ltac:(lra)).
  assert (Dh : dot3 delta (v3 (/ 2) 0 0) (v3 (/ 2) 0 0) - dot3 delta (three_velocity delta vbar) (v3 (/ 2) 0 0) * dot3 delta (three_velocity delta vbar) (v3 (/ 2) 0 0) < 1 * 1).
  { rewrite T0. unfold dot3, sum3, delta, v3. cbn. lra. }
  specialize (K Dh).
  assert (P : Prim2Con cl energy_conserve 1 (v3 (/ 2) 0 0) (pi_eddington cl E F) = (E, F)).
  { unfold Prim2Con. rewrite Cw2, Cw1. apply (f_equal2 (fun a b => (a, b))).
    - unfold vvTilPi, con_vTilPi, pi_eddington, sum3. unfold cl, mkClosure. cbn [con_v]. rewrite T0. unfold E. cbn. field.
    - apply functional_extensionality. intros i. rewrite Cv. unfold cov_vTilPi, con_vTilPi, lower3Vector, pi_eddington, sum3, F. destruct i as [|[|[|i]]]; cbn; field. }
  change (mkClosure (three_velocity delta vbar) delta 1 rs) with cl in K. rewrite P in K.
  destruct (Con2Prim cl energy_conserve E F (pi_eddington cl E F)) as [[J' H'] st]. exact (proj1 K).
Qed.
