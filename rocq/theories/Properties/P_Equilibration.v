(** C66: matter and radiation at rest approach a common temperature without overshooting. *)
From Coq Require Import Reals Lra Lia Arith List String Bool Psatz.
From Flocq Require Import Core.
From Verif.Spec Require Import Tensor RadExchange EquilibriumSpec.
From Verif.Model Require Import Num RootFind Geometry LinearAlgebra Relativity RadClosure RadSource RadTransport Equilibration.
From Verif.Proofs Require Import NumR LinearAlgebraProofs RootFindProofs.
From Verif.Properties Require Import P_RadImplicit P_RadExchange.
Import ListNotations.
Local Open Scope R_scope.

Lemma relaxed_up d k B J J' : 0 <= d -> 0 <= k -> relaxed d k B J J' -> J <= B -> J <= J' <= B.
Proof. unfold relaxed. intros Hd Hk E L. assert (0 <= d * k) by nra. split; [|nra]. destruct (Rle_dec J J'); [assumption|nra]. Qed.
Lemma relaxed_down d k B J J' : 0 <= d -> 0 <= k -> relaxed d k B J J' -> B <= J -> B <= J' <= J.
Proof. unfold relaxed. intros Hd Hk E L. assert (0 <= d * k) by nra. split; [nra|]. destruct (Rle_dec J' J); [assumption|nra]. Qed.
Lemma species_sum_le n f g : (forall s, (s < n)%nat -> f s <= g s) -> species_sum n f <= species_sum n g.
Proof. induction n as [|n IH]; intros K; cbn; [lra|]. pose proof (K n ltac:(lia)). assert (species_sum n f <= species_sum n g) by (apply IH; intros; apply K; lia). lra. Qed.

Section One.
Variables (n : nat) (sp : nat -> Thermal) (eu : R -> R) (amax : R).
Hypothesis O : ordinary n sp eu amax.
Lemma cap_pos s T : (s < n)%nat -> 0 < T -> 0 <= Rmin (th_abs (sp s) T) amax.
Proof. intros Hs Ht. apply Rmin_glb; [apply (ord_abs _ _ _ _ O); assumption|apply (ord_max _ _ _ _ O)]. Qed.
Lemma eu_le T T' : 0 < T -> 0 < T' -> eu T <= eu T' -> T <= T'.
Proof. intros P Q L. destruct (Rle_dec T T'); [assumption|]. pose proof (ord_eu _ _ _ _ O T' T Q ltac:(lra)). lra. Qed.
Lemma eu_mono T T' : 0 < T -> T <= T' -> eu T <= eu T'.
Proof. intros P [L| ->]; [|lra]. pose proof (ord_eu _ _ _ _ O T T' P L). lra. Qed.

Lemma step_between lo hi dtau a b : 0 < lo -> 0 <= dtau -> 0 < hs_T a -> 0 < hs_T b -> between n sp lo hi a ->
  exchange_step n sp eu amax dtau a b -> between n sp lo hi b.
Proof.
  intros Hlo Hd Pa Pb [BT BJ] [Rl Tot]. unfold total in Tot.
  assert (U : hs_T b <= hi).
  { destruct (Rle_dec (hs_T b) hi); [assumption|]. exfalso.
    assert (eu (hs_T a) < eu (hs_T b)) by (apply (ord_eu _ _ _ _ O); lra).
    assert (species_sum n (hs_J a) <= species_sum n (hs_J b)); [|lra]. apply species_sum_le. intros s Hs.
    pose proof (ord_J _ _ _ _ O s hi (hs_T b) Hs ltac:(lra) ltac:(lra)). pose proof (BJ s Hs).
    apply (relaxed_up _ _ _ _ _ Hd (cap_pos s _ Hs Pb) (Rl s Hs)). lra. }
  assert (L : lo <= hs_T b).
  { destruct (Rle_dec lo (hs_T b)); [assumption|]. exfalso.
    assert (eu (hs_T b) < eu (hs_T a)) by (apply (ord_eu _ _ _ _ O); lra).
    assert (species_sum n (hs_J b) <= species_sum n (hs_J a)); [|lra]. apply species_sum_le. intros s Hs.
    pose proof (ord_J _ _ _ _ O s (hs_T b) lo Hs Pb ltac:(lra)). pose proof (BJ s Hs).
    apply (relaxed_down _ _ _ _ _ Hd (cap_pos s _ Hs Pb) (Rl s Hs)). lra. }
  split; [lra|]. intros s Hs. pose proof (BJ s Hs) as Bs.
  pose proof (ord_J _ _ _ _ O s lo (hs_T b) Hs Hlo L). pose proof (ord_J _ _ _ _ O s (hs_T b) hi Hs Pb U).
  destruct (Rle_dec (hs_J a s) (th_J (sp s) (hs_T b))) as [A|A].
  - pose proof (relaxed_up _ _ _ _ _ Hd (cap_pos s _ Hs Pb) (Rl s Hs) A). lra.
  - pose proof (relaxed_down _ _ _ _ _ Hd (cap_pos s _ Hs Pb) (Rl s Hs) ltac:(lra)). lra.
Qed.
End One.

(** Any number of species, any opacities and spectra, any step lengths, any number of steps:
    the matter temperature and every species stay between the coldest and the hottest of the
    starting temperatures, and matter plus radiation keep their energy. *)
Theorem C66_range : forall n sp eu amax lo hi a ds b,
  ordinary n sp eu amax -> 0 < lo -> between n sp lo hi a -> exchange_history n sp eu amax a ds b ->
  between n sp lo hi b /\ total n (eu (hs_T b)) (hs_J b) = total n (eu (hs_T a)) (hs_J a).
Proof.
  intros n sp eu amax lo hi a ds b O Hlo B Hi. assert (K : 0 < hs_T b /\ between n sp lo hi b /\ total n (eu (hs_T b)) (hs_J b) = total n (eu (hs_T a)) (hs_J a)).
  { induction Hi as [P|ds b dtau c Hi IH Hd Pc St]; [auto|]. destruct IH as (Pb & Bb & Tb). split; [exact Pc|]. split.
    - exact (step_between n sp eu amax O lo hi dtau b c Hlo Hd Pb Pc Bb St).
    - rewrite <- Tb. apply St. }
  tauto.
Qed.
Print Assumptions C66_range.

Section Single.
Variables (sp : nat -> Thermal) (eu : R -> R) (amax : R).
Hypothesis O : ordinary 1 sp eu amax.
Let B := th_J (sp 0%nat).
Lemma single_step dtau a b : 0 <= dtau -> 0 < hs_T a -> 0 < hs_T b -> exchange_step 1 sp eu amax dtau a b ->
  let d := dtau * Rmin (th_abs (sp 0%nat) (hs_T b)) amax in
  0 <= d /\ hs_J b 0%nat - hs_J a 0%nat = d * (B (hs_T b) - hs_J b 0%nat) /\
  (hs_J a 0%nat <= B (hs_T a) -> hs_T b <= hs_T a /\ hs_J a 0%nat <= hs_J b 0%nat <= B (hs_T b)) /\
  (B (hs_T a) <= hs_J a 0%nat -> hs_T a <= hs_T b /\ B (hs_T b) <= hs_J b 0%nat <= hs_J a 0%nat).
Proof.
  intros Hd Pa Pb [Rl Tot] d. specialize (Rl 0%nat ltac:(lia)). pose proof (cap_pos 1 sp eu amax O 0 (hs_T b) ltac:(lia) Pb) as Pk.
  unfold total in Tot. cbn in Tot. pose proof (ord_J _ _ _ _ O 0%nat) as Mb. fold B in Mb, Rl.
  assert (Pd : 0 <= d) by (unfold d; nra). split; [exact Pd|]. split; [exact Rl|]. split.
  - intros L. assert (T1 : hs_T b <= hs_T a).
    { destruct (Rle_dec (hs_T b) (hs_T a)); [assumption|]. exfalso. pose proof (ord_eu _ _ _ _ O (hs_T a) (hs_T b) Pa ltac:(lra)).
      pose proof (Mb (hs_T a) (hs_T b) ltac:(lia) Pa ltac:(lra)). pose proof (relaxed_up _ _ _ _ _ Hd Pk Rl ltac:(lra)). lra. }
    split; [exact T1|]. pose proof (eu_mono 1 sp eu amax O (hs_T b) (hs_T a) Pb T1) as E. assert (J1 : hs_J a 0%nat <= hs_J b 0%nat) by lra.
    split; [exact J1|]. destruct (Rle_dec (hs_J a 0%nat) (B (hs_T b))) as [A|A]; [apply (relaxed_up _ _ _ _ _ Hd Pk Rl A)|].
    pose proof (relaxed_down _ _ _ _ _ Hd Pk Rl ltac:(lra)) as D.
    assert (hs_T a <= hs_T b) by (apply (eu_le 1 sp eu amax O); lra). replace (hs_T b) with (hs_T a) in A |- * by lra. lra.
  - intros L. assert (T1 : hs_T a <= hs_T b).
    { destruct (Rle_dec (hs_T a) (hs_T b)); [assumption|]. exfalso. pose proof (ord_eu _ _ _ _ O (hs_T b) (hs_T a) Pb ltac:(lra)).
      pose proof (Mb (hs_T b) (hs_T a) ltac:(lia) Pb ltac:(lra)). pose proof (relaxed_down _ _ _ _ _ Hd Pk Rl ltac:(lra)). lra. }
    split; [exact T1|]. pose proof (eu_mono 1 sp eu amax O (hs_T a) (hs_T b) Pa T1) as E. assert (J1 : hs_J b 0%nat <= hs_J a 0%nat) by lra.
    split; [|exact J1]. destruct (Rle_dec (B (hs_T b)) (hs_J a 0%nat)) as [A|A]; [apply (relaxed_down _ _ _ _ _ Hd Pk Rl A)|].
    pose proof (relaxed_up _ _ _ _ _ Hd Pk Rl ltac:(lra)) as D.
    assert (hs_T b <= hs_T a) by (apply (eu_le 1 sp eu amax O); lra). replace (hs_T b) with (hs_T a) in A |- * by lra. lra.
Qed.
End Single.

(** One species: matter hotter than the radiation only cools, and radiation colder than the
    matter only gains, for ever; neither side overshoots the other, and the same with the
    roles exchanged. *)
Theorem C66_no_overshoot : forall sp eu amax a ds b, ordinary 1 sp eu amax -> exchange_history 1 sp eu amax a ds b ->
  let B := th_J (sp 0%nat) in
  (hs_J a 0%nat <= B (hs_T a) -> hs_T b <= hs_T a /\ hs_J a 0%nat <= hs_J b 0%nat <= B (hs_T b)) /\
  (B (hs_T a) <= hs_J a 0%nat -> hs_T a <= hs_T b /\ B (hs_T b) <= hs_J b 0%nat <= hs_J a 0%nat).
Proof.
  intros sp eu amax a ds b O Hi B. assert (K : 0 < hs_T b /\
    (hs_J a 0%nat <= B (hs_T a) -> hs_T b <= hs_T a /\ hs_J a 0%nat <= hs_J b 0%nat <= B (hs_T b)) /\
    (B (hs_T a) <= hs_J a 0%nat -> hs_T a <= hs_T b /\ B (hs_T b) <= hs_J b 0%nat <= hs_J a 0%nat)); [|tauto].
  induction Hi as [P|ds b dtau c Hi IH Hd Pc St]; [repeat split; auto; lra|]. destruct IH as (Pb & I1 & I2). split; [exact Pc|].
  destruct (single_step sp eu amax O dtau b c Hd Pb Pc St) as (_ & _ & S1 & S2). cbv zeta in S1, S2. split; intros L.
  - destruct (I1 L) as (? & ?). destruct (S1 ltac:(apply I1; exact L)) as (? & ?). unfold B in *. lra.
  - destruct (I2 L) as (? & ?). destruct (S2 ltac:(apply I2; exact L)) as (? & ?). unfold B in *. lra.
Qed.
Print Assumptions C66_no_overshoot.

(** One species: each step divides the distance between the radiation and the thermal value
    at the matter temperature by at least 1 + (proper time) x (absorption). *)
Theorem C66_relaxation : forall sp eu amax a ds b, ordinary 1 sp eu amax -> exchange_history 1 sp eu amax a ds b ->
  let gap c := Rabs (th_J (sp 0%nat) (hs_T c) - hs_J c 0%nat) in
  gap b * fold_right (fun d acc => (1 + d) * acc) 1 ds <= gap a.
Proof.
  intros sp eu amax a ds b O Hi gap. assert (K : 0 < hs_T b /\ 0 <= fold_right (fun d acc => (1 + d) * acc) 1 ds /\ gap b * fold_right (fun d acc => (1 + d) * acc) 1 ds <= gap a); [|tauto].
  induction Hi as [P|ds b dtau c Hi IH Hd Pc St]; [cbn [fold_right]; repeat split; lra|]. destruct IH as (Pb & Pp & I).
  destruct (single_step sp eu amax O dtau b c Hd Pb Pc St) as (Pd & Rl & S1 & S2). cbn [fold_right]. split; [exact Pc|].
  set (d := dtau * _) in *. set (p := fold_right _ _ _) in *. split; [nra|].
  assert (G : gap c * (1 + d) <= gap b).
  { unfold gap. pose proof (ord_J _ _ _ _ O 0%nat) as Mb. destruct (Rle_dec (hs_J b 0%nat) (th_J (sp 0%nat) (hs_T b))) as [L|L].
    - destruct (S1 L) as (T1 & J1 & J2). pose proof (Mb _ _ ltac:(lia) Pc T1). rewrite !Rabs_pos_eq by lra. lra.
    - destruct (S2 ltac:(lra)) as (T1 & J1 & J2). pose proof (Mb _ _ ltac:(lia) Pb T1). rewrite !Rabs_left1 by lra. lra. }
  nra.
Qed.
Print Assumptions C66_relaxation.

(** One species: there is at most one common temperature with the same total energy, and the
    matter energy is never further from its equilibrium value than that distance; so with
    C66_relaxation it converges geometrically, and from one side (C66_no_overshoot). *)
Theorem C66_equilibrium : forall sp eu amax a ds b Teq, ordinary 1 sp eu amax -> exchange_history 1 sp eu amax a ds b ->
  let B := th_J (sp 0%nat) in
  0 < Teq -> eu Teq + B Teq = eu (hs_T a) + hs_J a 0%nat ->
  Rabs (eu (hs_T b) - eu Teq) <= Rabs (B (hs_T b) - hs_J b 0%nat) /\
  (hs_J a 0%nat <= B (hs_T a) -> Teq <= hs_T b <= hs_T a) /\ (B (hs_T a) <= hs_J a 0%nat -> hs_T a <= hs_T b <= Teq) /\
  (forall T, 0 < T -> eu T + B T = eu (hs_T a) + hs_J a 0%nat -> T = Teq).
Proof.
  intros sp eu amax a ds b Teq O Hi B Pq Eq. destruct (C66_no_overshoot sp eu amax a ds b O Hi) as [N1 N2]. fold B in N1, N2.
  assert (K : 0 < hs_T b /\ eu (hs_T b) + hs_J b 0%nat = eu (hs_T a) + hs_J a 0%nat).
  { clear N1 N2 Eq. induction Hi as [P|ds b dtau c Hi IH Hd Pc St]; [auto|]. split; [exact Pc|]. destruct IH as [_ IH]. rewrite <- IH.
    destruct St as [_ St]. unfold total in St. cbn in St. lra. }
  destruct K as [Pb Et].
  assert (Sm : forall x y, 0 < x -> x < y -> eu x + B x < eu y + B y).
  { intros x y Px L. pose proof (ord_eu _ _ _ _ O x y Px L). pose proof (ord_J _ _ _ _ O 0%nat x y ltac:(lia) Px ltac:(lra)). fold B in H0. lra. }
  assert (Hot : hs_J b 0%nat <= B (hs_T b) -> Teq <= hs_T b /\ Rabs (eu (hs_T b) - eu Teq) <= Rabs (B (hs_T b) - hs_J b 0%nat)).
  { intros L. assert (T1 : Teq <= hs_T b) by (destruct (Rle_dec Teq (hs_T b)); [assumption|]; pose proof (Sm (hs_T b) Teq Pb ltac:(lra)); lra).
    split; [exact T1|]. pose proof (eu_mono 1 sp eu amax O Teq (hs_T b) Pq T1). pose proof (ord_J _ _ _ _ O 0%nat Teq (hs_T b) ltac:(lia) Pq T1). fold B in H0.
    rewrite !Rabs_pos_eq by lra. lra. }
  assert (Cold : B (hs_T b) <= hs_J b 0%nat -> hs_T b <= Teq /\ Rabs (eu (hs_T b) - eu Teq) <= Rabs (B (hs_T b) - hs_J b 0%nat)).
  { intros L. assert (T1 : hs_T b <= Teq) by (destruct (Rle_dec (hs_T b) Teq); [assumption|]; pose proof (Sm Teq (hs_T b) Pq ltac:(lra)); lra).
    split; [exact T1|]. pose proof (eu_mono 1 sp eu amax O (hs_T b) Teq Pb T1). pose proof (ord_J _ _ _ _ O 0%nat (hs_T b) Teq ltac:(lia) Pb T1). fold B in H0.
    rewrite !Rabs_left1 by lra. lra. }
  split; [destruct (Rle_dec (hs_J b 0%nat) (B (hs_T b))); [apply Hot; assumption|apply Cold; lra]|].
  split; [intros L; destruct (N1 L) as (? & ? & ?); destruct (Hot ltac:(assumption)); lra|].
  split; [intros L; destruct (N2 L) as (? & ? & ?); destruct (Cold ltac:(assumption)); lra|].
  intros T Pt Et'. destruct (Rtotal_order T Teq) as [L|[E|L]]; [pose proof (Sm T Teq Pt L); lra|exact E|pose proof (Sm Teq T Pq L); lra].
Qed.
Print Assumptions C66_equilibrium.

(** the code's species, seen as thermal sources *)
Definition thermal_of (s : Species) : Thermal := {| th_abs := op_abs s; th_J := op_JBB s |}.

Lemma rest_lin gamma alpha rs Pi E JBB tJ tH : 0 <= tJ -> 0 <= tH -> let c := mkClosure (fun _ => 0) gamma alpha rs in
  fst (LinearSourceUpdate c energy_conserve E (fun _ => 0) Pi JBB tJ tH) = (E + tJ * JBB) / (1 + tJ) - E /\
  forall i, snd (LinearSourceUpdate c energy_conserve E (fun _ => 0) Pi JBB tJ tH) i = 0.
Proof.
  intros HJ HH c.
  assert (V : forall i, cov_v c i = 0) by (intros i; unfold c, mkClosure; cbn [cov_v]; unfold lower3Vector, sum3; ring).
  assert (Wc : cW c = 1).
  { unfold c, mkClosure. cbn [cW]. rewrite Rmin_left by (unfold lower3Vector, sum3; lra).
    replace (1 - _) with 1 by (unfold lower3Vector, sum3; ring). rewrite sqrt_1. field. }
  assert (W2c : cW2 c = 1) by (change (cW2 c) with (cW c * cW c); rewrite Wc; ring).
  assert (P : vvTilPi c Pi = 0) by (unfold vvTilPi, sum3; rewrite !V; ring).
  assert (Q : forall i, cov_vTilPi c Pi i = 0) by (intros i; unfold cov_vTilPi, lower3Vector, con_vTilPi, sum3; rewrite !V; ring).
  unfold LinearSourceUpdate. destruct (LinearSolution c energy_conserve E (fun _ => 0) Pi JBB tJ tH) as [J z] eqn:L. cbn [fst snd].
  assert (LJ : J = (E + tJ * JBB) / (1 + tJ) /\ z = 0).
  { revert L. unfold LinearSolution, SolveAxb2x2. cbv zeta. rewrite !LinearAlgebraProofs.DOP_R.
    unfold LinearA, Linearb. rewrite Wc, W2c, P. cbn [rows3 row3]. unfold contractConCov3Vectors, sum3. change (con_v c) with (fun _ : nat => 0). intros K. injection K as <- <-.
    split; field; nra. }
  destruct LJ as [-> ->]. rewrite Wc, W2c, P. split; [field; lra|]. intros i. rewrite V, Q. field. lra.
Qed.

(** What the code's one-species solver does to a zone at rest, for every metric, closure
    tensor, opacity, spectrum, equation of state, bracket and tolerance, when its temperature
    solve succeeds: the update succeeds, no momentum is exchanged, and the radiation relaxes
    towards the thermal value at the temperature found; if that temperature solves the energy
    equation, this is an exchange step. *)
Theorem C66_zone_step : forall gamma alpha rs sp eu maxi T tol dt amax strat J Pi junkE junkF T1,
  0 < alpha -> 0 <= dt -> 0 <= amax -> 0 < J -> 0 < eu T -> 0 < T1 ->
  0 <= op_abs sp T1 -> 0 <= op_sc sp T1 -> 0 <= op_JBB sp T1 ->
  let res := InteractionTResidual eu (eu T) (alpha * dt) amax [(sp, J)] in
  interaction_T res maxi T tol = (T1, success) ->
  let r := oned (mkClosure (fun _ => 0) gamma alpha rs) sp res maxi T tol dt amax strat J (fun _ => 0) Pi junkE junkF in
  od_ok r = true /\ od_T r = T1 /\ (forall i, od_dF r i = 0) /\
  relaxed (alpha * dt) (Rmin (op_abs sp T1) amax) (op_JBB sp T1) J (J + od_dE r) /\
  (res T1 = 0 -> exchange_step 1 (fun _ => thermal_of sp) eu amax (alpha * dt)
     {| hs_T := T; hs_J := fun _ => J |} {| hs_T := T1; hs_J := fun _ => J + od_dE r |} /\
     eu T1 = eu T - od_dE r).
Proof.
  intros gamma alpha rs sp eu maxi T tol dt amax strat J Pi junkE junkF T1 Pa Pd Pm PJ Pu PT Ka Ks PB res Ri r.
  set (c := mkClosure (fun _ => 0) gamma alpha rs) in r. set (kJ := Rmin (op_abs sp T1) amax). set (kH := Rmin (op_sc sp T1) amax + kJ).
  assert (kJp : 0 <= kJ) by (apply Rmin_glb; assumption). assert (kHp : 0 <= kH) by (unfold kH; assert (0 <= Rmin (op_sc sp T1) amax) by (apply Rmin_glb; assumption); lra).
  assert (tJ : 0 <= alpha * dt * kJ) by (apply Rmult_le_pos; [nra|assumption]). assert (tH : 0 <= alpha * dt * kH) by (apply Rmult_le_pos; [nra|assumption]).
  destruct (rest_lin gamma alpha rs Pi J (op_JBB sp T1) _ _ tJ tH) as [LE LF]. fold c in LE, LF.
  destruct (LinearSourceUpdate c energy_conserve J (fun _ => 0) Pi (op_JBB sp T1) (alpha * dt * kJ) (alpha * dt * kH)) as [dE dF] eqn:L. cbn [fst snd] in LE, LF.
  assert (Jn : J + dE = (J + alpha * dt * kJ * op_JBB sp T1) / (1 + alpha * dt * kJ)) by (rewrite LE; ring).
  assert (Jp : 0 < J + dE) by (rewrite Jn; apply Rdiv_lt_0_compat; [|lra]; assert (0 <= alpha * dt * kJ * op_JBB sp T1) by (apply Rmult_le_pos; assumption); lra).
  assert (C2P : Con2Prim c energy_conserve (J + dE) (fun i => 0 + dF i) Pi = (fst (fst (Con2Prim c energy_conserve (J + dE) (fun i => 0 + dF i) Pi)), snd (fst (Con2Prim c energy_conserve (J + dE) (fun i => 0 + dF i) Pi)), Csuccess)).
  { assert (V : forall i, cov_v c i = 0) by (intros i; unfold c, mkClosure; cbn [cov_v]; unfold lower3Vector, sum3; ring).
    assert (Wc : cW c = 1).
    { unfold c, mkClosure. cbn [cW]. rewrite Rmin_left by (unfold lower3Vector, sum3; lra).
      replace (1 - _) with 1 by (unfold lower3Vector, sum3; ring). rewrite sqrt_1. field. }
    assert (W2c : cW2 c = 1) by (change (cW2 c) with (cW c * cW c); rewrite Wc; ring).
    assert (P : vvTilPi c Pi = 0) by (unfold vvTilPi, sum3; rewrite !V; ring).
    assert (Q : forall i, cov_vTilPi c Pi i = 0) by (intros i; unfold cov_vTilPi, lower3Vector, con_vTilPi, sum3; rewrite !V; ring).
    unfold Con2Prim. destruct (c2p_raw c energy_conserve (J + dE) (fun i => 0 + dF i) Pi) as [J' H'] eqn:CR.
    assert (JH : J' = J + dE /\ forall i, H' i = 0).
    { revert CR. unfold c2p_raw, c2p_energy, c2p_lam, gratio. rewrite Wc, W2c, P. rewrite (Req_bool_false _ 0) by lra.
      change (con_v c) with (fun _ : nat => 0). intros K. injection K as <- <-. split; [unfold sum3; field|].
      intros i. rewrite LF, Q. change (lower3Vector gamma (fun _ => 0) i) with (cov_v c i). rewrite V. field. }
    destruct JH as [-> HZ].
    assert (Fq : flux_sq c H' = 0) by (unfold flux_sq, contractCov3Vectors, contractConCov3Vectors, sum3; rewrite !HZ; ring).
    unfold xi_defined, flux_xi. rewrite Fq, sqrt_0, (Rle_bool_true 0 0) by lra. rewrite (Req_bool_false (J + dE) 0) by lra. cbn [negb andb].
    rewrite (Rlt_bool_false (J + dE) 0) by lra. rewrite (Rle_bool_false 1) by (unfold Rdiv; lra). reflexivity. }
  assert (Rv : r = {| od_ok := true; od_dE := dE; od_dF := dF; od_T := T1 |}).
  { unfold r, oned. rewrite Ri. change (c_alpha c) with alpha. fold kJ. fold kH. rewrite L, C2P. reflexivity. }
  rewrite Rv. cbn [od_ok od_dE od_dF od_T]. split; [reflexivity|]. split; [reflexivity|]. split; [exact LF|].
  assert (Rx : relaxed (alpha * dt) kJ (op_JBB sp T1) J (J + dE)) by (unfold relaxed; rewrite Jn; field; lra).
  split; [exact Rx|]. intros F0.
  assert (Eq : eu T1 = eu T - dE).
  { unfold res, InteractionTResidual in F0. cbn [fold_left fst snd] in F0. unfold comoving_J1 in F0. fold kJ in F0. rewrite <- Jn in F0.
    apply (f_equal (fun x => x * (eu T + (0 + J)))) in F0. unfold Rdiv in F0. rewrite Rmult_assoc, Rinv_l in F0 by lra. lra. }
  split; [|exact Eq]. split; [intros s _; exact Rx|]. unfold total. cbn. lra.
Qed.
Print Assumptions C66_zone_step.

(** Between two thermal equilibria a next state always exists, for every step length. *)
Theorem C66_step_exists : forall sp eu amax lo hi dtau a,
  ordinary 1 sp eu amax -> 0 < lo -> lo < hi -> 0 <= dtau -> between 1 sp lo hi a -> 0 < eu (hs_T a) + hs_J a 0%nat ->
  (forall T, 0 < T -> continuity_pt eu T /\ continuity_pt (th_abs (sp 0%nat)) T /\ continuity_pt (th_J (sp 0%nat)) T) ->
  exists b, exchange_step 1 sp eu amax dtau a b /\ between 1 sp lo hi b.
Proof.
  intros sp eu amax lo hi dtau a O Pl Lh Hd [[Ba Bb] BJ] Pt Ct. specialize (BJ 0%nat ltac:(lia)).
  set (s0 := {| op_abs := th_abs (sp 0%nat); op_sc := fun _ => 0; op_JBB := th_J (sp 0%nat) |}).
  set (f := InteractionTResidual eu (eu (hs_T a)) dtau amax [(s0, hs_J a 0%nat)]).
  assert (Pa : 0 < hs_T a) by lra.
  assert (kp : forall T, 0 < T -> 0 <= Rmin (th_abs (sp 0%nat) T) amax) by (intros T PT; apply (cap_pos 1 sp eu amax O); [lia|exact PT]).
  assert (Fv : forall T, 0 < T -> f T * (eu (hs_T a) + hs_J a 0%nat) = eu T - eu (hs_T a) + (comoving_J1 s0 dtau amax (hs_J a 0%nat) T - hs_J a 0%nat)).
  { intros T PT. unfold f, InteractionTResidual. cbn [fold_left fst snd]. unfold Rdiv. rewrite !Rplus_0_l, Rmult_assoc, Rinv_l by lra. ring. }
  assert (Rx : forall T, 0 < T -> relaxed dtau (Rmin (th_abs (sp 0%nat) T) amax) (th_J (sp 0%nat) T) (hs_J a 0%nat) (comoving_J1 s0 dtau amax (hs_J a 0%nat) T)).
  { intros T PT. unfold relaxed, comoving_J1. cbn [op_abs op_JBB s0]. pose proof (kp T PT). field. nra. }
  assert (Cf : forall T, 0 < T -> continuity_pt f T).
  { intros T PT. apply (residual_cont eu (eu (hs_T a)) dtau amax [(s0, hs_J a 0%nat)] Hd (ord_max _ _ _ _ O)); [| | | |exact PT].
    - intros p x [<-|[]] Px. cbn [fst op_abs s0]. apply (ord_abs _ _ _ _ O); [lia|exact Px].
    - intros x Px. apply Ct, Px.
    - intros p x [<-|[]] Px. cbn [fst op_abs s0]. apply Ct, Px.
    - intros p x [<-|[]] Px. cbn [fst op_JBB s0]. apply Ct, Px. }
  assert (Fl : f lo <= 0).
  { pose proof (Fv lo Pl) as V. pose proof (eu_mono 1 sp eu amax O lo (hs_T a) Pl Ba). pose proof (relaxed_down _ _ _ _ _ Hd (kp lo Pl) (Rx lo Pl) ltac:(lra)). nra. }
  assert (Fh : 0 <= f hi).
  { pose proof (Fv hi ltac:(lra)) as V. pose proof (eu_mono 1 sp eu amax O (hs_T a) hi Pa Bb). pose proof (relaxed_up _ _ _ _ _ Hd (kp hi ltac:(lra)) (Rx hi ltac:(lra)) ltac:(lra)). nra. }
  assert (Ex : exists T, lo <= T <= hi /\ f T = 0).
  { destruct (Req_dec (f lo) 0) as [E|E]; [exists lo; split; [lra|exact E]|]. destruct (Req_dec (f hi) 0) as [E'|E']; [exists hi; split; [lra|exact E']|].
    destruct (Ranalysis5.IVT_interv f lo hi) as [z [Hz Fz]]; [intros x Hx; apply Cf; lra|exact Lh|lra|lra|]. exists z. auto. }
  destruct Ex as (T & HT & FT). assert (PT : 0 < T) by lra. pose proof (Fv T PT) as V. rewrite FT in V.
  exists {| hs_T := T; hs_J := fun _ => comoving_J1 s0 dtau amax (hs_J a 0%nat) T |}.
  assert (St : exchange_step 1 sp eu amax dtau a {| hs_T := T; hs_J := fun _ => comoving_J1 s0 dtau amax (hs_J a 0%nat) T |}).
  { split; cbn [hs_T hs_J]; [|unfold total; cbn; lra]. intros s Hs. replace s with 0%nat by lia. apply Rx, PT. }
  split; [exact St|]. apply (step_between 1 sp eu amax O lo hi dtau a); cbn [hs_T]; [assumption..| |exact St].
  split; [lra|]. intros s Hs. replace s with 0%nat by lia. exact BJ.
Qed.
Print Assumptions C66_step_exists.

(** The test problem from its set-up on: every zone starts with matter at Tg0 and each species
    in equilibrium at Tr0, at rest, with zero flux and conserved moments (volume x J, 0);
    whatever the step lengths, matter and radiation stay between these two temperatures. *)
Theorem C66_equilibration_run : forall gas energy_density rho0 Tg0 Tr0 Ye0 n sp amax ds b,
  let z := equilibration_zone gas energy_density rho0 Tg0 Tr0 Ye0 in
  let eu T := rho0 * g_sie gas rho0 T in
  (forall s T, th_J (sp s) T = energy_density T s) -> ordinary n sp eu amax -> 0 < Tg0 -> 0 < Tr0 ->
  (forall gamma alpha sdet rs pi_of s, let '(E, F) := MomentPrim2Con pi_of gamma alpha sdet rs (ez_v z) (ez_J z s) (ez_H z s) in
     E = sdet * energy_density Tr0 s /\ forall i, F i = 0) /\
  ez_eng z = eu Tg0 /\ ez_rho z = rho0 /\ ez_ye z = Ye0 /\
  (exchange_history n sp eu amax {| hs_T := ez_T z; hs_J := ez_J z |} ds b ->
   Rmin Tg0 Tr0 <= hs_T b <= Rmax Tg0 Tr0 /\
   (forall s, (s < n)%nat -> energy_density (Rmin Tg0 Tr0) s <= hs_J b s <= energy_density (Rmax Tg0 Tr0) s) /\
   total n (eu (hs_T b)) (hs_J b) = total n (ez_eng z) (fun s => energy_density Tr0 s)).
Proof.
  intros gas ed rho0 Tg0 Tr0 Ye0 n sp amax ds b z eu HB O Pg Pr. split.
  { intros gamma alpha sdet rs pi_of s. unfold MomentPrim2Con. cbn [ez_v ez_J ez_H z equilibration_zone].
    set (c := mkClosure _ gamma alpha rs). set (Pi := pi_of c _ _).
    assert (V : forall i, cov_v c i = 0) by (intros i; unfold c, mkClosure; cbn [cov_v]; unfold lower3Vector, sum3, Rdiv; ring).
    assert (Cv : forall i, con_v c i = 0) by (intros i; unfold c, mkClosure; cbn [con_v]; unfold Rdiv; ring).
    assert (Wc : cW c = 1).
    { unfold c, mkClosure. cbn [cW]. rewrite Rmin_left by (unfold lower3Vector, sum3, Rdiv; lra).
      replace (1 - _) with 1 by (unfold lower3Vector, sum3, Rdiv; ring). rewrite sqrt_1. field. }
    assert (W2c : cW2 c = 1) by (change (cW2 c) with (cW c * cW c); rewrite Wc; ring).
    assert (P : vvTilPi c Pi = 0) by (unfold vvTilPi, sum3; rewrite !V; ring).
    assert (Q : forall i, cov_vTilPi c Pi i = 0) by (intros i; unfold cov_vTilPi, lower3Vector, con_vTilPi, sum3; rewrite !V; ring).
    unfold Prim2Con. rewrite Wc, W2c, P. split; [unfold sum3; rewrite !Cv; field|]. intros i. rewrite V, Q. ring. }
  split; [reflexivity|]. split; [reflexivity|]. split; [reflexivity|].
  intros Hi. assert (Pm : 0 < Rmin Tg0 Tr0) by (apply Rmin_glb_lt; assumption).
  assert (Bt : between n sp (Rmin Tg0 Tr0) (Rmax Tg0 Tr0) {| hs_T := ez_T z; hs_J := ez_J z |}).
  { split; cbn [hs_T hs_J ez_T ez_J z equilibration_zone]; [split; [apply Rmin_l|apply Rmax_l]|]. intros s Hs. rewrite <- HB.
    split; apply (ord_J _ _ _ _ O); try assumption; [apply Rmin_r|apply Rmax_r]. }
  destruct (C66_range n sp eu amax _ _ _ ds b O Pm Bt Hi) as [[B1 B2] B3]. split; [exact B1|]. split; [|exact B3].
  intros s Hs. specialize (B2 s Hs). rewrite !HB in B2. exact B2.
Qed.
Print Assumptions C66_equilibration_run.

Lemma params_fresh ks : forall keys, NoDup ks -> (forall k, In k ks -> ~ In k keys) -> params_add_all keys ks = Some (rev ks ++ keys).
Proof.
  induction ks as [|k ks IH]; intros keys Nd Fr; [reflexivity|]. inversion Nd as [|? ? Nk Nd']; subst. cbn [params_add_all].
  assert (E : params_add keys k = Some (k :: keys)).
  { unfold params_add. destruct (existsb (String.eqb k) keys) eqn:E; [|reflexivity]. apply existsb_exists in E. destruct E as (x & Hx & Ex).
    apply String.eqb_eq in Ex. subst x. destruct (Fr k (or_introl eq_refl) Hx). }
  rewrite E, IH; [cbn [rev]; rewrite <- app_assoc; reflexivity|exact Nd'|].
  intros q Hq [<-|K]; [exact (Nk Hq)|exact (Fr q (or_intror Hq) K)].
Qed.
Lemma params_again k ks keys : In k keys -> params_add_all keys (k :: ks) = None.
Proof. intros Hk. cbn [params_add_all]. unfold params_add. rewrite (proj2 (existsb_exists (String.eqb k) keys)); [reflexivity|]. exists k. split; [exact Hk|apply String.eqb_refl]. Qed.
(** The generators of radiation_equilibration and radiation_advection register the same
    parameters for every block: a rank with one block is fine, and with two or more it stops. *)
Theorem C66_blocks_refuted : forall keys, (forall k, In k (equilibration_keys ++ advection_keys) -> ~ In k keys) ->
  forall ks, ks = equilibration_keys \/ ks = advection_keys ->
  (exists keys', generate_blocks ks 1 keys = Some keys') /\ forall n, generate_blocks ks (S (S n)) keys = None.
Proof.
  intros keys Fr ks Hk.
  assert (Nd : NoDup equilibration_keys /\ NoDup advection_keys).
  { split; repeat constructor; cbn [In]; intros K; repeat (destruct K as [K|K]; [discriminate K|]); exact K. }
  assert (A1 : params_add_all keys ks = Some (rev ks ++ keys)).
  { apply params_fresh; [destruct Hk as [-> | ->]; apply Nd|]. intros k Hin. apply Fr. apply in_or_app. destruct Hk as [-> | ->]; auto. }
  assert (A2 : exists k ks', ks = k :: ks') by (destruct Hk as [-> | ->]; do 2 eexists; reflexivity).
  destruct A2 as (k & ks' & E). split; [exists (rev ks ++ keys); cbn [generate_blocks]; rewrite A1; reflexivity|].
  intros n. cbn [generate_blocks]. rewrite A1. subst ks. rewrite params_again; [reflexivity|]. apply in_or_app. left. rewrite <- in_rev. left. reflexivity.
Qed.
Print Assumptions C66_blocks_refuted.

(** The hypotheses are met: matter energy T, thermal radiation energy T, unit absorption;
    matter at 2, radiation at 1, one step of unit length ends at matter 5/3, radiation 4/3,
    with equilibrium at 3/2. *)
Example C66_nonvacuous : let sp := fun _ : nat => {| th_abs := fun _ => 1; th_J := fun T => T |} in
  let a := {| hs_T := 2; hs_J := fun _ => 1 |} in let b := {| hs_T := 5/3; hs_J := fun _ => 4/3 |} in
  ordinary 1 sp (fun T => T) 10 /\ between 1 sp 1 2 a /\ exchange_history 1 sp (fun T => T) 10 a [1] b /\ 3/2 + 3/2 = hs_T a + hs_J a 0%nat.
Proof.
  intros sp a b. split; [constructor; intros; cbn; lra|]. split; [split; [cbn; lra|intros; cbn; lra]|]. split; [|cbn; lra].
  replace [1] with [1 * Rmin (th_abs (sp 0%nat) (hs_T b)) 10] by (cbn; rewrite Rmin_left by lra; f_equal; lra).
  apply (history_step 1 sp (fun T => T) 10 a [] a 1 b); [constructor; cbn; lra|lra|cbn; lra|].
  split; [intros s _; unfold relaxed; cbn; rewrite Rmin_left by lra; lra|unfold total; cbn; lra].
Qed.
(** the code's own solver on such a zone finds that temperature, exactly *)
Example C66_zone_step_nonvacuous : let sp := {| op_abs := fun _ => 1; op_sc := fun _ => 0; op_JBB := fun T => T |} in
  let res := InteractionTResidual (fun T => T) 2 (1 * 1) 10 [(sp, 1)] in
  interaction_T res 20 2 (1/10) = (5/3, success) /\ res (5/3) = 0.
Proof.
  intros sp res. assert (Fv : forall T, res T = 1/2 * (T - 5/3)).
  { intros T. unfold res, InteractionTResidual, comoving_J1. cbn [fold_left fst snd op_abs op_JBB sp]. rewrite Rmin_left by lra. field. }
  split; [|rewrite Fv; ring]. unfold interaction_T, regula_falsi, refine_bracket, check_bracket. num_R. rewrite !Fv.
  rewrite (Rle_bool_true (1 / 100 * 2) 2) by lra. rewrite (Rle_bool_true 2 (100 * 2)) by lra. cbn [andb].
  rewrite (Rlt_bool_true 0 (1/2 * (2 - 5/3) * (1/2 * (100 * 2 - 5/3)))) by lra. rewrite (Rlt_bool_false 0 (1/2 * (1 / 100 * 2 - 5/3) * (1/2 * (2 - 5/3)))) by lra. cbn [negb].
  rewrite (Rlt_bool_true (1/2 * (1 / 100 * 2 - 5/3)) 0) by lra. unfold budget. cbn [new_RootFind max_iter iteration_count].
  rewrite (hit_root _ 18 (1 / 10 * 2) 1 (1 / 100 * 2) 2 _ _ (5/3)); [|lra|lra|field|lra|lra|rewrite Fv; ring].
  cbn. num_R. f_equal. field.
Qed.
