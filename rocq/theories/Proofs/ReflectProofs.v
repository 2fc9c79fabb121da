(** Reflection of one coordinate axis in prim_to_flux. *)
From Coq Require Import Reals Arith Lia Lra Psatz.
From Flocq Require Import Core.
From Verif.Spec Require Import Tensor.
From Verif.Model Require Import Num Robust Geometry Relativity Prim2Con Riemann.
From Verif.Proofs Require Import NumR TensorTac.
Local Open Scope R_scope.

(** -1 for the reflected axis, +1 otherwise; four-index version with the time index first *)
Definition flip (dir i : nat) : R := if Nat.eqb i dir then -1 else 1.
Definition flip4 (dir mu : nat) : R := match mu with O => 1 | S i => flip dir i end.
Definition reflect_geom (dir : nat) (g : FaceGeom) : FaceGeom :=
  mkFace (fg_alpha g) (fg_gdet g) (fg_gammadet g) (fun mu nu => flip4 dir mu * flip4 dir nu * fg_gcov g mu nu)
         (fun i => flip dir i * fg_beta g i) (fg_gdd g).
Definition reflect_state (dir : nat) (q : FaceState) : FaceState :=
  mkState (q_rho q) (fun i => flip dir i * q_vp q i) (q_eng q) (q_prs q) (q_gm1 q) (fun i => flip dir i * q_B q i) (q_ye q).
Definition parity (dir : nat) (c : ConsVar) : R :=
  match c with vMom m => flip dir m | vB m => flip dir m | _ => 1 end.

Lemma flip_sq d i : flip d i * flip d i = 1.
Proof. unfold flip. destruct (Nat.eqb i d); ring. Qed.
Lemma flip_self d : flip d d = -1. Proof. unfold flip. rewrite Nat.eqb_refl. reflexivity. Qed.

Section R.
Variables (dir : nat) (g : FaceGeom) (q : FaceState) (gm : R).
Let g' := reflect_geom dir g.
Let q' := reflect_state dir q.
Let f := flip dir.

(** contraction of two reflected vectors with the reflected metric *)
Lemma contract (a b : vec) :
  sum3 (fun m => sum3 (fun n => fg_gcov g' (m + 1)%nat (n + 1)%nat * (f m * a m) * (f n * b n)))
  = sum3 (fun m => sum3 (fun n => fg_gcov g (m + 1)%nat (n + 1)%nat * a m * b n)).
Proof.
  unfold sum3, g', reflect_geom; cbn [fg_gcov Nat.add flip4]. fold f.
  pose proof (flip_sq dir 0) as E0; pose proof (flip_sq dir 1) as E1; pose proof (flip_sq dir 2) as E2. fold f in E0, E1, E2.
  ring [E0 E1 E2].
Qed.
Lemma r_W : GetLorentzFactor4 (q_vp q') (fg_gcov g') = GetLorentzFactor4 (q_vp q) (fg_gcov g).
Proof.
  unfold GetLorentzFactor4. f_equal. f_equal. apply (contract (q_vp q) (q_vp q)).
Qed.
Lemma r_lim i : lim_vpcon q' g' gm i = f i * lim_vpcon q g gm i.
Proof.
  unfold lim_vpcon. rewrite r_W. destruct (Rlt_bool gm (GetLorentzFactor4 (q_vp q) (fg_gcov g))); unfold q', reflect_state; cbn [q_vp]; fold f; ring.
Qed.
Lemma r_v0 i : face_vcon0 q' g' gm i = f i * face_vcon0 q g gm i.
Proof. unfold face_vcon0. rewrite r_W, r_lim. unfold Rdiv. ring. Qed.
Lemma contract_ext (a b a' b' : vec) : (forall i, a' i = f i * a i) -> (forall i, b' i = f i * b i) ->
  sum3 (fun m => sum3 (fun n => fg_gcov g' (m + 1)%nat (n + 1)%nat * a' m * b' n))
  = sum3 (fun m => sum3 (fun n => fg_gcov g (m + 1)%nat (n + 1)%nat * a m * b n)).
Proof. intros Ha Hb. rewrite <- contract. unfold sum3. rewrite !Ha, !Hb. reflexivity. Qed.
Lemma r_vsq0 : face_vsq0 q' g' gm = face_vsq0 q g gm.
Proof. unfold face_vsq0. apply contract_ext; intros i; apply r_v0. Qed.
Lemma r_scale : face_scale q' g' gm = face_scale q g gm.
Proof. unfold face_scale. rewrite r_vsq0. reflexivity. Qed.
Lemma r_v i : face_vcon q' g' gm i = f i * face_vcon q g gm i.
Proof. unfold face_vcon. rewrite r_v0, r_scale. ring. Qed.
Lemma r_vsq : face_vsq q' g' gm = face_vsq q g gm.
Proof. unfold face_vsq. rewrite r_vsq0, r_scale. reflexivity. Qed.
Lemma r_fW : face_W q' g' gm = face_W q g gm.
Proof. unfold face_W. rewrite r_vsq. reflexivity. Qed.
Lemma r_low3 m (a a' : vec) : (forall i, a' i = f i * a i) ->
  sum3 (fun n => fg_gcov g' (m + 1)%nat (n + 1)%nat * a' n) = f m * sum3 (fun n => fg_gcov g (m + 1)%nat (n + 1)%nat * a n).
Proof.
  intros Ha. unfold sum3. rewrite !Ha. unfold g', reflect_geom; cbn [fg_gcov].
  replace (m + 1)%nat with (S m) by lia. cbn [Nat.add flip4]. fold f.
  pose proof (flip_sq dir 0) as E0; pose proof (flip_sq dir 1) as E1; pose proof (flip_sq dir 2) as E2. fold f in E0, E1, E2.
  ring [E0 E1 E2].
Qed.
Lemma r_low4 mu (a a' : vec) : (forall nu, a' nu = flip4 dir nu * a nu) ->
  sum4 (fun nu => fg_gcov g' mu nu * a' nu) = flip4 dir mu * sum4 (fun nu => fg_gcov g mu nu * a nu).
Proof.
  intros Ha. unfold sum4. rewrite !Ha. unfold g', reflect_geom; cbn [fg_gcov flip4]. fold f.
  pose proof (flip_sq dir 0) as E0; pose proof (flip_sq dir 1) as E1; pose proof (flip_sq dir 2) as E2. fold f in E0, E1, E2.
  ring [E0 E1 E2].
Qed.
End R.

Lemma reflected valencia dir g q rf sf sm gm : (dir < 3)%nat ->
  let s := prim_to_flux valencia dir g q rf sf sm gm in
  let s' := prim_to_flux valencia dir (reflect_geom dir g) (reflect_state dir q) rf sf sm gm in
  (forall m, fo_U s' m = parity dir m * fo_U s m) /\ (forall m, fo_F s' m = - (parity dir m * fo_F s m)) /\
  fo_vp s' = - fo_vm s /\ fo_vm s' = - fo_vp s.
Proof.
  intros Hd s s'. set (g' := reflect_geom dir g) in *. set (q' := reflect_state dir q) in *.
  pose proof (flip_self dir) as Fd. set (f := flip dir) in *.
  assert (EW : face_W q' g' gm = face_W q g gm) by apply r_fW.
  assert (EV : face_vsq q' g' gm = face_vsq q g gm) by apply r_vsq.
  assert (Ev : forall i, face_vcon q' g' gm i = f i * face_vcon q g gm i) by (intros; apply r_v).
  assert (EB : forall i, q_B q' i = f i * q_B q i) by reflexivity.
  assert (Eb : forall i, fg_beta g' i = f i * fg_beta g i) by reflexivity.
  assert (El : forall i, lim_vpcon q' g' gm i = f i * lim_vpcon q g gm i) by (intros; apply r_lim).
  assert (EBB : sum3 (fun m => sum3 (fun n => fg_gcov g' (m + 1)%nat (n + 1)%nat * q_B q' m * q_B q' n))
    = sum3 (fun m => sum3 (fun n => fg_gcov g (m + 1)%nat (n + 1)%nat * q_B q m * q_B q n))) by (apply contract_ext; reflexivity).
  assert (EBv : sum3 (fun m => sum3 (fun n => fg_gcov g' (m + 1)%nat (n + 1)%nat * q_B q' m * face_vcon0 q' g' gm n))
    = sum3 (fun m => sum3 (fun n => fg_gcov g (m + 1)%nat (n + 1)%nat * q_B q m * face_vcon0 q g gm n)))
    by (apply contract_ext; [reflexivity|intros; apply r_v0]).
  assert (Es : face_scale q' g' gm = face_scale q g gm) by apply r_scale.
  unfold s, s', prim_to_flux. cbn [fo_U fo_F fo_vp fo_vm].
  change (fg_alpha g') with (fg_alpha g). change (fg_gdd g') with (fg_gdd g).
  change (lim_rho q' rf) with (lim_rho q rf). change (q_eng q') with (q_eng q). change (q_prs q') with (q_prs q).
  change (q_gm1 q') with (q_gm1 q). change (q_ye q') with (q_ye q).
  change (lim_eng q' (lim_rho q rf) sf sm) with (lim_eng q (lim_rho q rf) sf sm).
  rewrite EW, EV, EBB, EBv, Es.
  set (W := face_W q g gm). set (al := fg_alpha g). set (P := std_max (q_prs q) 0).
  set (rho := lim_rho q rf). set (u := lim_eng q rho sf sm).
  set (BB := sum3 (fun m => sum3 (fun n => fg_gcov g (m + 1)%nat (n + 1)%nat * q_B q m * q_B q n))).
  set (Bv := sum3 _ * sqrt _). set (b2 := (BB + W * Bv * (W * Bv)) / (W * W)). set (vsq := face_vsq q g gm).
  assert (Lb : forall m, fg_gcov g' (m + 1)%nat 0%nat * (W * Bv) / al
      + sum3 (fun n => fg_gcov g' (m + 1)%nat (n + 1)%nat * (q_B q' n / W + W * Bv * (face_vcon q' g' gm n - fg_beta g' n / al)))
    = f m * (fg_gcov g (m + 1)%nat 0%nat * (W * Bv) / al
      + sum3 (fun n => fg_gcov g (m + 1)%nat (n + 1)%nat * (q_B q n / W + W * Bv * (face_vcon q g gm n - fg_beta g n / al))))).
  { intros m. rewrite (r_low3 dir g m (fun n => q_B q n / W + W * Bv * (face_vcon q g gm n - fg_beta g n / al))).
    - fold f. unfold g', reflect_geom; cbn [fg_gcov]. replace (m + 1)%nat with (S m) by lia. cbn [flip4]. fold f. unfold Rdiv. ring.
    - intros i. rewrite Ev, EB, Eb. fold f. unfold Rdiv. ring. }
  assert (Lv : forall m, sum3 (fun n => fg_gcov g' (m + 1)%nat (n + 1)%nat * face_vcon q' g' gm n)
     = f m * sum3 (fun n => fg_gcov g (m + 1)%nat (n + 1)%nat * face_vcon q g gm n)) by (intros m; apply r_low3; exact Ev).
  set (uc := fun mu : nat => match mu with O => W / al | S m => lim_vpcon q g gm m - fg_beta g m * W / al end).
  set (uc' := fun mu : nat => match mu with O => W / al | S m => lim_vpcon q' g' gm m - fg_beta g' m * W / al end).
  assert (Eu : forall mu, uc' mu = flip4 dir mu * uc mu).
  { intros [|m]; unfold uc, uc'; cbn [flip4]; [ring|]. rewrite El, Eb. fold f. unfold Rdiv. ring. }
  assert (Lu : forall mu, sum4 (fun nu => fg_gcov g' mu nu * uc' nu) = flip4 dir mu * sum4 (fun nu => fg_gcov g mu nu * uc nu)) by (intros mu; apply r_low4; exact Eu).
  set (bc := fun mu : nat => match mu with O => W * Bv / al | S m => (q_B q m + W * Bv * uc (S m)) / W end).
  set (bc' := fun mu : nat => match mu with O => W * Bv / al | S m => (q_B q' m + W * Bv * uc' (S m)) / W end).
  assert (Ec : forall mu, bc' mu = flip4 dir mu * bc mu).
  { intros [|m]; unfold bc, bc'; cbn [flip4]; [ring|]. rewrite Eu, EB. cbn [flip4]. fold f. unfold Rdiv. ring. }
  assert (Lc : sum4 (fun nu => fg_gcov g' 0%nat nu * bc' nu) = sum4 (fun nu => fg_gcov g 0%nat nu * bc nu)).
  { transitivity (flip4 dir 0 * sum4 (fun nu => fg_gcov g 0%nat nu * bc nu)); [exact (r_low4 dir g 0%nat bc bc' Ec)|cbn [flip4]; ring]. }
  pose proof (Lu 0%nat) as Lu0. cbn [flip4] in Lu0. rewrite Rmult_1_l in Lu0.
  pose proof (Eu (S dir)) as Eud. pose proof (Ec (S dir)) as Ecd. cbn [flip4] in Eud, Ecd. fold f in Eud, Ecd. rewrite Fd in Eud, Ecd.
  unfold bc, bc', uc, uc' in Lu0, Lc, Eud, Ecd; cbv beta iota in Lu0, Lc, Eud, Ecd.
  pose proof (Ev dir) as Evd. pose proof (EB dir) as EBd. pose proof (Eb dir) as Ebd. rewrite Fd in Evd, EBd, Ebd.
  split; [|split].
  - intros [|m| |m|]; cbn [parity]; fold f; try ring.
    + rewrite Lb, Lv. ring.
    + destruct valencia; [ring|].
      rewrite Lu0, Lc. ring.
    + rewrite EB. ring.
  - intros [|m| |m|]; cbn [parity]; fold f.
    + rewrite Evd, Ebd. unfold Rdiv. ring.
    + rewrite Lb, Lv, Evd, EBd, Ebd. destruct (Nat.eqb_spec dir m) as [E|E].
      * assert (Fm : f m = -1) by (rewrite <- E; exact Fd). rewrite Fm. unfold Rdiv. ring.
      * unfold Rdiv. ring.
    + destruct valencia; [rewrite Evd, EBd, Ebd; unfold Rdiv; ring|]. rewrite Lu0, Lc, Ecd, Eud. ring.
    + rewrite (Ev m), Evd, (EB m), EBd, (Eb m), Ebd. unfold Rdiv. ring.
    + rewrite Evd, Ebd. unfold Rdiv. ring.
  - rewrite Evd, Ebd. change (std_max (q_prs q) 0) with P.
    match goal with |- context [make_bounded (?x + ?y) 0 1] => set (c := make_bounded (x + y) 0 1) end.
    set (vd := face_vcon q g gm dir).
    replace (fg_gdd g * (1 - vsq * c) - -1 * vd * (-1 * vd * (1 - c))) with (fg_gdd g * (1 - vsq * c) - vd * (vd * (1 - c))) by ring.
    set (sq := sqrt _). split; unfold Rdiv; ring.
Qed.
