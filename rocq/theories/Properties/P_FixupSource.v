(** C23: temperature, pressure and index of a zone repaired after a failed source update. *)
From Coq Require Import ZArith Reals List Bool Lia Lra FunctionalExtensionality.
From Flocq Require Import Core.
From Verif.Spec Require Import Tensor GeomSpec Relativity RadSpec FixupSpec.
From Verif.Model Require Import Num Robust Geometry Relativity Prim2Con Con2PrimRobust ApplyFloors Fixup RadClosure RadTransport FixupRad.
From Verif.Proofs Require Import NumR RobustProofs TensorTac GeomBase FixupProofs.
From Verif.Properties Require Import P_Fixup P_FixupRad.
Import ListNotations.
Local Open Scope R_scope.

(** temperature, pressure and index that belong to the row's own density, internal energy
    per volume and electron fraction, by the equation of state *)
Definition thermodynamic (hasye : bool) (eos : EOS) (r : Row R) : Prop :=
  let ye := if hasye then r Vye else / 2 in
  (r Vrho <> 0 -> r Vtmp = eos_T eos (r Vrho) (r Veng / r Vrho) ye) /\
  r Vprs = eos_PT eos (r Vrho) (r Vtmp) ye /\
  (r Vprs <> 0 -> r Vgm1 = eos_BT eos (r Vrho) (r Vtmp) ye / r Vprs).

Lemma src_eos_thermo hasye eos (r r' : Row R) :
  (forall v, (forall s, v <> VJ s) -> (forall s i, v <> VH s i) -> r' v = src_eos hasye eos r v) -> thermodynamic hasye eos r'.
Proof.
  intros E. unfold thermodynamic. rewrite !E by discriminate. unfold src_eos. cbv zeta.
  split; [|split].
  - intros N. rewrite gratio_nz by exact N. reflexivity.
  - reflexivity.
  - intros N. rewrite gratio_nz by exact N. reflexivity.
Qed.

Theorem C23_src_repair_thermodynamics : forall ndim flag interior dom interp nspec rs gam geom valencia mhd hasye eos gamma_max pi_of (m : Mem R) sched c,
  (ndim = 1 \/ ndim = 2 \/ ndim = 3)%nat -> binary flag ->
  let fl := src_flags flag interior in
  let active := failed fl dom in
  let prog := src_kernel ndim fl interp hasye nspec (src_eos hasye eos) (src_tail nspec rs gam geom valencia mhd hasye gamma_max pi_of) in
  complete sched active prog -> active c = true ->
  thermodynamic hasye eos (fst (run fl sched (init active prog m)) c).
Proof.
  intros ndim flag interior dom interp nspec rs gam geom val mhd hasye eos gmax pi_of m sched c Hnd H01' fl active prog C A.
  assert (H01 : binary fl). { intros d. unfold fl, src_flags. destruct (interior d); [apply H01'|left; num_R; field]. }
  pose proof (run_kernel ndim fl dom interp Hnd H01 [(src_fluid_vars hasye, src_eos hasye eos); (rad_vars nspec, fun r => r)]
    (fun _ => src_fallback hasye nspec (src_eos hasye eos)) (src_tail nspec rs gam geom val mhd hasye gmax pi_of) m sched c C A) as E.
  set (r := if _ && _ then _ else _) in E.
  assert (K : thermodynamic hasye eos r).
  { unfold r. match goal with |- context [if ?b then _ else _] => destruct b end.
    - cbn [segments fold_left fst snd].
      refine (src_eos_thermo hasye eos _ _ _). intros v N1 N2. rewrite filled_out; [reflexivity|].
      rewrite in_rad_vars. intros (s & _ & [X|[X|[X|X]]]); [apply (N1 s X)|apply (N2 s _ X)|apply (N2 s _ X)|apply (N2 s _ X)].
    - unfold src_fallback. cbv zeta. refine (src_eos_thermo hasye eos _ _ _). intros v N1 N2. unfold rad_fallback.
      apply (proj2 (proj2 (fallback_spec (seq 0 nspec) _ v))). intros s _. split; [apply N1|apply N2]. }
  assert (Ev : forall v, v = Vrho \/ v = Veng \/ v = Vye \/ v = Vtmp \/ v = Vprs \/ v = Vgm1 -> fst (run fl sched (init active prog m)) c v = r v).
  { intros v Hv. transitivity (src_tail nspec rs gam geom val mhd hasye gmax pi_of c r v); [exact (equal_f E v)|].
    unfold src_tail. destruct (clamp_velocity gmax (c_gcov4 (geom c)) (fun i => r (Vvel i))) as [vc Wc].
    destruct Hv as [-> | [-> | [-> | [-> | [-> | ->]]]]]; reflexivity. }
  unfold thermodynamic. rewrite !Ev by tauto. exact K.
Qed.
Print Assumptions C23_src_repair_thermodynamics.

(** one failed zone between two good ones: the schedule is complete and the zone is repaired *)
Example C23_src_thermodynamics_nonvacuous : forall rs eos,
  let fl := src_flags lone_flag (fun _ => true) in
  let prog := src_kernel 1 fl true false 1 (src_eos false eos) (src_tail 1 rs (fun _ => delta) (fun _ => flat_cell) true false false 10 pi_eddington) in
  binary lone_flag /\ complete lone_sched (failed fl lone) prog /\ failed fl lone (z1 1) = true.
Proof.
  intros rs eos fl prog. split; [|split].
  - exact lone_binary.
  - apply lone_complete; cbn; lia.
  - exact lone_failed.
Qed.
