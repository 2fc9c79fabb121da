(** C23: repair of zones where an inversion or a source update failed. *)
From Coq Require Import ZArith Reals List Bool Lia Lra Psatz.
From Flocq Require Import Core BinarySingleNaN.
From Verif.Spec Require Import Tensor FixupSpec.
From Verif.Model Require Import Num Robust Geometry Relativity Prim2Con Con2PrimRobust ApplyFloors Fixup.
From Verif.Proofs Require Import NumR RobustProofs FixupProofs.
Import ListNotations.
Local Open Scope R_scope.

(** flags are 0 (fail) or 1 (success) *)
Definition binary (flag : Zone -> R) : Prop := forall c, flag c = 0 \/ flag c = 1.
Definition good_neighbours (flag : Zone -> R) (ndim : nat) (c : Zone) : list Zone :=
  filter (fun d => Req_bool (flag d) 1) (neighbours ndim c).
Definition tiny (n : Z) : R := IZR n * SMALL.

Lemma failed_flag flag dom c : failed flag dom c = true -> flag c = 0.
Proof.
  unfold failed. intros E. apply andb_prop in E. destruct E as [_ E]. revert E. num_R.
  match goal with |- Req_bool _ ?z = _ -> _ => destruct (Req_bool_spec (flag c) z) as [K|K] end; [intros _; lra|intros; discriminate].
Qed.

(** Any two complete schedules of any of the kernels (any groups of interpolated variables,
    any computation on the own zone) leave the same memory, and zones that did not fail are
    never changed.  Nothing is assumed about the flags of good zones here. *)
Theorem C23_schedule_independent : forall ndim flag dom interp groups fallback tail (m : Mem R) s1 s2,
  let active := failed flag dom in
  let prog := kernel ndim flag interp groups fallback tail in
  complete s1 active prog -> complete s2 active prog ->
  let m1 := fst (run flag s1 (init active prog m)) in let m2 := fst (run flag s2 (init active prog m)) in
  (forall c, m1 c = m2 c) /\ (forall c, dom c = false \/ flag c <> 0 -> m1 c = m c).
Proof.
  intros ndim flag dom interp groups fallback tail m s1 s2 active prog C1 C2 m1 m2.
  assert (Hf : forall c, active c = true -> flag c = 0) by (intros c; apply failed_flag).
  split; intros c.
  - unfold m1, m2. rewrite !(schedule_independent flag m active prog Hf) by assumption. reflexivity.
  - intros D. assert (A : active c = false).
    { destruct (active c) eqn:E; [|reflexivity]. destruct D as [D|D]; [|exfalso; exact (D (Hf c E))].
      unfold active, failed in E. rewrite D in E. discriminate E. }
    unfold m1. rewrite (schedule_independent flag m active prog Hf) by assumption. rewrite A. reflexivity.
Qed.
Print Assumptions C23_schedule_independent.

Section Any.
Variables (ndim : nat) (flag : Zone -> R) (dom : Zone -> bool) (interp : bool).
Hypothesis Hnd : (ndim = 1 \/ ndim = 2 \/ ndim = 3)%nat.
Hypothesis H01 : binary flag.
Lemma run_kernel groups fallback tail (m : Mem R) sched c :
  complete sched (failed flag dom) (kernel ndim flag interp groups fallback tail) -> failed flag dom c = true ->
  fst (run flag sched (init (failed flag dom) (kernel ndim flag interp groups fallback tail) m)) c =
  tail c (if (match good_neighbours flag ndim c with nil => false | _ => true end) && interp
          then segments ndim flag m c groups (1 / num_valid ndim flag c) (m c) else fallback c (m c)).
Proof.
  intros C F. rewrite (schedule_independent flag m _ _ (fun c => failed_flag flag dom c)) by exact C. rewrite F, (solo_kernel ndim flag m c Hnd).
  rewrite (enough_spec ndim flag c Hnd (fun d _ => H01 d)). reflexivity.
Qed.
Lemma filled_mean (m : Mem R) c r l v : good_neighbours flag ndim c <> nil -> In v l ->
  filled ndim flag m c r (1 / num_valid ndim flag c) l v = mean (map (fun d => m d v) (good_neighbours flag ndim c)).
Proof.
  intros N I. rewrite (proj1 (filled_in ndim flag m c _ l r v) I). apply (norm_mean ndim flag m c Hnd (fun d _ => H01 d) v N).
Qed.
Lemma filled_out (m : Mem R) c r norm l v : ~ In v l -> filled ndim flag m c r norm l v = r v.
Proof. intros I. apply (proj2 (filled_in ndim flag m c _ l r v) I). Qed.
End Any.

(** *** fluid inversion (fixup_c2p.cpp) *)
Lemma LF4_ext v w g : (forall i, (i < 3)%nat -> v i = w i) -> GetLorentzFactor4 v g = GetLorentzFactor4 w g.
Proof. intros E. unfold GetLorentzFactor4, sum3. rewrite !E by lia. reflexivity. Qed.
Lemma clamp_ext gmax g v w : (forall i, (i < 3)%nat -> v i = w i) ->
  forall i, (i < 3)%nat -> fst (clamp_velocity gmax g v) i = fst (clamp_velocity gmax g w) i.
Proof.
  intros E i Hi. unfold clamp_velocity. rewrite (LF4_ext v w g E). destruct (Rlt_bool _ _); cbn; [unfold rescaled|]; rewrite (E i Hi); reflexivity.
Qed.
Theorem C23_fluid_repair : forall ndim flag dom interp valencia mhd hasye eos gamma_max geom (m : Mem R) sched c,
  (ndim = 1 \/ ndim = 2 \/ ndim = 3)%nat -> binary flag -> 1 <= gamma_max ->
  let active := failed flag dom in
  let prog := fluid_kernel ndim flag interp hasye (fluid_tail valencia mhd hasye eos gamma_max geom) in
  complete sched active prog -> active c = true ->
  let m' := fst (run flag sched (init active prog m)) in
  let G := good_neighbours flag ndim c in let avg v := mean (map (fun d => m d v) G) in
  let g := geom c in
  (* with a good neighbour and the interpolation strategy: averages of good neighbours *)
  (G <> nil -> interp = true ->
     m' c Vrho = Rmax (avg Vrho) (tiny 100) /\ m' c Veng = Rmax (avg Veng) (tiny 100) /\
     (hasye = true -> m' c Vye = avg Vye) /\
     (forall i, (i < 3)%nat -> m' c (Vvel i) = fst (clamp_velocity gamma_max (c_gcov4 g) (fun j => avg (Vvel j))) i)) /\
  (* otherwise: almost no gas, at rest *)
  (G = nil \/ interp = false ->
     m' c Vrho = tiny 100 /\ m' c Veng = tiny 100 /\ (hasye = true -> m' c Vye = / 2) /\
     (forall i, (i < 3)%nat -> m' c (Vvel i) = 0)) /\
  (* the conserved variables are those of the repaired primitives *)
  (let n := p2c valencia (m' c Vrho) (fun i => m' c (Vvel i)) (fun i => if mhd then m' c (VB i) else 0) (m' c Veng)
              (if hasye then m' c Vye else / 2) (m' c Vprs) (m' c Vgm1) (c_gcov4 g) (c_gcon g) (c_beta g) (c_lapse g) (c_gdet g) in
   m' c VcD = cD n /\ m' c Vctau = ctau n /\ (forall i, m' c (VcS i) = cS n i) /\ (hasye = true -> m' c Vcye = cye n)) /\
  (forall i, m' c (VB i) = m c (VB i)).
Proof.
  intros ndim flag dom interp val mhd hasye eos gmax geom m sched c Hnd H01 Hg active prog C A m' G avg g.
  pose proof (run_kernel ndim flag dom interp Hnd H01 [(fluid_vars hasye, fluid_max)] (fun _ => fluid_fallback hasye) (fluid_tail val mhd hasye eos gmax geom) m sched c C A) as E.
  fold G in E. assert (E' : m' c = _) by exact E. clear E.
  assert (Tn : tiny 100 = 100 / 1 * SMALL) by (unfold tiny; field).
  assert (Vl : forall j, (j < 3)%nat -> In (Vvel j) (fluid_vars hasye)).
  { intros j Hj. unfold fluid_vars. apply in_or_app. left. destruct j as [|[|[|j]]]; [cbn; tauto|cbn; tauto|cbn; tauto|lia]. }
  split; [|split; [|split]].
  - intros N I. assert (NN : match G with nil => false | _ => true end && interp = true) by (destruct G; [congruence|rewrite I; reflexivity]).
    rewrite NN in E'. rewrite E'. cbn [segments fold_left fst snd].
    set (r := filled ndim flag m c (m c) _ _).
    assert (Kv : forall v, In v (fluid_vars hasye) -> r v = avg v) by (intros v Iv; apply (filled_mean ndim flag Hnd H01 m c (m c) _ v N Iv)).
    clearbody r. rewrite Tn.
    split; [|split; [|split]].
    + cbn. rewrite (Kv Vrho) by (left; reflexivity). rewrite std_max_R. reflexivity.
    + cbn. rewrite (Kv Veng) by (unfold fluid_vars; apply in_or_app; left; cbn; tauto). rewrite std_max_R. reflexivity.
    + intros Y. cbn. apply Kv. unfold fluid_vars. rewrite Y. apply in_or_app. right. left. reflexivity.
    + intros i Hi. unfold fluid_tail. fold g. apply clamp_ext; [|exact Hi]. intros j Hj. cbn. apply Kv, Vl, Hj.
  - intros N. assert (NN : match G with nil => false | _ => true end && interp = false) by (destruct N as [-> | ->]; [reflexivity|apply andb_false_r]).
    rewrite NN in E'. rewrite E', Tn.
    split; [|split; [|split]].
    + destruct hasye; reflexivity.
    + destruct hasye; reflexivity.
    + intros ->. cbn. num_R. field.
    + intros i Hi. unfold fluid_tail. fold g.
      assert (Z : forall j, (j < 3)%nat -> fluid_fallback hasye (m c) (Vvel j) = 0).
      { intros j Hj. destruct hasye; destruct j as [|[|[|j]]]; try lia; cbn; num_R; field. }
      rewrite (clamp_ext gmax (c_gcov4 g) _ (fun _ => 0) Z i Hi). unfold clamp_velocity.
      assert (W1 : GetLorentzFactor4 (fun _ => 0) (c_gcov4 g) = 1).
      { unfold GetLorentzFactor4, sum3. replace (1 + _) with 1 by ring. apply sqrt_1. }
      rewrite W1, Rlt_bool_false by exact Hg. reflexivity.
  - cbv zeta. rewrite E'. set (r := if _ && _ then _ else _). clearbody r.
    split; [reflexivity|]. split; [reflexivity|]. split; [reflexivity|]. intros ->. reflexivity.
  - intros i. rewrite E'. destruct (_ && _); [|destruct hasye; reflexivity].
    cbn [segments fold_left fst snd fluid_tail]. change (fluid_max ?r (VB i)) with (r (VB i)).
    apply filled_out. unfold fluid_vars. intros X. apply in_app_or in X. destruct X as [X|X]; [cbn in X; intuition discriminate|].
    destruct hasye; [destruct X as [X|[]]; discriminate|destruct X].
Qed.
Print Assumptions C23_fluid_repair.
(** ... where an average lies between any bounds on the good neighbours' values *)
Theorem C23_average_between : forall (m : Mem R) flag ndim c v lo hi, good_neighbours flag ndim c <> nil ->
  (forall d, In d (good_neighbours flag ndim c) -> lo <= m d v <= hi) ->
  lo <= mean (map (fun d => m d v) (good_neighbours flag ndim c)) <= hi.
Proof.
  intros m flag ndim c v lo hi N Hb. apply mean_between.
  - intros E. apply N. destruct (good_neighbours flag ndim c); [reflexivity|discriminate].
  - intros x Hx. apply in_map_iff in Hx. destruct Hx as (d & <- & Hd). apply Hb, Hd.
Qed.
Print Assumptions C23_average_between.
(** The data of failed zones have no influence: two memories that agree on the zones that
    did not fail give the same repaired primitives. *)
Theorem C23_failed_data_unused : forall ndim flag dom interp valencia mhd hasye eos gamma_max geom (m1 m2 : Mem R) sched c,
  (ndim = 1 \/ ndim = 2 \/ ndim = 3)%nat -> binary flag -> 1 <= gamma_max ->
  let active := failed flag dom in
  let prog := fluid_kernel ndim flag interp hasye (fluid_tail valencia mhd hasye eos gamma_max geom) in
  complete sched active prog -> active c = true ->
  (forall d v, flag d = 1 -> m1 d v = m2 d v) ->
  let m1' := fst (run flag sched (init active prog m1)) in let m2' := fst (run flag sched (init active prog m2)) in
  m1' c Vrho = m2' c Vrho /\ m1' c Veng = m2' c Veng /\ (forall i, (i < 3)%nat -> m1' c (Vvel i) = m2' c (Vvel i)) /\
  (hasye = true -> m1' c Vye = m2' c Vye).
Proof.
  intros ndim flag dom interp val mhd hasye eos gmax geom m1 m2 sched c Hnd H01 Hg active prog C A Eq m1' m2'.
  pose proof (C23_fluid_repair ndim flag dom interp val mhd hasye eos gmax geom m1 sched c Hnd H01 Hg C A) as (A1 & B1 & _).
  pose proof (C23_fluid_repair ndim flag dom interp val mhd hasye eos gmax geom m2 sched c Hnd H01 Hg C A) as (A2 & B2 & _).
  fold active prog in A1, B1, A2, B2. fold m1' in A1, B1. fold m2' in A2, B2.
  set (G := good_neighbours flag ndim c) in *.
  assert (Mv : forall v, mean (map (fun d => m1 d v) G) = mean (map (fun d => m2 d v) G)).
  { intros v. f_equal. apply map_ext_in. intros d Hd. apply Eq. unfold G, good_neighbours in Hd. apply filter_In in Hd. destruct Hd as [_ Hd].
    destruct (Req_bool_spec (flag d) 1); [assumption|discriminate]. }
  assert (D : (G <> nil /\ interp = true) \/ (G = nil \/ interp = false)).
  { destruct G; [right; left; reflexivity|]. destruct interp; [left; split; [discriminate|reflexivity]|right; right; reflexivity]. }
  destruct D as [[N I]|D].
  - destruct (A1 N I) as (a1 & a2 & a3 & a4). destruct (A2 N I) as (b1 & b2 & b3 & b4).
    rewrite a1, b1, a2, b2, !Mv. split; [reflexivity|]. split; [reflexivity|]. split.
    + intros i Hi. rewrite (a4 i Hi), (b4 i Hi). apply clamp_ext; [|exact Hi]. intros j _. apply Mv.
    + intros Y. rewrite (a3 Y), (b3 Y). apply Mv.
  - destruct (B1 D) as (a1 & a2 & a3 & a4). destruct (B2 D) as (b1 & b2 & b3 & b4).
    rewrite a1, b1, a2, b2. split; [reflexivity|]. split; [reflexivity|]. split.
    + intros i Hi. rewrite (a4 i Hi), (b4 i Hi). reflexivity.
    + intros Y. rewrite (a3 Y), (b3 Y). reflexivity.
Qed.
Print Assumptions C23_failed_data_unused.

Lemma fallback_spec : forall l (r : Row R) v, (forall s, In s l -> v = VJ s -> fold_left rad_fallback_s l r v = tiny 10) /\
     (forall s i, In s l -> (i < 3)%nat -> v = VH s i -> fold_left rad_fallback_s l r v = 0) /\
     ((forall s, In s l -> v <> VJ s /\ forall i, v <> VH s i) -> fold_left rad_fallback_s l r v = r v).
Proof.
  induction l as [|s0 l IH]; intros r v; cbn [fold_left].
    - split; [intros s []|]. split; [intros s i []|reflexivity].
    - destruct (IH (rad_fallback_s r s0) v) as (I1 & I2 & I3).
      destruct (in_dec FVar_dec v (flat_map (fun s => [VJ s]) l)) as [X|X].
      { apply in_flat_map in X. destruct X as (s1 & Hs1 & [X|[]]). subst v. split; [intros s _ Hv; apply (I1 s1 Hs1 eq_refl)|].
        split; [intros; discriminate|]. intros K. destruct (K s1 (or_intror Hs1)) as [K' _]. congruence. }
      destruct (in_dec FVar_dec v (flat_map (fun s => [VH s 0; VH s 1; VH s 2]) l)) as [X2|X2].
      { apply in_flat_map in X2. destruct X2 as (s1 & Hs1 & Hv). assert (exists i, (i < 3)%nat /\ v = VH s1 i) as (i1 & Hi1 & ->).
        { cbn in Hv. destruct Hv as [<-|[<-|[<-|[]]]]; eexists; (split; [|reflexivity]); lia. }
        split; [intros; discriminate|]. split; [intros s i _ _ _; apply (I2 s1 i1 Hs1 Hi1 eq_refl)|]. intros K. destruct (K s1 (or_intror Hs1)) as [_ K']. exfalso. apply (K' i1 eq_refl). }
      assert (NJ : forall s, In s l -> v <> VJ s). { intros s Hs ->. apply X. apply in_flat_map. exists s. split; [exact Hs|left; reflexivity]. }
      assert (NH : forall s i, In s l -> (i < 3)%nat -> v <> VH s i).
      { intros s i Hs Hi ->. apply X2. apply in_flat_map. exists s. split; [exact Hs|]. destruct i as [|[|[|i]]]; [cbn; tauto|cbn; tauto|cbn; tauto|lia]. }
      assert (Keep : forall l' (r' : Row R), (forall s, In s l' -> v <> VJ s) -> (forall s i, In s l' -> (i < 3)%nat -> v <> VH s i) -> fold_left rad_fallback_s l' r' v = r' v).
      { induction l' as [|s1 l' IHl]; intros r' K1 K2; cbn [fold_left]; [reflexivity|].
        rewrite IHl; [|intros s Hs; apply K1; right; exact Hs|intros s i Hs; apply K2; right; exact Hs].
        unfold rad_fallback_s. rewrite !set_other; [reflexivity| | | |].
        - apply K1. left. reflexivity.
        - apply K2; [left; reflexivity|lia].
        - apply K2; [left; reflexivity|lia].
        - apply K2; [left; reflexivity|lia]. }
      rewrite (Keep l (rad_fallback_s r s0) NJ NH).
      split; [|split].
      + intros s [->|Hs] ->; [|exfalso; apply (NJ s Hs eq_refl)]. unfold rad_fallback_s. rewrite !set_other by discriminate. rewrite set_same. unfold tiny. num_R. field.
      + intros s i [->|Hs] Hi ->; [|exfalso; apply (NH s i Hs Hi eq_refl)]. unfold rad_fallback_s.
        destruct i as [|[|[|i]]]; [| | |lia]; rewrite ?set_other by discriminate; rewrite ?set_same; num_R; field.
      + intros K. destruct (K s0 (or_introl eq_refl)) as [K1 K2]. unfold rad_fallback_s. rewrite !set_other; [reflexivity|exact K1|apply K2|apply K2|apply K2].
Qed.
Lemma in_rad_vars nspec v : In v (rad_vars nspec) <-> exists s, (s < nspec)%nat /\ (v = VJ s \/ v = VH s 0 \/ v = VH s 1 \/ v = VH s 2).
Proof.
  unfold rad_vars. rewrite in_flat_map. split.
  - intros (s & Hs & Hv). exists s. apply in_seq in Hs. split; [lia|]. cbn in Hv. intuition.
  - intros (s & Hs & Hv). exists s. split; [apply in_seq; lia|]. cbn. intuition.
Qed.
(** *** radiation inversion (fixup_radc2p.cpp): the state handed to the local tail *)
Theorem C23_rad_repair : forall ndim flag dom interp nspec tail (m : Mem R) sched c,
  (ndim = 1 \/ ndim = 2 \/ ndim = 3)%nat -> binary flag ->
  let active := failed flag dom in
  let prog := rad_kernel ndim flag interp nspec tail in
  complete sched active prog -> active c = true ->
  let m' := fst (run flag sched (init active prog m)) in
  let G := good_neighbours flag ndim c in let avg v := mean (map (fun d => m d v) G) in
  exists r, m' c = tail c r /\
  (G <> nil -> interp = true -> forall s, (s < nspec)%nat -> r (VJ s) = avg (VJ s) /\ forall i, (i < 3)%nat -> r (VH s i) = avg (VH s i)) /\
  (G = nil \/ interp = false -> forall s, (s < nspec)%nat -> r (VJ s) = tiny 10 /\ forall i, (i < 3)%nat -> r (VH s i) = 0) /\
  (forall v, (forall s, v <> VJ s) -> (forall s i, v <> VH s i) -> r v = m c v).
Proof.
  intros ndim flag dom interp nspec tail m sched c Hnd H01 active prog C A m' G avg.
  pose proof (run_kernel ndim flag dom interp Hnd H01 [(rad_vars nspec, fun r => r)] (fun _ => rad_fallback nspec) tail m sched c C A) as E.
  fold G in E. eexists. split; [exact E|].
  pose proof (in_rad_vars nspec) as InJ.
  pose proof fallback_spec as Fb.
  split; [|split].
  - intros N I s Hs. assert (NN : match G with nil => false | _ => true end && interp = true) by (destruct G; [congruence|rewrite I; reflexivity]).
    rewrite NN. cbn [segments fold_left fst snd]. split.
    + apply (filled_mean ndim flag Hnd H01 m c (m c) _ _ N). apply InJ. exists s. tauto.
    + intros i Hi. apply (filled_mean ndim flag Hnd H01 m c (m c) _ _ N). apply InJ. exists s. split; [exact Hs|].
      destruct i as [|[|[|i]]]; [tauto|tauto|tauto|lia].
  - intros N s Hs. assert (NN : match G with nil => false | _ => true end && interp = false) by (destruct N as [-> | ->]; [reflexivity|apply andb_false_r]).
    rewrite NN. unfold rad_fallback. split.
    + apply (proj1 (Fb (seq 0 nspec) (m c) (VJ s)) s); [apply in_seq; lia|reflexivity].
    + intros i Hi. apply (proj1 (proj2 (Fb (seq 0 nspec) (m c) (VH s i))) s i); [apply in_seq; lia|exact Hi|reflexivity].
  - intros v K1 K2. destruct (_ && _).
    + cbn [segments fold_left fst snd]. apply filled_out. rewrite InJ. intros (s & _ & [X|[X|[X|X]]]); [apply (K1 s X)|apply (K2 s _ X)|apply (K2 s _ X)|apply (K2 s _ X)].
    + apply (proj2 (proj2 (Fb (seq 0 nspec) (m c) v))). intros s _. split; [apply K1|apply K2].
Qed.
Print Assumptions C23_rad_repair.

(** *** coupled fluid-radiation source update (fixup_src.cpp) *)
Definition fluid_var (hasye : bool) (v : FVar) : Prop :=
  v = Vrho \/ v = Veng \/ (exists i, (i < 3)%nat /\ v = Vvel i) \/ (hasye = true /\ v = Vye).
Lemma in_src_vars hasye v : In v (src_fluid_vars hasye) <-> fluid_var hasye v.
Proof.
  unfold src_fluid_vars, fluid_var. rewrite in_app_iff. split.
  - intros [X|X].
    + cbn in X. destruct X as [<-|[<-|[<-|[<-|[<-|[]]]]]]; [left; reflexivity|right; left; reflexivity| | |]; right; right; left; eexists; (split; [|reflexivity]); lia.
    + destruct hasye; [destruct X as [<-|[]]; tauto|destruct X].
  - intros [->|[->|[(i & Hi & ->)|[-> ->]]]]; [left; cbn; tauto|left; cbn; tauto| |right; left; reflexivity].
    left. destruct i as [|[|[|i]]]; [cbn; tauto|cbn; tauto|cbn; tauto|lia].
Qed.
(** only interior zones count as good; the equation of state call between the groups may
    change temperature, pressure and gamma1 of the own zone *)
Theorem C23_src_repair : forall ndim flag interior dom interp hasye nspec eos_update tail (m : Mem R) sched c,
  (ndim = 1 \/ ndim = 2 \/ ndim = 3)%nat -> binary flag ->
  (forall r v, v <> Vtmp -> v <> Vprs -> v <> Vgm1 -> eos_update r v = r v) ->
  let fl := src_flags flag interior in
  let active := failed fl dom in
  let prog := src_kernel ndim fl interp hasye nspec eos_update tail in
  complete sched active prog -> active c = true ->
  let m' := fst (run fl sched (init active prog m)) in
  let G := good_neighbours fl ndim c in let avg v := mean (map (fun d => m d v) G) in
  (forall d, In d G -> interior d = true /\ flag d = 1) /\
  exists r, m' c = tail c r /\
  (G <> nil -> interp = true ->
     (forall v, fluid_var hasye v -> r v = avg v) /\
     (forall s, (s < nspec)%nat -> r (VJ s) = avg (VJ s) /\ forall i, (i < 3)%nat -> r (VH s i) = avg (VH s i))) /\
  (G = nil \/ interp = false ->
     r Vrho = tiny 10 /\ r Veng = tiny 10 /\ (forall i, (i < 3)%nat -> r (Vvel i) = 0) /\ (hasye = true -> r Vye = / 2) /\
     (forall s, (s < nspec)%nat -> r (VJ s) = tiny 10 /\ forall i, (i < 3)%nat -> r (VH s i) = 0)).
Proof.
  intros ndim flag interior dom interp hasye nspec eosu tail m sched c Hnd H01' He fl active prog C A m' G avg.
  assert (H01 : binary fl). { intros d. unfold fl, src_flags. destruct (interior d); [apply H01'|left; num_R; field]. }
  split.
  { intros d Hd. unfold G, good_neighbours in Hd. apply filter_In in Hd. destruct Hd as [_ Hd]. destruct (Req_bool_spec (fl d) 1) as [K|K]; [|discriminate].
    revert K. unfold fl, src_flags. destruct (interior d); [auto|]. num_R. intros K. exfalso. lra. }
  pose proof (run_kernel ndim fl dom interp Hnd H01 [(src_fluid_vars hasye, eosu); (rad_vars nspec, fun r => r)] (fun _ => src_fallback hasye nspec eosu) tail m sched c C A) as E.
  fold G in E. eexists. split; [exact E|].
  assert (NR : forall v, fluid_var hasye v -> ~ In v (rad_vars nspec) /\ v <> Vtmp /\ v <> Vprs /\ v <> Vgm1 /\ (forall s, v <> VJ s) /\ (forall s i, v <> VH s i)).
  { intros v Hv. rewrite in_rad_vars. assert (K1 : forall s, v <> VJ s) by (intros s ->; destruct Hv as [X|[X|[(i & _ & X)|[_ X]]]]; discriminate).
    assert (K2 : forall s i, v <> VH s i) by (intros s i ->; destruct Hv as [X|[X|[(j & _ & X)|[_ X]]]]; discriminate).
    split; [intros (s & _ & [X|[X|[X|X]]]); [apply (K1 s X)|apply (K2 s _ X)|apply (K2 s _ X)|apply (K2 s _ X)]|].
    split; [intros ->; destruct Hv as [X|[X|[(i & _ & X)|[_ X]]]]; discriminate|].
    split; [intros ->; destruct Hv as [X|[X|[(i & _ & X)|[_ X]]]]; discriminate|].
    split; [intros ->; destruct Hv as [X|[X|[(i & _ & X)|[_ X]]]]; discriminate|]. split; assumption. }
  split.
  - intros N I. assert (NN : match G with nil => false | _ => true end && interp = true) by (destruct G; [congruence|rewrite I; reflexivity]).
    rewrite NN. cbn [segments fold_left fst snd]. split.
    + intros v Hv. destruct (NR v Hv) as (K0 & K1 & K2 & K3 & _). rewrite filled_out by exact K0. rewrite He by assumption.
      apply (filled_mean ndim fl Hnd H01 m c (m c) _ v N). apply in_src_vars, Hv.
    + intros s Hs. split.
      * apply (filled_mean ndim fl Hnd H01 m c _ _ _ N). apply in_rad_vars. exists s. tauto.
      * intros i Hi. apply (filled_mean ndim fl Hnd H01 m c _ _ _ N). apply in_rad_vars. exists s. split; [exact Hs|]. destruct i as [|[|[|i]]]; [tauto|tauto|tauto|lia].
  - intros N. assert (NN : match G with nil => false | _ => true end && interp = false) by (destruct N as [-> | ->]; [reflexivity|apply andb_false_r]).
    rewrite NN. unfold src_fallback. cbv zeta. set (r0 := if hasye then _ else _).
    assert (Kf : forall v, fluid_var hasye v -> rad_fallback nspec (eosu r0) v = r0 v).
    { intros v Hv. destruct (NR v Hv) as (K0 & K1 & K2 & K3 & K4 & K5). unfold rad_fallback.
      rewrite (proj2 (proj2 (fallback_spec (seq 0 nspec) (eosu r0) v))) by (intros s _; split; [apply K4|apply K5]). apply He; assumption. }
    assert (Tn : tiny 10 = 10 / 1 * SMALL) by (unfold tiny; field).
    split; [rewrite Kf by (left; reflexivity); rewrite Tn; unfold r0; destruct hasye; reflexivity|].
    split; [rewrite Kf by (right; left; reflexivity); rewrite Tn; unfold r0; destruct hasye; reflexivity|].
    split.
    { intros i Hi. rewrite Kf by (right; right; left; exists i; split; [exact Hi|reflexivity]). unfold r0.
      destruct hasye; destruct i as [|[|[|i]]]; try lia; cbn; num_R; field. }
    split.
    { intros Y. rewrite Kf by (right; right; right; split; [exact Y|reflexivity]). unfold r0. rewrite Y. cbn. num_R. field. }
    intros s Hs. unfold rad_fallback. split.
    + apply (proj1 (fallback_spec (seq 0 nspec) (eosu r0) (VJ s)) s); [apply in_seq; lia|reflexivity].
    + intros i Hi. apply (proj1 (proj2 (fallback_spec (seq 0 nspec) (eosu r0) (VH s i))) s i); [apply in_seq; lia|exact Hi|reflexivity].
Qed.
Print Assumptions C23_src_repair.

(** *** Floating point *)
(** A failed zone can hold NaN (con2prim_robust.hpp:441-445 flags exactly that), and
    0 * NaN = NaN: a failed neighbour then poisons the average, and the outcome depends on
    the order in which the two failed zones are visited.  One-dimensional, zones 0 and 3
    good with density 1, zone 1 failed, zone 2 failed with density NaN. *)
Definition z1 (i : Z) : Zone := (0, 0, 0, i)%Z.
Definition fl4 : Zone -> B64 := fun c => let '(_, _, _, i) := c in if (i =? 1)%Z || (i =? 2)%Z then nlit 0 1 else nlit 1 1.
Definition dom4 : Zone -> bool := fun c => let '(b, k, j, i) := c in (b =? 0)%Z && (k =? 0)%Z && (j =? 0)%Z && ((i =? 1)%Z || (i =? 2)%Z).
Definition m4 : Mem B64 := fun c v => let '(_, _, _, i) := c in if (i =? 2)%Z then B754_nan else nlit 1 1.
Definition prog4 : Zone -> list (instr B64) := fluid_kernel 1 fl4 true false (fun _ r => r).
Definition order12 : list Zone := repeat (z1 1) 22 ++ repeat (z1 2) 22.
Definition order21 : list Zone := repeat (z1 2) 22 ++ repeat (z1 1) 22.
Theorem C23_nan_refuted :
  complete order12 (failed fl4 dom4) prog4 /\ complete order21 (failed fl4 dom4) prog4 /\
  filter (fun d => neqb (fl4 d) (nlit 1 1)) (neighbours 1 (z1 1)) = [z1 0] /\
  is_nan (fst (run fl4 order12 (init (failed fl4 dom4) prog4 m4)) (z1 1) Vrho) = true /\
  is_nan (fst (run fl4 order21 (init (failed fl4 dom4) prog4 m4)) (z1 1) Vrho) = false.
Proof.
  assert (Cm : forall s, count_occ Zone_dec s (z1 1) = 22%nat -> count_occ Zone_dec s (z1 2) = 22%nat -> complete s (failed fl4 dom4) prog4).
  { intros s S1 S2 c A. assert (c = z1 1 \/ c = z1 2) as [->| ->].
    { unfold failed in A. apply andb_prop in A. destruct A as [A _]. destruct c as [[[b k] j] i]. unfold dom4, z1 in *.
      apply andb_prop in A. destruct A as [A Ai]. apply andb_prop in A. destruct A as [A Aj]. apply andb_prop in A. destruct A as [Ab Ak].
      apply Z.eqb_eq in Ab, Ak, Aj. subst. apply orb_prop in Ai. destruct Ai as [Ai|Ai]; apply Z.eqb_eq in Ai; subst; tauto. }
    - rewrite S1. vm_compute. repeat constructor.
    - rewrite S2. vm_compute. repeat constructor. }
  split; [apply Cm; vm_compute; reflexivity|]. split; [apply Cm; vm_compute; reflexivity|].
  split; [|split]; vm_compute; reflexivity.
Qed.
Print Assumptions C23_nan_refuted.

(** the hypotheses of the theorems over R are met: the same mesh, any values *)
Definition flR : Zone -> R := fun c => let '(_, _, _, i) := c in if (i =? 1)%Z || (i =? 2)%Z then 0 else 1.
Example C23_nonvacuous : forall tail,
  binary flR /\ failed flR dom4 (z1 1) = true /\ good_neighbours flR 1 (z1 1) = [z1 0] /\
  complete order12 (failed flR dom4) (fluid_kernel 1 flR true false tail) /\
  complete order21 (failed flR dom4) (fluid_kernel 1 flR true false tail).
Proof.
  intros tail. split; [intros [[[b k] j] i]; unfold flR; destruct (_ || _); tauto|].
  split; [unfold failed; cbn; num_R; apply Req_bool_true; field|].
  split; [unfold good_neighbours; cbn; rewrite Req_bool_true, Req_bool_false by lra; reflexivity|].
  assert (Cm : forall s, count_occ Zone_dec s (z1 1) = 22%nat -> count_occ Zone_dec s (z1 2) = 22%nat -> complete s (failed flR dom4) (fluid_kernel 1 flR true false tail)).
  { intros s S1 S2 c A. assert (c = z1 1 \/ c = z1 2) as [->| ->].
    { unfold failed in A. apply andb_prop in A. destruct A as [A _]. destruct c as [[[b k] j] i]. unfold dom4, z1 in *.
      apply andb_prop in A. destruct A as [A Ai]. apply andb_prop in A. destruct A as [A Aj]. apply andb_prop in A. destruct A as [Ab Ak].
      apply Z.eqb_eq in Ab, Ak, Aj. subst. apply orb_prop in Ai. destruct Ai as [Ai|Ai]; apply Z.eqb_eq in Ai; subst; tauto. }
    all: rewrite ?S1, ?S2; unfold fluid_kernel, kernel; rewrite app_length; destruct (_ && _); cbn; lia. }
  split; apply Cm; vm_compute; reflexivity.
Qed.
