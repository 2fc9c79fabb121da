(** The repair kernels: independence of the schedule, and the value computed. *)
From Coq Require Import ZArith Reals List Bool Lia Lra Psatz FunctionalExtensionality.
From Flocq Require Import Core.
From Verif.Model Require Import Num Robust Fixup.
From Verif.Spec Require Import FixupSpec.
From Verif.Proofs Require Import NumR RobustProofs.
Import ListNotations.
Local Open Scope R_scope.

Section Solo.
Variables (flag : Zone -> R) (m0 : Mem R).
(** a thread alone, neighbours frozen at their initial values *)
Definition solo1 (i : instr R) (s : Row R * list R) : Row R * list R :=
  let '(r, regs) := s in
  match i with
  | LoadMul d v => (r, regs ++ [flag d * m0 d v])
  | Local f => f r regs
  end.
Definition solo (code : list (instr R)) (s : Row R * list R) : Row R * list R := fold_left (fun s i => solo1 i s) code s.
Lemma solo_app a b s : solo (a ++ b) s = solo b (solo a s).
Proof. apply fold_left_app. Qed.

Variables (active : Zone -> bool) (prog : Zone -> list (instr R)).
Hypothesis Hflag : forall c, active c = true -> flag c = 0.
Definition inv (pos : Zone -> nat) (s : State R) : Prop :=
  forall c, if active c then
      fst (snd s c) = skipn (pos c) (prog c) /\
      (fst s c, snd (snd s c)) = solo (firstn (pos c) (prog c)) (m0 c, nil)
    else fst s c = m0 c /\ snd s c = (nil, nil).
Lemma inv_init : inv (fun _ => 0%nat) (init active prog m0).
Proof. intros c. unfold init; cbn. destruct (active c); split; reflexivity. Qed.
Lemma firstn_S_nth {A} (l : list A) n x rest : skipn n l = x :: rest -> firstn (S n) l = firstn n l ++ [x] /\ skipn (S n) l = rest.
Proof.
  revert l. induction n as [|n IH]; intros l E; cbn in E.
  - subst l. split; reflexivity.
  - destruct l as [|y l]; [discriminate|]. destruct (IH l E) as [E1 E2]. split; [|exact E2].
    change (y :: firstn (S n) l = y :: (firstn n l ++ [x])). rewrite E1. reflexivity.
Qed.
Lemma skipn_nil {A} (l : list A) n : skipn n l = nil -> skipn (S n) l = nil /\ firstn (S n) l = firstn n l.
Proof.
  intros E. pose proof (skipn_length n l) as K. rewrite E in K. cbn in K.
  rewrite skipn_all2 by lia. rewrite !firstn_all2 by lia. split; reflexivity.
Qed.
Lemma load_value s pos d v : inv pos s -> flag d * fst s d v = flag d * m0 d v.
Proof.
  intros I. specialize (I d). destruct (active d) eqn:A.
  - rewrite (Hflag d A). ring.
  - rewrite (proj1 I). reflexivity.
Qed.
Lemma inv_step pos c s : inv pos s -> inv (fun d => if Zone_dec d c then S (pos d) else pos d) (step flag c s).
Proof.
  intros I. destruct s as [m th]. pose proof (I c) as Ic. cbn [fst snd] in Ic.
  unfold step. destruct (th c) as [code regs] eqn:E. cbn [fst snd] in Ic.
  destruct (active c) eqn:Ac.
  2: { destruct Ic as [_ Ic]. injection Ic as -> ->. intros d. specialize (I d). cbn [fst snd] in *. destruct (active d) eqn:Ad; [|exact I].
       destruct (Zone_dec d c) as [->|]; [congruence|exact I]. }
  destruct Ic as [C1 C2]. destruct code as [|i code].
  - intros d. specialize (I d). cbn [fst snd] in *. destruct (active d) eqn:Ad; [|exact I].
    destruct (Zone_dec d c) as [->|]; [|exact I]. destruct (skipn_nil _ _ (eq_sym C1)) as [E1 E2]. rewrite E1, E2, E. cbn [fst snd]. split; [reflexivity|exact C2].
  - destruct (firstn_S_nth _ _ _ _ (eq_sym C1)) as [E1 E2]. destruct i as [d0 v|f].
    + pose proof (load_value (m, th) pos d0 v I) as LV. cbn [fst] in LV.
      intros d. pose proof (I d) as Id. cbn [fst snd] in *. unfold set_thread.
      destruct (Zone_dec d c) as [->|].
      * rewrite Ac. cbn [fst snd]. split; [symmetry; exact E2|]. rewrite E1, solo_app, <- C2. cbn. num_R. rewrite LV. reflexivity.
      * exact Id.
    + destruct (f (m c) regs) as [r regs'] eqn:Ef.
      intros d. pose proof (I d) as Id. cbn [fst snd] in *. unfold set_thread, set_row.
      destruct (Zone_dec d c) as [->|].
      * rewrite Ac. cbn [fst snd]. split; [symmetry; exact E2|]. rewrite E1, solo_app, <- C2. cbn. rewrite Ef. reflexivity.
      * exact Id.
Qed.
Lemma inv_run sched pos s : inv pos s -> inv (fun d => pos d + count_occ Zone_dec sched d)%nat (run flag sched s).
Proof.
  revert pos s. induction sched as [|c sched IH]; intros pos s I; cbn [run fold_left].
  - intros d. specialize (I d). cbn [count_occ]. rewrite Nat.add_0_r. exact I.
  - pose proof (IH _ _ (inv_step pos c s I)) as K. intros d. specialize (K d). cbn [count_occ] in *.
    destruct (Zone_dec c d) as [E|E]; destruct (Zone_dec d c) as [E'|E']; try congruence.
    + replace (pos d + S (count_occ Zone_dec sched d))%nat with (S (pos d) + count_occ Zone_dec sched d)%nat by lia. exact K.
    + exact K.
Qed.
Theorem schedule_independent sched : complete sched active prog ->
  forall c, fst (run flag sched (init active prog m0)) c = if active c then fst (solo (prog c) (m0 c, nil)) else m0 c.
Proof.
  intros Hc c. pose proof (inv_run sched _ _ inv_init c) as K. cbn [Nat.add] in K. destruct (active c) eqn:A; [|exact (proj1 K)].
  destruct K as [_ K]. rewrite firstn_all2 in K by (apply Hc; exact A).
  exact (f_equal fst K).
Qed.
End Solo.

(** ** the value *)
Section Value.
Variables (ndim : nat) (flag : Zone -> R) (m0 : Mem R) (c : Zone).
Hypothesis Hnd : (ndim = 1 \/ ndim = 2 \/ ndim = 3)%nat.
Definition wsum (v : FVar) : R := sum_list (map (fun d => flag d * m0 d v) (neighbours ndim c)).
Lemma set_set (r : Row R) v x y : set_var (set_var r v x) v y = set_var r v y.
Proof. apply functional_extensionality. intros w. unfold set_var. destruct (FVar_dec w v); reflexivity. Qed.
Lemma set_same (r : Row R) v x : set_var r v x v = x.
Proof. unfold set_var. destruct (FVar_dec v v); congruence. Qed.
Lemma set_other (r : Row R) v w x : w <> v -> set_var r v x w = r w.
Proof. unfold set_var. destruct (FVar_dec w v); congruence. Qed.
Lemma solo_fixup norm v r : solo flag m0 (fixup_var ndim c norm v) (r, nil) = (set_var r v (norm * wsum v), nil).
Proof.
  unfold wsum, fixup_var. destruct c as [[[b k] j] i]. destruct Hnd as [-> | [-> | ->]]; cbn; num_R; unfold reg; cbn; rewrite !set_set, !set_same; f_equal; f_equal; ring.
Qed.
Definition filled (r : Row R) (norm : R) (l : list FVar) : Row R := fold_left (fun r v => set_var r v (norm * wsum v)) l r.
Lemma solo_fixups norm l r : solo flag m0 (flat_map (fixup_var ndim c norm) l) (r, nil) = (filled r norm l, nil).
Proof.
  revert r. induction l as [|v l IH]; intros r; [reflexivity|]. cbn [flat_map]. rewrite solo_app, solo_fixup, IH. reflexivity.
Qed.
Lemma filled_in norm l : forall r v, (In v l -> filled r norm l v = norm * wsum v) /\ (~ In v l -> filled r norm l v = r v).
Proof.
  induction l as [|w l IH]; intros r v; cbn [filled fold_left]; [split; [intros []|reflexivity]|].
  fold (filled (set_var r w (norm * wsum w)) norm l). destruct (IH (set_var r w (norm * wsum w)) v) as [K1 K2].
  destruct (in_dec FVar_dec v l) as [I|I].
  - split; [intros _; apply K1, I|intros N; exfalso; apply N; right; exact I].
  - split.
    + intros [->|J]; [|contradiction]. rewrite (K2 I). apply set_same.
    + intros N. rewrite (K2 I). apply set_other. intros ->. apply N. left. reflexivity.
Qed.
Lemma solo_own f r : solo flag m0 [own f] (r, nil) = (f r, nil). Proof. reflexivity. Qed.
Definition segments (groups : list (list FVar * (Row R -> Row R))) (norm : R) (r : Row R) : Row R :=
  fold_left (fun r g => snd g (filled r norm (fst g))) groups r.
Lemma solo_groups groups norm r :
  solo flag m0 (flat_map (fun g => flat_map (fixup_var ndim c norm) (fst g) ++ [own (snd g)]) groups) (r, nil) = (segments groups norm r, nil).
Proof.
  revert r. induction groups as [|g gs IH]; intros r; [reflexivity|]. cbn [flat_map]. rewrite solo_app, solo_app, solo_fixups, solo_own, IH. reflexivity.
Qed.
Lemma solo_kernel interp groups fallback tail r :
  fst (solo flag m0 (kernel ndim flag interp groups fallback tail c) (r, nil))
  = tail c (if (Rlt_bool (/ 2) (num_valid ndim flag c)) && interp then segments groups (1 / num_valid ndim flag c) r else fallback c r).
Proof.
  unfold kernel. rewrite solo_app. num_R. replace (1 / 2) with (/ 2) by field. replace (1 / 1) with 1 by field. destruct (_ && interp).
  - rewrite solo_groups. reflexivity.
  - reflexivity.
Qed.

(** flags are 0 or 1 on the neighbours *)
Hypothesis H01 : forall d, In d (neighbours ndim c) -> flag d = 0 \/ flag d = 1.
Definition goods : list Zone := filter (fun d => Req_bool (flag d) 1) (neighbours ndim c).
Lemma wsum_goods l v : (forall d, In d l -> flag d = 0 \/ flag d = 1) ->
  sum_list (map (fun d => flag d * m0 d v) l) = sum_list (map (fun d => m0 d v) (filter (fun d => Req_bool (flag d) 1) l)).
Proof.
  induction l as [|d l IH]; intros Hl; [reflexivity|]. cbn [map filter sum_list fold_right]. fold (sum_list (map (fun d => flag d * m0 d v) l)).
  rewrite (IH (fun d h => Hl d (or_intror h))). destruct (Hl d (or_introl eq_refl)) as [E|E]; rewrite E.
  - rewrite Req_bool_false by lra. unfold sum_list; ring.
  - rewrite Req_bool_true by lra. cbn [map sum_list fold_right]. unfold sum_list; ring.
Qed.
Lemma count_goods l : (forall d, In d l -> flag d = 0 \/ flag d = 1) ->
  sum_list (map flag l) = INR (length (filter (fun d => Req_bool (flag d) 1) l)).
Proof.
  induction l as [|d l IH]; intros Hl; [reflexivity|]. cbn [map filter sum_list fold_right]. fold (sum_list (map flag l)).
  rewrite (IH (fun d h => Hl d (or_intror h))). destruct (Hl d (or_introl eq_refl)) as [E|E]; rewrite E.
  - rewrite Req_bool_false by lra. unfold sum_list; ring.
  - rewrite Req_bool_true by lra. cbn [length]. rewrite S_INR. ring.
Qed.
Lemma num_valid_count : num_valid ndim flag c = INR (length goods).
Proof.
  unfold goods. rewrite <- count_goods by exact H01. unfold num_valid. destruct c as [[[b k] j] i]. destruct Hnd as [-> | [-> | ->]]; cbn; num_R; ring.
Qed.
Lemma enough_spec : Rlt_bool (/ 2) (num_valid ndim flag c) = match goods with nil => false | _ => true end.
Proof.
  rewrite num_valid_count. destruct goods as [|d l]; cbn [length].
  - apply Rlt_bool_false. cbn. lra.
  - apply Rlt_bool_true. rewrite S_INR. pose proof (pos_INR (length l)). lra.
Qed.
Lemma norm_mean v : goods <> nil -> 1 / num_valid ndim flag c * wsum v = mean (map (fun d => m0 d v) goods).
Proof.
  intros N. unfold mean, wsum. rewrite num_valid_count, map_length, wsum_goods by exact H01. fold goods.
  assert (INR (length goods) <> 0). { destruct goods as [|d l]; [congruence|]. cbn [length]. rewrite S_INR. pose proof (pos_INR (length l)). lra. }
  field. assumption.
Qed.
End Value.

Lemma mean_between l lo hi : l <> nil -> (forall x, In x l -> lo <= x <= hi) -> lo <= mean l <= hi.
Proof.
  intros N Hl. unfold mean.
  assert (B : INR (length l) * lo <= sum_list l <= INR (length l) * hi).
  { clear N. induction l as [|x l IH]; [cbn; lra|]. cbn [sum_list fold_right length]. fold (sum_list l). rewrite S_INR.
    pose proof (Hl x (or_introl eq_refl)). pose proof (IH (fun y h => Hl y (or_intror h))). lra. }
  assert (P : 0 < INR (length l)). { destruct l as [|x l]; [congruence|]. cbn [length]. rewrite S_INR. pose proof (pos_INR (length l)). lra. }
  split; apply Rmult_le_reg_r with (INR (length l)); try exact P; unfold Rdiv; rewrite Rmult_assoc, Rinv_l by lra; lra.
Qed.
