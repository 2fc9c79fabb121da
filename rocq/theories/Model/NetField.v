(** src/fixup/fixup_netfield.cpp and the part of src/phoebus_driver.cpp that schedules it: the
    controller of the magnetic flux threading a black hole, over the reals. *)
From Coq Require Import Reals ZArith List Bool.
From Flocq Require Import Core.
From Verif.Model Require Import Num Robust ParFor FluxFix Modified.
Import ListNotations.
Local Open Scope R_scope.

(** fixup.cpp:77-99: the parameters, and the mutable ones.  The mutable ones are added with
    "true" (mutable), not as restart parameters: a restarted run begins with [nf_init] *)
Record NFParams := { enable : bool; enforced_phi : R; timescale : R; cadence : R; start_time : R }.
Record NFState := mkNF { dphi_dt : R; next_update : R; phi_factor : R }.
Definition nf_init (p : NFParams) : NFState := mkNF 0 (start_time p) 0.

(** the tests  t >= next_dphi_dt_update_time  and  t >= enforced_phi_start_time *)
Definition nf_due (s : NFState) (t : R) : bool := Rle_bool (next_update s) t.
Definition nf_due2 (p : NFParams) (s : NFState) (t : R) : bool := nf_due s t && Rle_bool (start_time p) t.

(** fixup_netfield.cpp:38-62: does the task add the partition's Mdot and Phi to the sums? *)
Definition sums_now (p : NFParams) (s : NFState) (t : R) (stage : nat) : bool :=
  Nat.eqb stage 1 && enable p && nf_due2 p s t.
(** fixup_netfield.cpp:64-83: is a reduction posted?  (stage is not looked at) *)
Definition starts_reduce (p : NFParams) (s : NFState) (t : R) (stage : nat) : bool := enable p && nf_due2 p s t.
(** fixup_netfield.cpp:85-107: is the reduction waited for? *)
Definition checks_reduce (p : NFParams) (s : NFState) (t : R) (stage : nat) : bool :=
  if Nat.eqb stage 1 then enable p && nf_due2 p s t else false.

(** std::clamp(v, lo, hi).  Its behaviour is undefined when hi < lo; [ub] is what the
    implementation happens to return then, and the theorems hold for every [ub]
    (a number: an implementation that aborts is outside the model) *)
Section Clamp.
Variable ub : R -> R -> R -> R.
Definition std_clamp (v lo hi : R) : R :=
  if Rlt_bool hi lo then ub v lo hi else if Rlt_bool v lo then lo else if Rlt_bool hi v then hi else v.

(** fixup_netfield.cpp:127-141: the new rate; [mdot], [phi] are vals0[0], vals0[1] *)
Definition new_rate (p : NFParams) (d mdot phi : R) : R :=
  let fiducial := (enforced_phi p - phi / sqrt mdot) / timescale p in
  let change := fiducial - d in
  let reference := IZR (sgn change) * Rabs d in
  if Req_bool d 0 then d + change
  else d + std_clamp change (3 / 4 * reference) (4 / 3 * reference).

(** fixup_netfield.cpp:109-154; [vals0], [vals1] are (Mdot, Phi) before and after the unit
    field was added *)
Definition UpdateNetFieldScaleControls (p : NFParams) (t : R) (stage : nat) (vals0 vals1 : R * R) (s : NFState) : NFState :=
  if negb (Nat.eqb stage 1) then s
  else if enable p && nf_due s t then
    mkNF (new_rate p (dphi_dt s) (fst vals0) (snd vals0)) (next_update s + cadence p) (snd vals1 - snd vals0)
  else s.
End Clamp.
(** libstdc++: std::min(std::max(v, lo), hi);  libc++: v < lo ? lo : hi < v ? hi : v *)
Definition ub_libstdcxx (v lo hi : R) : R := Rmin (Rmax v lo) hi.
Definition ub_libcxx (v lo hi : R) : R := if Rlt_bool v lo then lo else if Rlt_bool hi v then hi else v.

(** fixup_netfield.cpp:156-201: the multiple of the unit field that is added, None if the
    field is left alone; [dt] is beta * dt of the stage (phoebus_driver.cpp:435-463) *)
Definition modify_amount (p : NFParams) (t dt : R) (stage : nat) (fiducial : bool) (fiducial_factor : R) (s : NFState) : option R :=
  if negb (Nat.eqb stage 1) && fiducial then None
  else if negb (enable p) then None
  else if fiducial && negb (nf_due s t) then None
  else Some (if fiducial then fiducial_factor else phi_factor s * dphi_dt s * dt).

(** fixup_netfield.cpp:203-226: the vector potential at the corner with face coordinates x1,
    x2; it is 0 (Kokkos view initialisation) where it is not assigned *)
Definition hyperbola_potential (T : MGR) (Rh x1 x2 : R) : R :=
  let r := mgr_r T x1 in
  let th := mgr_th T x1 x2 in
  let x := r * sin th in
  let z := r * cos th in
  let a_hyp := Rh in
  let b_hyp := 3 * a_hyp in
  let x_hyp := a_hyp * sqrt (1 + (z / b_hyp) ^ 2) in
  let q := (x ^ 2 - x_hyp ^ 2) / x_hyp ^ 2 in
  if Rlt_bool x x_hyp then q else 0.

(** fixup_netfield.cpp:228-251, the loop over the interior zones; [A j i] the potential,
    [dx] the zone widths, [gd c] = DetGamma at the zone centre.  The field is the pair
    (primitive, conserved). *)
Definition curl_body (A : Z -> Z -> R) (dx : Dir -> Cell -> R) (gd : Cell -> R) (f : R) (c : Cell) (m : BField R * BField R) : BField R * BField R :=
  let '(k, j, i) := c in
  let P := fst m in
  let j1 := (j + 1)%Z in let i1 := (i + 1)%Z in
  let b0 := P 0%nat c + f * (- (A j i - A j1 i + A j i1 - A j1 i1) / (2 * dx D2 c * gd c)) in
  let b1 := P 1%nat c + f * ((A j i + A j1 i - A j i1 - A j1 i1) / (2 * dx D1 c * gd c)) in
  let P' : BField R := fun n c' => if Cell_dec c' c then (match n with O => b0 | 1%nat => b1 | _ => P n c' end) else P n c' in
  (P', fun n c' => if Cell_dec c' c then (if Nat.ltb n 3 then P' n c' * gd c else snd m n c') else snd m n c').
Definition ModifyField (A : Z -> Z -> R) (dx : Dir -> Cell -> R) (gd : Cell -> R) (o : list Cell) (amount : option R) (m : BField R * BField R) : BField R * BField R :=
  match amount with None => m | Some f => par_for o (curl_body A dx gd f) m end.

(** *** phoebus_driver.cpp:399-464: sync region 5 of one stage.

    Partition n of the mesh holds a field of type [F]; [modify n a] adds the multiple a of the unit field
    to partition n's field ([ModifyField]); [measure n] is (Mdot, Phi) summed over partition
    n.  The two sum tasks and the two reduction checks are barriers (local_sync), so before
    the end of the second check every list has done the same tasks; after it each list runs
    "remove probe; update controls; apply" with no further synchronisation. *)
Section Region.
Context {F : Type}.
Variables (ub : R -> R -> R -> R) (p : NFParams) (N : nat) (modify : nat -> R -> F -> F) (measure : nat -> F -> R * R).
Record RegionState := mkRS { controls : NFState; fields : nat -> F }.
Definition upd (f : nat -> F) (n : nat) (x : F) : nat -> F := fun m => if Nat.eqb m n then x else f m.
(** ModifyNetField on partition n *)
Definition modify_task (t dt : R) (stage : nat) (fid : bool) (ff : R) (n : nat) (r : RegionState) : RegionState :=
  match modify_amount p t dt stage fid ff (controls r) with
  | None => r
  | Some a => mkRS (controls r) (upd (fields r) n (modify n a (fields r n)))
  end.
(** the totals after the sum tasks of all partitions and the reduction: 0 if not summed
    (the driver resets the sums at the beginning of every stage, lines 409-412) *)
Definition add2 (x y : R * R) : R * R := (fst x + fst y, snd x + snd y).
Definition totals (t : R) (stage : nat) (r : RegionState) : R * R :=
  if sums_now p (controls r) t stage
  then fold_right (fun n acc => add2 (measure n (fields r n)) acc) (0, 0) (seq 0 N) else (0, 0).
(** the tail tasks of partition n, by program counter *)
Definition tail_task (t dt : R) (stage : nat) (v0 v1 : R * R) (n pc : nat) (r : RegionState) : RegionState :=
  match pc with
  | O => modify_task t dt stage true (-1) n r
  | 1%nat => mkRS (UpdateNetFieldScaleControls ub p t stage v0 v1 (controls r)) (fields r)
  | _ => modify_task t dt stage false 0 n r
  end.
(** run a schedule: the list of partitions in the order in which their next tail task runs *)
Fixpoint run_tail (t dt : R) (stage : nat) (v0 v1 : R * R) (sched : list nat) (pc : nat -> nat) (r : RegionState) : RegionState :=
  match sched with
  | [] => r
  | n :: rest => run_tail t dt stage v0 v1 rest (fun m => if Nat.eqb m n then S (pc m) else pc m) (tail_task t dt stage v0 v1 n (pc n) r)
  end.
(** the whole region; the probe is added to the partitions in any order (they are disjoint) *)
Definition region (t dt : R) (stage : nat) (sched : list nat) (r : RegionState) : RegionState :=
  let v0 := totals t stage r in
  let r1 := fold_left (fun r n => modify_task t dt stage true 1 n r) (seq 0 N) r in
  let v1 := totals t stage r1 in
  run_tail t dt stage v0 v1 sched (fun _ => O) r1.
(** reductions posted and waited for in the region (each twice: totals and totals_2); the
    posting and the waiting precede the update of the controls *)
Definition posted (t : R) (stage : nat) (s : NFState) : nat := if starts_reduce p s t stage then 2 else 0.
Definition awaited (t : R) (stage : nat) (s : NFState) : nat := if checks_reduce p s t stage then 2 else 0.

(** *** cycles: stages 1 .. nstages at the same t = tm.time and dt (lines 211-213); one
    history entry per region: stage, controls before, controls after, reductions *)
Record Entry := mkEntry { e_t : R; e_stage : nat; e_before : NFState; e_after : NFState; e_posted : nat; e_awaited : nat }.
Fixpoint stages (t dt : R) (beta : nat -> R) (sched : nat -> list nat) (todo : list nat) (r : RegionState) : list Entry * RegionState :=
  match todo with
  | [] => ([], r)
  | st :: rest =>
      let r' := region t (beta st * dt) st (sched st) r in
      let '(h, r'') := stages t dt beta sched rest r' in
      (mkEntry t st (controls r) (controls r') (posted t st (controls r)) (awaited t st (controls r)) :: h, r'')
  end.
(** cycles with steps dts from time t; the schedule may differ from region to region; other
    physics changes the fields between regions: [evolve] is arbitrary *)
Fixpoint run (nstages : nat) (beta : nat -> R) (sched : R -> nat -> list nat) (evolve : R -> nat -> F -> F) (t : R) (dts : list R) (r : RegionState) : list Entry * RegionState :=
  match dts with
  | [] => ([], r)
  | dt :: rest =>
      let '(h, r1) := stages t dt beta (sched t) (seq 1 nstages) r in
      let '(h', r2) := run nstages beta sched evolve (t + dt) rest (mkRS (controls r1) (fun n => evolve t n (fields r1 n))) in
      (h ++ h', r2)
  end.
End Region.
