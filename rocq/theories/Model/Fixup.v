(** src/fixup/fixup_c2p.cpp, fixup_src.cpp, fixup_radc2p.cpp: the repair kernels.

    Each is a par_for over the interior zones: one thread per zone, the zones of a block
    being visited concurrently.  A thread of a failed zone reads neighbours (which another
    thread may be changing) and writes its own zone.  The model interleaves the memory
    accesses of all threads in an arbitrary order (sequential consistency; that C++ calls
    the concurrent accesses a data race is not modelled). *)
From Coq Require Import ZArith Reals List Bool.
From Flocq Require Import Core.
From Verif.Model Require Import Num Robust Geometry Relativity Prim2Con Con2PrimRobust ApplyFloors.
From Verif.Spec Require Import Tensor.
Import ListNotations.

(** a zone: block, k, j, i *)
Definition Zone : Type := (Z * Z * Z * Z)%type.
Definition Zone_dec (x y : Zone) : {x = y} + {x <> y}.
Proof. repeat decide equality. Defined.
(** the variables of the pack (fixup_c2p.cpp:62-83); s is the neutrino species *)
Inductive FVar := Vrho | Vvel (i : nat) | Veng | VB (i : nat) | Vye | Vtmp | Vprs | Vgm1
  | VcD | VcS (i : nat) | Vctau | Vcye | Vsig (i : nat)
  | VJ (s : nat) | VH (s i : nat) | VE (s : nat) | VF (s i : nat).
Definition FVar_dec (x y : FVar) : {x = y} + {x <> y}.
Proof. repeat decide equality. Defined.

(** ** the machine *)
Section Machine.
Context {T : Type} `{Num T}.
Definition Row : Type := FVar -> T.
Definition Mem : Type := Zone -> Row.
Definition set_var (r : Row) (v : FVar) (x : T) : Row := fun w => if FVar_dec w v then x else r w.
Definition set_row (m : Mem) (c : Zone) (r : Row) : Mem := fun d => if Zone_dec d c then r else m d.

(** LoadMul c v: read variable v of zone c and push flag(c) * v on the thread's registers;
    Local f: change the own zone and the registers *)
Inductive instr := LoadMul (c : Zone) (v : FVar) | Local (f : Row -> list T -> Row * list T).
Definition Thread : Type := (list instr * list T)%type.
Definition State : Type := (Mem * (Zone -> Thread))%type.
Definition set_thread (th : Zone -> Thread) (c : Zone) (t : Thread) : Zone -> Thread :=
  fun d => if Zone_dec d c then t else th d.
(** [flag]: the failure flags, 1 success, 0 fail; no kernel changes them *)
Variable flag : Zone -> T.
(** thread c executes its next instruction *)
Definition step (c : Zone) (s : State) : State :=
  let '(m, th) := s in
  match th c with
  | (LoadMul d v :: rest, regs) => (m, set_thread th c (rest, regs ++ [nmul (flag d) (m d v)]))
  | (Local f :: rest, regs) => let '(r, regs') := f (m c) regs in (set_row m c r, set_thread th c (rest, regs'))
  | (nil, _) => s
  end.
(** a schedule names the thread that moves next *)
Definition run (sched : list Zone) (s : State) : State := fold_left (fun s c => step c s) sched s.
Definition init (active : Zone -> bool) (prog : Zone -> list instr) (m : Mem) : State :=
  (m, fun c => if active c then (prog c, nil) else (nil, nil)).
End Machine.
Arguments Row T : clear implicits.
Arguments Mem T : clear implicits.
Arguments instr T : clear implicits.
Arguments State T : clear implicits.

(** ** the kernels *)
Section Kernels.
Context {T : Type} `{Num T}.
Local Open Scope num_scope.
Definition im (c : Zone) : Zone := let '(b, k, j, i) := c in (b, k, j, i - 1)%Z.
Definition ip (c : Zone) : Zone := let '(b, k, j, i) := c in (b, k, j, i + 1)%Z.
Definition jm (c : Zone) : Zone := let '(b, k, j, i) := c in (b, k, j - 1, i)%Z.
Definition jp (c : Zone) : Zone := let '(b, k, j, i) := c in (b, k, j + 1, i)%Z.
Definition km (c : Zone) : Zone := let '(b, k, j, i) := c in (b, k - 1, j, i)%Z.
Definition kp (c : Zone) : Zone := let '(b, k, j, i) := c in (b, k + 1, j, i)%Z.

Variables (ndim : nat) (flag : Zone -> T) (interpolate : bool).
Definition reg (l : list T) (n : nat) : T := nth n l (nlit 0 1).
(** statements on the own zone *)
Definition own (f : Row T -> Row T) : instr T := Local (fun r _ => (f r, nil)).
Definition assign (v : FVar) (f : Row T -> list T -> T) : instr T := Local (fun r l => (set_var r v (f r l), nil)).

(** fixup_c2p.cpp:202-214, fixup_src.cpp:164-176, fixup_radc2p.cpp:138-150 (fixup), with
    the assignment of its result (e.g. fixup_c2p.cpp:229) *)
Definition fixup_var (c : Zone) (norm : T) (v : FVar) : list (instr T) :=
  [LoadMul (im c) v; LoadMul (ip c) v; assign v (fun _ l => reg l 0 + reg l 1)] ++
  (if (1 <? ndim)%nat then
     [LoadMul (jm c) v; LoadMul (jp c) v; assign v (fun r l => r v + (reg l 0 + reg l 1))] ++
     (if (ndim =? 3)%nat then
        [LoadMul (km c) v; LoadMul (kp c) v; assign v (fun r l => r v + (reg l 0 + reg l 1))] else nil)
   else nil) ++
  [assign v (fun r _ => norm * r v)].
(** fixup_c2p.cpp:218-221, fixup_src.cpp:179-181, fixup_radc2p.cpp:163-167 *)
Definition num_valid (c : Zone) : T :=
  let n := flag (im c) + flag (ip c) in
  let n := if (1 <? ndim)%nat then n + (flag (jm c) + flag (jp c)) else n in
  if (ndim =? 3)%nat then n + (flag (km c) + flag (kp c)) else n.
(** the common shape: interpolate each group of variables, running a local computation
    after each group, or fall back; then the local tail *)
Definition kernel (groups : list (list FVar * (Row T -> Row T))) (fallback tail : Zone -> Row T -> Row T) (c : Zone) : list (instr T) :=
  (if (num_valid c >? nlit 1 2) && interpolate then
     let norm := nlit 1 1 / num_valid c in
     flat_map (fun g => flat_map (fixup_var c norm) (fst g) ++ [own (snd g)]) groups
   else [own (fallback c)]) ++ [own (tail c)].
(** the test of the own flag, fixup_c2p.cpp:217, fixup_src.cpp:178, fixup_radc2p.cpp:152,
    for the zones of the loop *)
Definition failed (dom : Zone -> bool) (c : Zone) : bool := dom c && (flag c =? nlit 0 1).

(** *** fluid, fixup_c2p.cpp:217-255 *)
Variables (hasye : bool) (nspec : nat).
Definition fluid_vars : list FVar :=
  [Vrho; Vvel 0; Vvel 1; Vvel 2; Veng] ++ (if hasye then [Vye] else nil).
(** lines 237-240 *)
Definition fluid_max (r : Row T) : Row T :=
  let r := set_var r Vrho (std_max (r Vrho) (nlit 100 1 * SMALL)) in
  set_var r Veng (std_max (r Veng) (nlit 100 1 * SMALL)).
(** lines 241-255 *)
Definition fluid_fallback (r : Row T) : Row T :=
  let r := set_var (set_var r Vrho (nlit 100 1 * SMALL)) Veng (nlit 100 1 * SMALL) in
  let r := if hasye then set_var r Vye (nlit 1 2) else r in
  set_var (set_var (set_var r (Vvel 0) (nlit 0 1)) (Vvel 1) (nlit 0 1)) (Vvel 2) (nlit 0 1).
Definition fluid_kernel (tail : Zone -> Row T -> Row T) : Zone -> list (instr T) :=
  kernel [(fluid_vars, fluid_max)] (fun _ => fluid_fallback) tail.

(** *** radiation, fixup_radc2p.cpp:152-187 *)
Definition rad_vars : list FVar := flat_map (fun s => [VJ s; VH s 0; VH s 1; VH s 2]) (seq 0 nspec).
Definition rad_fallback_s (r : Row T) (s : nat) : Row T :=
  set_var (set_var (set_var (set_var r (VJ s) (nlit 10 1 * SMALL)) (VH s 0) (nlit 0 1)) (VH s 1) (nlit 0 1)) (VH s 2) (nlit 0 1).
Definition rad_fallback (r : Row T) : Row T := fold_left rad_fallback_s (seq 0 nspec) r.
Definition rad_kernel (tail : Zone -> Row T -> Row T) : Zone -> list (instr T) :=
  kernel [(rad_vars, fun r => r)] (fun _ => rad_fallback) tail.

(** *** coupled source, fixup_src.cpp:178-239; [eos_update]: lines 192-201 and 223-232 *)
Definition src_fluid_vars : list FVar := [Vrho; Veng; Vvel 0; Vvel 1; Vvel 2] ++ (if hasye then [Vye] else nil).
Definition src_fallback (eos_update : Row T -> Row T) (r : Row T) : Row T :=
  let r := set_var (set_var r Vrho (nlit 10 1 * SMALL)) Veng (nlit 10 1 * SMALL) in
  let r := set_var (set_var (set_var r (Vvel 0) (nlit 0 1)) (Vvel 1) (nlit 0 1)) (Vvel 2) (nlit 0 1) in
  let r := if hasye then set_var r Vye (nlit 1 2) else r in
  rad_fallback (eos_update r).
Definition src_kernel (eos_update : Row T -> Row T) (tail : Zone -> Row T -> Row T) : Zone -> list (instr T) :=
  kernel [(src_fluid_vars, eos_update); (rad_vars, fun r => r)] (fun _ => src_fallback eos_update) tail.
(** fixup_src.cpp:135-146: before the kernel, the zones outside the interior are marked failed *)
Definition src_flags (interior : Zone -> bool) : Zone -> T := fun c => if interior c then flag c else nlit 0 1.
End Kernels.

(** *** the rest of the fluid kernel over R, fixup_c2p.cpp:257-315: clamp, dependent
    primitives, conserved variables.  [geom c]: lapse, sqrt(gamma), shift, g_{mu nu} and
    gamma^{ij} of the zone (read from block 0, index b missing).  This tail is
    the one without radiation; with radiation see Model/FixupRad.v (317-350). *)
Section FluidTail.
Local Open Scope R_scope.
Variables (valencia mhd hasye : bool) (eos : EOS) (gamma_max : R) (geom : Zone -> CellGeom).
Definition fluid_tail (c : Zone) (r : Row R) : Row R :=
  let g := geom c in
  let vpcon : vec := fst (clamp_velocity gamma_max (c_gcov4 g) (fun i => r (Vvel i))) in
  let lam := if hasye then r Vye else / 2 in
  let tmp := eos_T eos (r Vrho) (gratio (r Veng) (r Vrho)) lam in
  let prs := eos_PT eos (r Vrho) tmp lam in
  let gm1 := gratio (eos_BT eos (r Vrho) tmp lam) prs in
  let bp : vec := fun i => if mhd then r (VB i) else 0 in
  let ye := if hasye then r Vye else / 2 in
  let n := p2c valencia (r Vrho) vpcon bp (r Veng) ye prs gm1 (c_gcov4 g) (c_gcon g) (c_beta g) (c_lapse g) (c_gdet g) in
  fun v => match v with
  | Vvel i => vpcon i
  | Vtmp => tmp | Vprs => prs | Vgm1 => gm1
  | VcD => cD n | VcS i => cS n i
  | Vctau => ctau n | Vcye => if hasye then cye n else r Vcye
  | Vsig i => csig n i
  | _ => r v end.
End FluidTail.
