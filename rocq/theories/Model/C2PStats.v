(** src/fluid/con2prim_statistics.hpp, con2prim_statistics.cpp, and their two uses:
    con2prim_robust.hpp:377-379 and main.cpp:81-83. *)
From Coq Require Import ZArith List Bool.
From Verif.Model Require Import RootFind.
Import ListNotations.
Local Open Scope Z_scope.

Definition INT_MAX : Z := 2147483647.

(** con2prim_statistics.hpp:24-25: std::map<int, int> and int *)
Record Stats := mkStats { hist : Z -> option Z; max_val : Z }.
(** con2prim_statistics.cpp:18-19 *)
Definition fresh : Stats := mkStats (fun _ => None) (-1).
Definition put (h : Z -> option Z) (k v : Z) : Z -> option Z := fun i => if Z.eqb i k then Some v else h i.

(** con2prim_statistics.hpp:26-33.  None: hist[val]++ overflows an int, undefined *)
Definition add (s : Stats) (val : Z) : option Stats :=
  let m := if val >? max_val s then val else max_val s in
  match hist s val with
  | None => Some (mkStats (put (hist s) val 1) m)
  | Some n => if n <? INT_MAX then Some (mkStats (put (hist s) val (n + 1)) m) else None
  end.

(** con2prim_statistics.hpp:34-41: the lines "i cnt" *)
Definition report (s : Stats) : list (Z * Z) :=
  map (fun k => let i := Z.of_nat k in (i, match hist s i with Some c => c | None => 0 end))
      (seq 0 (Z.to_nat (max_val s + 1))).

Fixpoint add_all (s : Stats) (vals : list Z) : option Stats :=
  match vals with
  | [] => Some s
  | v :: q => match add s v with Some s' => add_all s' q | None => None end
  end.

(** con2prim_robust.hpp:374-378: one inversion; the counter of its own solver object is added.
    A call that aborts adds nothing *)
Definition inversion_adds {T} (o : outcome T) : list Z :=
  match o with Returned _ _ rf _ => [iteration_count rf] | _ => [] end.

(** *** threads: the map is shared and add is called inside a kernel (con2prim_robust.hpp runs in
    the par_for of fluid.cpp:ConservedToPrimitiveRobust) without a lock.  One call as two steps: what
    hist holds for val is read, then the new count is written. *)
Record Thread := mkThread { th_val : Z; th_read : option (option Z); th_done : bool }.
Definition th_step (h : Z -> option Z) (t : Thread) : (Z -> option Z) * Thread :=
  if th_done t then (h, t)
  else match th_read t with
       | None => (h, mkThread (th_val t) (Some (h (th_val t))) false)
       | Some r => (put h (th_val t) (match r with None => 1 | Some n => n + 1 end), mkThread (th_val t) (th_read t) true)
       end.
Definition new_thread (v : Z) : Thread := mkThread v None false.
(** a schedule names the thread that moves next *)
Fixpoint run (sched : list bool) (h : Z -> option Z) (a b : Thread) : (Z -> option Z) * Thread * Thread :=
  match sched with
  | [] => (h, a, b)
  | true :: q => let '(h', a') := th_step h a in run q h' a' b
  | false :: q => let '(h', b') := th_step h b in run q h' a b'
  end.

(** *** ranks: every rank opens c2p_stats.txt with mode "w" (main.cpp:82,
    con2prim_statistics.hpp:35), which empties it; the file holds what was written last *)
Definition report_all (file : list (Z * Z)) (ranks : list Stats) : list (Z * Z) :=
  fold_left (fun _ s => report s) ranks file.
