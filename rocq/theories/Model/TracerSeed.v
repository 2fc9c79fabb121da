(** Seeding and removing tracer particles: src/pgen/torus.cpp:551-712,
    src/pgen/advection.cpp:110-190, src/fixup/fixup_particles.cpp:36-71.
    Over the reals; the swarm (a pool of slots, some active) is parthenon's. *)
From Coq Require Import Reals ZArith Bool List.
From Flocq Require Import Core.
From Verif.Spec Require Import Tensor.
Import ListNotations.
Local Open Scope R_scope.

(** what the two counting kernels read in one zone: x1, the BL radius, log_enthalpy(r, th),
    DetGamma and CellVolume at the centre *)
Record TZone := mkTZone { tz_x1 : R; tz_r : R; tz_lnh : R; tz_detgamma : R; tz_vol : R }.

(** torus.cpp:584-586 (and 653-655, 693-697): lnh starts at -1 *)
Definition zone_lnh (rin : R) (z : TZone) : R := if Rlt_bool rin (tz_r z) then tz_lnh z else -1.

(** torus.cpp:577-595: one par_reduce; a Kokkos::Sum reducer starts from zero and
    overwrites its target.  The order of the sum does not matter over R. *)
Definition disk_vol (rin : R) (b : list TZone) : R :=
  fold_right (fun z s => (if Rlt_bool 0 (zone_lnh rin z) then tz_detgamma z * tz_vol z else 0) + s) 0 b.
(** torus.cpp:642-665: the same, and x1 > xh *)
Definition number_block (rin xh : R) (b : list TZone) : R :=
  fold_right (fun z s => (if (Rlt_bool 0 (zone_lnh rin z) && Rlt_bool xh (tz_x1 z))%bool
                          then tz_detgamma z * tz_vol z else 0) + s) 0 b.

Definition Rsum (l : list R) : R := fold_right Rplus 0 l.

(** torus.cpp:552-599: every rank walks its own blocks; for each block the reduction
    overwrites number_mesh and the collective reduction::Sum over ranks overwrites it again.
    The argument lists, rank by rank, the disk volumes of the blocks still to do.  A rank that
    has no block left does not take part in a collective the others wait for: None. *)
Fixpoint mesh_loop (fuel : nat) (todo : list (list R)) (number_mesh : R) : option R :=
  match fuel with
  | O => Some number_mesh
  | S k =>
      if forallb (fun r => match r with [] => true | _ => false end) todo then Some number_mesh
      else if forallb (fun r => match r with [] => false | _ => true end) todo
      then mesh_loop k (map (@tl R) todo) (Rsum (map (fun r => hd 0 r) todo))
      else None
  end.
Definition MeshTracerNumber (ranks : list (list R)) : option R :=
  mesh_loop (S (fold_right (fun r m => Nat.max (length r) m) O ranks)) ranks 0.

(** C++ std::round: half away from zero *)
Definition std_round (x : R) : Z := if Rle_bool 0 x then Zfloor (x + / 2) else (- Zfloor (- x + / 2))%Z.

(** torus.cpp:667 *)
Definition num_tracers (total : Z) (nblock nmesh : R) : Z := std_round (IZR total * nblock / nmesh).

(** torus.cpp:691 and advection.cpp:182: slot n of block gid *)
Definition tracer_id (total gid n : Z) : Z := (total * gid + n)%Z.

(** torus.cpp:697-706: one draw (u, v) of the generator, each in [0, 1) *)
Definition place (x_min x_max y_min y_max u v : R) : R * R :=
  (x_min + u * (x_max - x_min), y_min + v * (y_max - y_min)).
(** torus.cpp:695-706, the rejection loop on a stream of draws; None: not accepted within fuel *)
Fixpoint sample (fuel : nat) (rin x_min x_max y_min y_max : R) (radius : R -> R) (lnh_at : R -> R -> R)
    (draws : nat -> R * R) (lnh : R) (p : R * R) : option (R * R) :=
  if Rlt_bool lnh 0 then
    match fuel with
    | O => None
    | S k =>
        let p := place x_min x_max y_min y_max (fst (draws O)) (snd (draws O)) in
        let lnh := if Rlt_bool rin (radius (fst p)) then lnh_at (fst p) (snd p) else lnh in
        sample k rin x_min x_max y_min y_max radius lnh_at (fun n => draws (S n)) lnh p
    end
  else Some p.
Definition DistributeTracer (fuel : nat) rin x_min x_max y_min y_max radius lnh_at draws : option (R * R) :=
  sample fuel rin x_min x_max y_min y_max radius lnh_at draws (-1) (0, 0).

(** a zone (k, j, i) *)
Definition zone := (nat * nat * nat)%type.
Definition zone_eq_dec : forall a b : zone, {a = b} + {a <> b}.
Proof. repeat decide equality. Defined.

(** torus.cpp:678 SortParticlesByCell, 718 GetParticleCountPerCell: the number of particles
    whose position was in the zone when the sort ran *)
Definition count_at (sorted : list zone) (c : zone) : nat := count_occ zone_eq_dec sorted c.

(** torus.cpp:669, 678, 681-707, 711-722: the particles exist, at the zones [before], when the
    sort runs; then they are placed, in the zones [after]; then each gets
    DetGamma rho vol / count *)
Definition SeedMasses (before after : list zone) (detgamma rho vol : zone -> R) : list R :=
  map (fun c => detgamma c * rho c * vol c / INR (count_at before c)) after.

(** fixup_particles.cpp:54-66.  A slot is (active, x1).  GetMaxActiveIndex is the index of the
    last active slot (the loop of monte_carlo.cpp:675-684 includes it); the kernel runs over
    n = 0 .. max_active_index - 1. *)
Definition slot := (bool * R)%type.
Fixpoint max_active (p : list slot) (n : nat) (acc : Z) : Z :=
  match p with
  | [] => acc
  | s :: q => max_active q (S n) (if fst s then Z.of_nat n else acc)
  end.
Definition GetMaxActiveIndex (p : list slot) : Z := max_active p 0 (-1).
Fixpoint purge_from (p : list slot) (n : nat) (last : Z) (xh : R) : list slot :=
  match p with
  | [] => []
  | (a, x) :: q =>
      ((if (Z.leb (Z.of_nat n) (last - 1) && a && Rle_bool x xh)%bool then false else a), x)
        :: purge_from q (S n) last xh
  end.
(** fixup_particles.cpp:36-71, geometry FMKS: xh = log(Rh) *)
Definition PurgeParticles (Rh : R) (p : list slot) : list slot :=
  purge_from p 0 (GetMaxActiveIndex p) (ln Rh).

(** advection.cpp:116-118 *)
Definition v_inner (ndim : nat) (rin : R) : R :=
  match ndim with
  | 3%nat => 4 / 3 * PI * (rin * rin * rin)
  | 2%nat => PI * rin * rin
  | _ => rin
  end.
(** advection.cpp:135-155: zones (x1, x2, x3, dx1, dx2, dx3) of a block *)
Record AZone := mkAZone { az_x : vec; az_dx : vec }.
Definition ball_volume (rin : R) (b : list AZone) : R :=
  fold_right (fun z s =>
    (if Rlt_bool (az_x z 0%nat * az_x z 0%nat + az_x z 1%nat * az_x z 1%nat + az_x z 2%nat * az_x z 2%nat) (rin * rin)
     then az_dx z 0%nat * az_dx z 1%nat * az_dx z 2%nat else 0) + s) 0 b.
(** advection.cpp:153-158: AddEmptyParticles takes an int, the Real is truncated *)
Definition adv_tracers (ndim : nat) (rin : R) (total : Z) (b : list AZone) : Z :=
  Ztrunc (ball_volume rin b / v_inner ndim rin * IZR total).
