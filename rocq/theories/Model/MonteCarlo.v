(** Monte Carlo radiation: emission, absorption and tuning, src/radiation/monte_carlo.cpp,
    over the reals.  Zones of a block are numbered; random numbers are drawn from a stream
    [rng : nat -> R] at a position that advances with each drand().  A packet is (t,x,y,z),
    (k_0..k_3), weight and species.  Not modelled: memory of the swarm (slots are numbers),
    particle communication, MPI. *)
From Coq Require Import Reals ZArith List Bool.
From Flocq Require Import Core.
From Verif.Model Require Import Num Robust Geometry Tetrads Geodesics Prim2Con RadSource.
From Verif.Spec Require Import Tensor.
Import ListNotations.
Local Open Scope R_scope.

Record Packet := mkPacket { pk_X : vec; pk_K : vec; pk_w : R; pk_s : Z }.

(** monte_carlo.cpp:28-29 *)
Definition GetWeight (wgtC nu : R) : R := wgtC / nu.
(** radiation.hpp:66-70; electron neutrinos 0, antineutrinos 1, heavy 2 *)
Definition LeptonSign (s : Z) : R := if (Z.abs s <? 2)%Z then IZR (-2 * s + 1) else 0.

(** radiation.cpp:94 and 321-325: the frequency grid *)
Definition dlnu_of (nu_min nu_max : R) (nu_bins : nat) : R := (ln nu_max - ln nu_min) / INR nu_bins.
Definition nusamp (nu_min nu_max : R) (nu_bins n : nat) : R := exp (ln nu_min + INR n * dlnu_of nu_min nu_max nu_bins).

Section Emission.
Variables (h wgtC nu_min nu_max : R) (nu_bins : nat) (d3x detG dt : R) (Jnu : R -> R).
Let nu (n : nat) : R := nusamp nu_min nu_max nu_bins n.
Let dlnu : R := dlnu_of nu_min nu_max nu_bins.

(** monte_carlo.cpp:185-203, the loop over n = 0 .. nu_bins *)
Fixpoint dN_loop (k : nat) : R := match k with O => 0 | S n => dN_loop n + Jnu (nu n) / (h * nu n * GetWeight wgtC (nu n)) * (nu n * dlnu) end.
Definition dNdlnu (n : nat) : R := Jnu (nu n) * d3x * detG / (h * GetWeight wgtC (nu n)).
Fixpoint max_loop (k : nat) : R := match k with O => 0 | S n => let m := max_loop n in if Rlt_bool m (dNdlnu n) then dNdlnu n else m end.
Definition dNdlnu_max : R := max_loop (S nu_bins).
(** 205-207 *)
Definition table (n : nat) : R := dNdlnu n / dNdlnu_max.
(** 209-216, trapezoidal correction *)
Definition dN : R :=
  (dN_loop (S nu_bins) - / 2 * Jnu (nu 0) / (h * GetWeight wgtC (nu 0)) * dlnu - / 2 * Jnu (nu nu_bins) / (h * GetWeight wgtC (nu nu_bins)) * dlnu)
  * (d3x * detG * dt).

(** 220-223 and 252-256: number of packets for expected number dN and random number r *)
Definition packets (dN r : R) : Z := let Ns := Ztrunc dN in if Rlt_bool r (dN - IZR Ns) then (Ns + 1)%Z else Ns.

(** 351-353: linear interpolation of the table *)
Definition prob (lnu : R) : R :=
  let dn := (lnu - ln nu_min) / dlnu in let n := Z.to_nat (Ztrunc dn) in let dn := dn - IZR (Ztrunc dn) in
  (1 - dn) * table n + dn * table (n + 1).
(** 341-354: rejection sampling; None is the PARTHENON_REQUIRE on counter *)
Fixpoint sample_lnu (tries : nat) (rng : nat -> R) (p : nat) : option (R * nat) :=
  match tries with
  | O => None
  | S t => let lnu := rng p * (ln nu_max - ln nu_min) + ln nu_min in
           if Rlt_bool (prob lnu) (rng (S p)) then sample_lnu t rng (S (S p)) else Some (lnu, S (S p))
  end.
Definition max_tries : nat := 99999.
End Emission.

(** 360-367: direction and momentum of a packet of energy E in the frame of the fluid *)
Definition K_tetrad (E r1 r2 : R) : vec :=
  let theta := acos (2 * r1 - 1) in let phi := 2 * PI * r2 in
  row4 (- E) (E * cos theta) (E * cos phi * sin theta) (E * sin phi * sin theta).

(** what one zone needs: metric, four-velocity, centre *)
Record EmZone := mkEmZone { ez_gcov : mat; ez_U : vec; ez_x : vec }.
(** 327-334, 356-373: one packet; x is the zone centre *)
Definition emit_packet (h wgtC wgtCfac t0 : R) (z : EmZone) (s : Z) (lnu r1 r2 : R) : Packet :=
  let nu := exp lnu in
  mkPacket (fun m => match m with O => t0 | S i => ez_x z i end)
    (TetradToCoordCov (ez_U z) default_trial (ez_gcov z) (K_tetrad (nu * h) r1 r2))
    (GetWeight (wgtC / wgtCfac) nu) s.
(** 324-381: the packets of one zone and species, in order *)
Fixpoint emit_zone (h wgtC wgtCfac t0 nu_min nu_max : R) (nu_bins : nat) (d3x detG : R) (Jnu : R -> R) (z : EmZone) (s : Z) (n : nat) (rng : nat -> R) (p : nat)
  : option (list Packet * nat) :=
  match n with
  | O => Some (nil, p)
  | S n => match sample_lnu h wgtC nu_min nu_max nu_bins d3x detG Jnu max_tries rng p with
           | None => None
           | Some (lnu, p) =>
               match emit_zone h wgtC wgtCfac t0 nu_min nu_max nu_bins d3x detG Jnu z s n rng (S (S p)) with
               | None => None
               | Some (l, q) => Some (emit_packet h wgtC wgtCfac t0 z s lnu (rng p) (rng (S p)) :: l, q)
               end
           end
  end.

(** 286-300: starting indices, species outermost, zones in order; [counts] lists Ns *)
Fixpoint starting_index (index : nat) (counts : list nat) : list nat :=
  match counts with nil => nil | c :: r => index :: starting_index (index + c) r end.

(** *** the five-force of a block: G_mu and G_ye of every zone *)
Definition Force := nat -> vec * R.
Definition zero_force : Force := fun _ => (fun _ => 0, 0).
Definition add_force (F : Force) (z : nat) (g : vec) (y : R) : Force :=
  fun c => if Nat.eqb c z then (fun mu => fst (F c) mu + g mu, snd (F c) + y) else F c.
(** 375-381: emission of packet q in zone z, u0 = Ucon[0] of the fluid there *)
Definition emission_force (d3x dt mp : R) (u0 : nat -> R) (F : Force) (z : nat) (q : Packet) : Force :=
  add_force F z (fun mu => - (1 / (d3x * dt) * pk_w q * pk_K q mu)) (- (LeptonSign (pk_s q) / (d3x * dt) * u0 z * pk_w q * mp)).
(** 484-490: absorption of packet q in zone z, d4x = d3x * dt *)
Definition absorption_force (d4x mp : R) (u0 : nat -> R) (F : Force) (z : nat) (q : Packet) : Force :=
  add_force F z (fun mu => 1 / d4x * pk_w q * pk_K q mu) (LeptonSign (pk_s q) / d4x * pk_w q * mp * u0 z).
(** 474-483: absorption test; -log(0) is infinite and never absorbs *)
Definition absorbed (absorption : bool) (r dtau : R) : bool :=
  absorption && negb (Req_bool r 0) && Rle_bool (- ln r) dtau.
(** 448-470: frequency and optical depth of the step; alpha_nu the absorption coefficient of
    the zone at a frequency *)
Definition packet_nu (h : R) (q : Packet) : R := - pk_K q 0%nat / h.
Definition dtau_abs (h dt : R) (alpha_nu : R -> R) (q : Packet) : R := alpha_nu (packet_nu h q) * dt.
(** 433-502, one packet: Some = still in flight *)
Definition transport_packet (flat : bool) (geom : System) (dt : R) (hit : bool) (q : Packet) : option Packet :=
  if hit then None else let '(X, K) := PushParticle flat geom dt (pk_X q, pk_K q) in Some (mkPacket X K (pk_w q) (pk_s q)).

(** one step of a block: [em] lists the packets emitted with their zones, in the order of the
    deposits; [order] is the order in which the packets of the swarm are handled by the
    parallel loop, each with its zone and absorption decision *)
Definition emit_all (d3x dt mp : R) (u0 : nat -> R) (em : list (nat * Packet)) : Force :=
  fold_left (fun F e => emission_force d3x dt mp u0 F (fst e) (snd e)) em zero_force.
Definition transport_force (d4x mp : R) (u0 : nat -> R) (order : list (nat * bool * Packet)) (F : Force) : Force :=
  fold_left (fun F e => let '(z, hit, q) := e in if (hit : bool) then absorption_force d4x mp u0 F z q else F) order F.
Definition survivors (flat : bool) (geom : System) (dt : R) (order : list (nat * bool * Packet)) : list Packet :=
  flat_map (fun e => match transport_packet flat geom dt (snd (fst e)) (snd e) with Some q => [q] | None => nil end) order.
(** radiation.cpp:571-581 in every zone *)
Definition apply_force (hasye : bool) (dt : R) (F : Force) (c : nat -> Cons) : nat -> Cons :=
  fun z => ApplyRadiationFourForce hasye dt (fst (F z)) (snd (F z)) (c z).

(** *** tuning, monte_carlo.cpp:576-655 (tuning = dynamic_difference; L = 1) *)
Record Tuning := mkTuning { t_em : R; tune_em : R; num_em : R; num_abs : R; t_sc : R; tune_sc : R; num_sc : R }.
Section Tune.
Context {T : Type} {N : Num T}.
Local Open Scope num_scope.
(** 606-617; make_bounded is robust.hpp:27-30 *)
Definition emission_correction (dt_tune np emitted absorbd : T) : T :=
  let real := emitted - absorbd in let ideal := dt_tune * np / nlit 1 1 in
  let correction := if real <? nlit 0 1 then nlit 4 3 else ideal / real in
  make_bounded correction (nlit 3 4) (nlit 4 3).
(** 637-645; the value of make_bounded is discarded *)
Definition scattering_correction (dt_tune np scattered : T) : T :=
  let ideal := dt_tune * np in ideal / scattered.
End Tune.
(** one call; t1 = t0 + dt *)
Definition UpdateTuning (dt_em dt_sc np t1 : R) (s : Tuning) : Tuning :=
  let s := if Rlt_bool (t_em s) t1 then
      mkTuning (t_em s + dt_em) (emission_correction dt_em np (num_em s) (num_abs s) * tune_em s) 0 0 (t_sc s) (tune_sc s) (num_sc s) else s in
  if Rlt_bool (t_sc s) t1 then
      mkTuning (t_em s) (tune_em s) (num_em s) (num_abs s) (t_sc s + dt_sc) (scattering_correction dt_sc np (num_sc s) * tune_sc s) 0 else s.
(** 88-101 SetWeight; L3 is sim_vol to the power 1/3 *)
Definition SetWeight (Jtot h L3 tune nu_min : R) : R := Jtot / (h * (tune / (L3 * 1))) * nu_min.
(** dNtot of 229-240 over the zones (d3x, detG, Jnu) of the mesh *)
Definition dNtot (h wgtC nu_min nu_max : R) (nu_bins : nat) (dt : R) (zones : list (R * R * (R -> R))) : R :=
  fold_right (fun z acc => let '(d3x, detG, Jnu) := z in dN h wgtC nu_min nu_max nu_bins d3x detG dt Jnu + acc) 0 zones.
(** one tuning interval of length dt in a steady state without absorption: the mean number of
    packets emitted (wgtCfac * dNtot, 242 and 252), the new tune_emission (606-623) and the new
    wgtC (641) *)
Definition mean_emitted (h nu_min nu_max : R) (nu_bins : nat) (dt : R) (zones : list (R * R * (R -> R))) (s : R * R) : R :=
  fst s * dNtot h (snd s) nu_min nu_max nu_bins dt zones.
Definition tuning_interval (Jtot h L3 np nu_min nu_max : R) (nu_bins : nat) (dt : R) (zones : list (R * R * (R -> R))) (s : R * R) : R * R :=
  let tune := emission_correction dt np (mean_emitted h nu_min nu_max nu_bins dt zones s) 0 * fst s in
  (tune, SetWeight Jtot h L3 tune nu_min).
Fixpoint tuning_history (Jtot h L3 np nu_min nu_max : R) (nu_bins : nat) (dt : R) (zones : list (R * R * (R -> R))) (n : nat) (s : R * R) : R * R :=
  match n with O => s | S n => tuning_interval Jtot h L3 np nu_min nu_max nu_bins dt zones (tuning_history Jtot h L3 np nu_min nu_max nu_bins dt zones n s) end.

(** one radiation step of a block, in the order of phoebus_driver.cpp: packets are created
    (zones and packets in [em]), all packets of the swarm are transported, the five-force is
    applied *)
Definition mc_step (hasye flat : bool) (geom : System) (d3x dt mp : R) (u0 : nat -> R) (em : list (nat * Packet)) (order : list (nat * bool * Packet)) (c : nat -> Cons)
  : (nat -> Cons) * list Packet :=
  (apply_force hasye dt (transport_force (d3x * dt) mp u0 order (emit_all d3x dt mp u0 em)) c, survivors flat geom dt order).
