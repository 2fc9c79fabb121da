(** Model of src/progenitor and of the zone data of src/pgen/progenitor.cpp.

    Simplifications.  Arithmetic is exact.  A line of the file is its first character and the
    numbers that operator>> extracts from it before the first failure.  A file is its list of
    lines (the file exists; std::getline after the last newline yields one empty line).
    [None] stands for an access outside an array or vector. *)
From Coq Require Import Reals ZArith List Ascii Bool.
From Flocq Require Import Core.
From Verif.Model Require Import Num Geometry Modified Relativity MonopoleGR DataBox.
From Verif.Spec Require Import Tensor.
Import ListNotations.
Local Open Scope R_scope.

Record Line := { first : option ascii; numbers : list R }.
Definition Columns := nat -> list R.
Definition push (m : Columns) (c : nat) (x : R) : Columns := fun k => if Nat.eqb k c then m k ++ [x] else m k.

(** ascii_reader.cpp:24-29; mydata is an array of 11 vectors *)
Fixpoint read_row (m : Columns) (col : nat) (row : list R) : option Columns :=
  match row with
  | [] => Some m
  | x :: row => if Nat.ltb col 11 then read_row (push m col x) (S col) row else None
  end.
(** ascii_reader.cpp:19-30 *)
Fixpoint read_lines (m : Columns) (f : list Line) : option Columns :=
  match f with
  | [] => Some m
  | l :: f =>
      if match first l with Some c => Ascii.eqb c "#"%char | None => false end then read_lines m f
      else match read_row m 0 (numbers l) with Some m => read_lines m f | None => None end
  end.
(** ascii_reader.cpp:11-31 *)
Definition readtable (f : list Line) : option Columns := read_lines (fun _ => []) f.

(** ascii_reader.cpp:33-42.  fuel is a bound for the unsigned comparison i <= size - 1, which
    for an empty table is i <= 2^64 - 1 *)
Fixpoint mass_loop (rho rad : list R) (k i : nat) (mass : R) : option R :=
  match k with
  | O => Some mass
  | S k =>
      match nth_error rho (i + 1), nth_error rad (i + 1), nth_error rho i, nth_error rad i with
      | Some rho1, Some rad1, Some rho0, Some rad0 =>
          mass_loop rho rad k (i + 1) (mass + 4 * (314 / 100) * (rho1 * rad1 ^ 2 + rho0 * rad0 ^ 2) / 2 * (rad1 - rad0))
      | _, _, _, _ => None
      end
  end.
Definition calculatemass (m : Columns) : option R := mass_loop (m 1%nat) (m 0%nat) (length (m 0%nat)) 0 0.

(** progenitordata.cpp:45-66: entry i of the table of column c (npoints = size of column 0) *)
Definition column_table (m : Columns) (c : nat) : option (nat -> R) :=
  let npoints := length (m 0%nat) in
  if Nat.leb npoints (length (m c)) then Some (fun i => nth i (m c) 0) else None.
(** progenitordata.cpp:69-80: the grid laid over every table *)
Definition profile_grid (m : Columns) : Grid :=
  let npoints := length (m 0%nat) in
  let r i := nth i (m 0%nat) 0 in
  setRange (r 0%nat) (r (npoints - 1)%nat) npoints.
(** what a zone or a grid point at radius r gets for column c *)
Definition profile (m : Columns) (c : nat) (r : R) : option R :=
  match column_table m c with Some d => Some (interpToReal (profile_grid m) d r) | None => None end.

(** progenitor.cpp:110-123: radius of a zone *)
Definition zone_radius (cart : bool) (x1 x2 x3 : R) : R :=
  if cart then sqrt (x1 * x1 + x2 * x2 + x3 * x3) else Rabs x1.
(** progenitor.cpp:136-146, 151-163: velocity primitives; gamma is the spatial metric *)
Definition zone_velocity (cart : bool) (gamma : mat) (vr x1 x2 x3 : R) : vec :=
  let v_in : vec := row3 vr 0 0 in
  let v_out : vec := if cart then fun i => sum3 (fun j => tr_Jcon SphericalToCartesian x1 x2 x3 i j * v_in j) else row3 (v_in 0%nat) 0 0 in
  let Gamma := GetLorentzFactor v_out gamma in
  fun d => v_out d * Gamma.
(** progenitor.cpp:125-150: density, pressure, electron fraction and velocity of a zone *)
Record Zone := { z_rho : R; z_P : R; z_ye : R; z_v : vec }.
Definition zone (cart : bool) (m : Columns) (gamma : mat) (x1 x2 x3 : R) : option Zone :=
  let r := zone_radius cart x1 x2 x3 in
  match profile m 1 r, profile m 6 r, profile m 3 r, profile m 5 r with
  | Some rho, Some P, Some ye, Some vr => Some {| z_rho := rho; z_P := P; z_ye := ye; z_v := zone_velocity cart gamma vr x1 x2 x3 |}
  | _, _, _, _ => None
  end.
(** progenitor.cpp:90-95: the sources of the metric at a grid point of radius r *)
Definition monopole_source (m : Columns) (r : R) : option (R * R * R * R) :=
  match profile m 7 r, profile m 8 r, profile m 9 r, profile m 10 r with
  | Some rho, Some j, Some s, Some srr => Some (rho, j, s, srr)
  | _, _, _, _ => None
  end.
