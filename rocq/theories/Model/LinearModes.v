(** src/pgen/linear_modes.cpp: sound, slow, Alfven, fast and entropy waves.

    Simplifications.  Arithmetic is exact; decimal literals are rationals.  All frequencies
    are imaginary and all amplitudes real, so the complex numbers are their imaginary and
    real parts.  Temperature, Gamma_1 and Ye are left out.  The pack holds all three
    components of the velocity and, with [mhd], of the field. *)
From Coq Require Import Reals ZArith.
From Verif.Model Require Import Geometry Relativity.
From Verif.Spec Require Import Tensor.
Local Open Scope R_scope.

(** linear_modes.cpp:88-96 *)
Record Mode := mkMode { m_omega : R; m_drho : R; m_dug : R; m_du : vec; m_dB : vec; m_B10 : R }.
Definition dec (n : Z) (d : nat) : R := IZR n / 10 ^ d.
(** linear_modes.cpp:99-104 *)
Definition entropy_mode : Mode := mkMode (2 * PI / 10) 1 0 (row3 0 0 0) (row3 0 0 0) 0.
(** linear_modes.cpp:106-110 *)
Definition sound_1d : Mode :=
  mkMode (dec 27422068833892093 16) (dec 5804294924639215 16) (dec 7739059899518946 16)
    (row3 (dec (-2533201985524494) 16) 0 0) (row3 0 0 0) 0.
(** linear_modes.cpp:111-116 *)
Definition sound_2d : Mode :=
  mkMode (dec 38780661653218766 16) (dec 5804294924639213 16) (dec 7739059899518947 16)
    (row3 (dec 1791244302079596 16) (dec 1791244302079596 16) 0) (row3 0 0 0) 0.
(** linear_modes.cpp:126-134 *)
Definition slow_mode : Mode :=
  mkMode (dec 241024185339 11) (dec 558104461559 12) (dec 744139282078 12)
    (row3 (dec (-277124827421) 12) (dec 63034892770 12) 0) (row3 (dec (-164323721928) 12) (dec 164323721928 12) 0) 1.
(** linear_modes.cpp:126, 135-138 *)
Definition alfven_mode : Mode :=
  mkMode (dec 344144232573 11) 0 0 (row3 0 0 (dec 480384461415 12)) (row3 0 0 (dec 877058019307 12)) 1.
(** linear_modes.cpp:126, 139-146 *)
Definition fast_mode : Mode :=
  mkMode (dec 553726217331 11) (dec 476395427447 12) (dec 635193903263 12)
    (row3 (dec (-102965815319) 12) (dec (-316873207561) 12) 0) (row3 (dec 359559114174 12) (dec (-359559114174) 12) 0) 1.

(** which of the four geometries the code was built with, with the parameters it reads
    (linear_modes.cpp:169-189) *)
Inductive Chart := ch_minkowski | ch_boosted (vx vy vz : R) | ch_snake (a k alpha vy : R) | ch_inchworm (a k : R).
(** linear_modes.cpp:84-86 *)
Definition kk : R := 2 * PI.
(** linear_modes.cpp:160, 183, 192: one period of the mode in coordinate time *)
Definition lm_tlim (ch : Chart) (m : Mode) : R :=
  let tf := 2 * PI / m_omega m in match ch with ch_snake _ _ alpha _ => tf / alpha | _ => tf end.
(** linear_modes.cpp:201-209: the point of Minkowski space *)
Definition lm_x (ch : Chart) (x : R) : R := match ch with ch_inchworm a k => x - a * sin (k * x) | _ => x end.
Definition lm_y (ch : Chart) (x y : R) : R := match ch with ch_snake a k _ _ => y - a * sin (k * x) | _ => y end.

(** primitives of a zone: density, energy, pressure, W v^i, B^i *)
Record LmPrims := mkLm { l_rho : R; l_u : R; l_P : R; l_vp : vec; l_B : vec }.
(** linear_modes.cpp:211-256, before the change of coordinates *)
Definition lm_flat (gam amp : R) (md : Mode) (x y : R) : LmPrims :=
  let mode := amp * cos (kk * x + kk * y) in
  let ug := 1 + m_dug md * mode in
  mkLm (1 + m_drho md * mode) ug ((gam - 1) * ug)
       (fun i => 0 + m_du md i * mode)
       (row3 (m_B10 md + m_dB md 0%nat * mode) (0 + m_dB md 1%nat * mode) (0 + m_dB md 2%nat * mode)).

(** linear_modes.cpp:265-274 and rotor.cpp:120-126: the four-velocity and comoving field in Minkowski space *)
Definition flat_ucon (Gamma : R) (vp : vec) : vec := row4 Gamma (vp 0%nat) (vp 1%nat) (vp 2%nat).
Definition flat_bcon (Gamma : R) (vp B : vec) : vec :=
  let u := flat_ucon Gamma vp in
  let Bdotv := B 0%nat * vp 0%nat / Gamma + B 1%nat * vp 1%nat / Gamma + B 2%nat * vp 2%nat / Gamma in
  let b0 := Gamma * Bdotv in
  row4 b0 ((B 0%nat + b0 * u 1%nat) / Gamma) ((B 1%nat + b0 * u 2%nat) / Gamma) ((B 2%nat + b0 * u 3%nat) / Gamma).
(** linear_modes.cpp:275-290; [x] is the x-coordinate after lines 204-209 *)
Definition lm_J (ch : Chart) (x : R) : mat :=
  match ch with
  | ch_minkowski => rows4 (row4 1 0 0 0) (row4 0 1 0 0) (row4 0 0 1 0) (row4 0 0 0 1)
  | ch_snake a k alpha vy =>
      rows4 (row4 (1 / alpha) 0 0 0) (row4 0 1 0 0) (row4 (- vy / alpha) (a * k * cos (k * x)) 1 0) (row4 0 0 0 1)
  | ch_boosted vx vy vz =>
      rows4 (row4 1 0 0 0) (row4 (- vx) 1 0 0) (row4 (- vy) 0 1 0) (row4 (- vz) 0 0 1)
  | ch_inchworm a k =>
      rows4 (row4 1 0 0 0) (row4 0 (1 + a * k * cos (k * x)) 0 0) (row4 0 0 1 0) (row4 0 0 0 1)
  end.
(** linear_modes.cpp:291-307 and rotor.cpp:143-158: velocity and field in the new coordinates;
    [alpha] is the local variable, [shift] the contravariant shift of the geometry *)
Definition to_chart (alpha : R) (shift : vec) (J : mat) (ucon bcon : vec) : vec * vec :=
  let ut : vec := fun mu => sum4 (fun nu => J mu nu * ucon nu) in
  let bt : vec := fun mu => sum4 (fun nu => J mu nu * bcon nu) in
  let Gamma := alpha * ut 0%nat in
  ((fun i => ut (S i) + Gamma * shift i / alpha),
   (fun i => bt (S i) * Gamma - alpha * bt 0%nat * ut (S i))).
Definition lm_alpha (ch : Chart) : R := match ch with ch_snake _ _ alpha _ => alpha | _ => 1 end.
(** linear_modes.cpp:258-309: in Minkowski coordinates nothing changes *)
Definition lm_cell (ch : Chart) (shift : vec) (gam amp : R) (md : Mode) (x y : R) : LmPrims :=
  let xm := lm_x ch x in
  let q := lm_flat gam amp md xm (lm_y ch x y) in
  match ch with
  | ch_minkowski => q
  | _ =>
      let v := l_vp q in
      let Gamma := sqrt (1 + (v 0%nat * v 0%nat + v 1%nat * v 1%nat + v 2%nat * v 2%nat)) in
      let '(vp, B) := to_chart (lm_alpha ch) shift (lm_J ch xm) (flat_ucon Gamma v) (flat_bcon Gamma v (l_B q)) in
      mkLm (l_rho q) (l_u q) (l_P q) vp B
  end.
