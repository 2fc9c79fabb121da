(** Model of src/reconstruction.hpp (namespace PhoebusReconstruction), over R.
    [ql] is the state on the upper face of the cell (left of interface i+1/2),
    [qr] the state on its lower face, as in fluid.cpp:689-690 where ql is
    written at index i+1 and qr at index i. *)
From Coq Require Import Reals ZArith.
From Flocq Require Import Core.
From Verif.Model Require Import Num.
Local Open Scope R_scope.

(** C++ std::copysign(x, s) for real arguments; at s = 0 the C++ result is +-|x|
    depending on the sign bit of zero.  In [mc] x = 0 whenever s = 0. *)
Definition copysign (x s : R) : R := if Rlt_bool s 0 then - Rabs x else Rabs x.

(** reconstruction.hpp:25-29 *)
Definition koren (dm dp : R) : R :=
  let r := if Rlt_bool 0 (Rabs dp) then dm / dp else 0 in
  std_max 0 (std_min (2 * r) (std_min ((1 + 2 * r) / 3) 2)).

(** reconstruction.hpp:31-35 *)
Definition mc_lim (dm dp : R) : R :=
  let r := if Rlt_bool 0 (Rabs dp) then dm / dp else 0 in
  std_max 0 (std_min 2 (std_min (2 * r) (1 / 2 * (1 + r)))).

(** reconstruction.hpp:36-41 *)
Definition minmod (dm dp : R) : R :=
  let r := if Rlt_bool 0 (Rabs dp) then dm / dp else 0 in
  let t := 3 / 2 in
  std_max 0 (std_min t (std_min (t * r) (1 / 2 * (1 + r)))).

(** reconstruction.hpp:49-53 *)
Definition barth_jespersen (dm dp : R) : R :=
  let r := if Rlt_bool 0 (Rabs dp) then dm / dp else 3 in
  std_min (std_min 1 (4 / (1 + r))) (4 * r / (1 + r)).

(** reconstruction.hpp:68-72 *)
Definition overbee (dm dp : R) : R :=
  if Rlt_bool 0 (Rabs dp) then 2 * std_min (Rabs dm) (Rabs dp) / Rabs dp else 2.

(** reconstruction.hpp:74-79 *)
Definition superbee (dm dp : R) : R :=
  let r := if Rlt_bool 0 (Rabs dp) then dm / dp else 2 in
  std_max (std_max 0 (std_min (2 * r) 1)) (std_min r 2).

(** reconstruction.hpp:89-99 *)
Definition phifunc (mind maxd gx gy dx dy : R) : R :=
  let delta := gx * dx + gy * dy in
  if Rlt_bool 0 delta then std_min 1 (maxd / delta)
  else if Rlt_bool delta 0 then std_min 1 (mind / delta)
  else 1.

(** reconstruction.hpp:103-107 *)
Definition mc (dm dp alpha : R) : R :=
  let dc := (if Rlt_bool 0 (dm * dp) then 1 else 0) * (1 / 2) * (dm + dp) in
  copysign (std_min (Rabs dc) (alpha * std_min (Rabs dm) (Rabs dp))) dc.

(** reconstruction.hpp:111-114; result (ql, qr) *)
Definition PiecewiseConstant (q0 : R) : R * R := (q0, q0).

(** reconstruction.hpp:118-123; result (ql, qr) *)
Definition PiecewiseLinear (qm q0 qp : R) : R * R :=
  let dq := qp - q0 in
  let dq := mc (q0 - qm) dq (3 / 2) in
  (q0 + 1 / 2 * dq, q0 - 1 / 2 * dq).

(** reconstruction.hpp:133  eps = 1e-100 *)
Definition weno_eps : R := / 10 ^ 100.

(** reconstruction.hpp:136-144  smoothness indicator from the two differences a, b *)
Definition weno_beta (a b : R) : R := 13 / 3 * a * a + b * b + weno_eps.

(** reconstruction.hpp:155-158 and 168-171: weighted combination of the three
    parabolas for the face beyond p2, stencil p0 .. p4 *)
Definition weno_face (w0 w1 w2 p0 p1 p2 p3 p4 : R) : R :=
  let wsum := 1 / (w0 + w1 + w2) in
  (w0 * (1 / 3 * p0 + (- 7 / 6) * p1 + 11 / 6 * p2)
   + w1 * ((- 1 / 6) * p1 + 5 / 6 * p2 + 1 / 3 * p3)
   + w2 * (1 / 3 * p2 + 5 / 6 * p3 + (- 1 / 6) * p4)) * wsum.

(** reconstruction.hpp:159-162 and 172-175, with w5gamma = {0.1, 0.6, 0.3} *)
Definition weno_alpha (w0 w1 w2 : R) : R :=
  let wsum := 1 / (w0 + w1 + w2) in
  3 * wsum * w0 * w1 * w2 / (3 / 10 * w0 * w1 + 6 / 10 * w0 * w2 + 1 / 10 * w1 * w2)
  + weno_eps.

(** the quantities beta0, beta1, beta2 after line 149 *)
Definition weno_betas (q0 q1 q2 q3 q4 : R) : R * R * R :=
  let beta0 := weno_beta (q0 - 2 * q1 + q2) (q0 - 4 * q1 + 3 * q2) in
  let beta1 := weno_beta (q1 - 2 * q2 + q3) (q3 - q1) in
  let beta2 := weno_beta (q2 - 2 * q3 + q4) (q4 - 4 * q3 + 3 * q2) in
  let tau5 := Rabs (beta2 - beta0) in
  ((beta0 + tau5) / beta0, (beta1 + tau5) / beta1, (beta2 + tau5) / beta2).

(** reconstruction.hpp:164-180  alpha_lin for given beta0, beta1, beta2 *)
Definition weno_alpha_lin (beta0 beta1 beta2 : R) : R :=
  let alpha_l := weno_alpha (1 / 10 * beta0 + weno_eps) (6 / 10 * beta1 + weno_eps)
                            (3 / 10 * beta2 + weno_eps) in
  let alpha_r := weno_alpha (1 / 10 * beta2 + weno_eps) (6 / 10 * beta1 + weno_eps)
                            (3 / 10 * beta0 + weno_eps) in
  2 * alpha_l * alpha_r / (alpha_l + alpha_r).

(** reconstruction.hpp:127-183; result (ql, qr) *)
Definition WENO5Z (q0 q1 q2 q3 q4 : R) : R * R :=
  let '(beta0, beta1, beta2) := weno_betas q0 q1 q2 q3 q4 in
  let ql := weno_face (1 / 10 * beta0 + weno_eps) (6 / 10 * beta1 + weno_eps)
                      (3 / 10 * beta2 + weno_eps) q0 q1 q2 q3 q4 in
  let qr := weno_face (1 / 10 * beta2 + weno_eps) (6 / 10 * beta1 + weno_eps)
                      (3 / 10 * beta0 + weno_eps) q4 q3 q2 q1 q0 in
  let dq := q3 - q2 in
  let dq := mc (q2 - q1) dq 2 in
  let alpha_lin := weno_alpha_lin beta0 beta1 beta2 in
  (alpha_lin * ql + (1 - alpha_lin) * (q2 + 1 / 2 * dq),
   alpha_lin * qr + (1 - alpha_lin) * (q2 - 1 / 2 * dq)).

(** reconstruction.hpp:186 *)
Definition MINMOD (a b : R) : R :=
  if Rlt_bool 0 (a * b) then (if Rlt_bool (Rabs a) (Rabs b) then a else b) else 0.

(** reconstruction.hpp:188 *)
Definition Median (a b c : R) : R := a + MINMOD (b - a) (c - a).

(** reconstruction.hpp:198-199 unlimited fifth-order value *)
Definition mp5_unlimited (Fjm2 Fjm1 Fj Fjp1 Fjp2 : R) : R :=
  (2 * Fjm2 - 13 * Fjm1 + 47 * Fj + 27 * Fjp1 - 3 * Fjp2) / 60.

(** reconstruction.hpp:201  fMP, alpha = 4 *)
Definition mp5_fMP (Fjm1 Fj Fjp1 : R) : R := Fj + MINMOD (Fjp1 - Fj) (4 * (Fj - Fjm1)).

(** reconstruction.hpp:205-231  the limiting interval (Fmin, Fmax);
    fmin/fmax of two non-NaN numbers are Rmin/Rmax *)
Definition mp5_interval (Fjm2 Fjm1 Fj Fjp1 Fjp2 : R) : R * R :=
  let d2m := Fjm2 + Fj - 2 * Fjm1 in
  let d2 := Fjm1 + Fjp1 - 2 * Fj in
  let d2p := Fj + Fjp2 - 2 * Fjp1 in
  let dMMp := MINMOD (MINMOD (4 * d2 - d2p) (4 * d2p - d2)) (MINMOD d2 d2p) in
  let dMMm := MINMOD (MINMOD (4 * d2m - d2) (4 * d2 - d2m)) (MINMOD d2 d2m) in
  let fUL := Fj + 4 * (Fj - Fjm1) in
  let fAV := 1 / 2 * (Fj + Fjp1) in
  let fMD := fAV - 1 / 2 * dMMp in
  let fLC := 1 / 2 * (3 * Fj - Fjm1) + 4 / 3 * dMMm in
  let Fmin := Rmax (Rmin (Rmin Fj Fjp1) fMD) (Rmin (Rmin Fj fUL) fLC) in
  let Fmax := Rmin (Rmax (Rmax Fj Fjp1) fMD) (Rmax (Rmax Fj fUL) fLC) in
  (Fmin, Fmax).

(** reconstruction.hpp:191-235, epsm = 1e-12 *)
Definition mp5_subcalc (Fjm2 Fjm1 Fj Fjp1 Fjp2 : R) : R :=
  let f := mp5_unlimited Fjm2 Fjm1 Fj Fjp1 Fjp2 in
  let fMP := mp5_fMP Fjm1 Fj Fjp1 in
  if Rle_bool ((f - Fj) * (f - fMP)) (/ 10 ^ 12) then f
  else
    let '(Fmin, Fmax) := mp5_interval Fjm2 Fjm1 Fj Fjp1 Fjp2 in
    Median f Fmin Fmax.

(** reconstruction.hpp:240-244; result (ql, qr) *)
Definition MP5 (q0 q1 q2 q3 q4 : R) : R * R :=
  (mp5_subcalc q0 q1 q2 q3 q4, mp5_subcalc q4 q3 q2 q1 q0).
