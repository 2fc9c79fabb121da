(** src/reconstruction.hpp: the limiter [mc] and [PiecewiseLinear] over any number
    system, to be read at [B64], IEEE-754 binary64: the arithmetic the code runs.
    At R the definitions are those of Model/Reconstruction.v (proved in
    Properties/P_ReconIEEE.v).  Not modelled: a compiler that contracts a multiply
    and an add into one fused operation, or that reassociates. *)
From Coq Require Import ZArith Reals Bool.
From Flocq Require Import Core BinarySingleNaN.
From Verif.Model Require Import Num.

(** std::copysign on doubles: magnitude of x, sign bit of s (a zero has one) *)
Definition copysign64 (x s : B64) : B64 := if Bsign s then Bopp (Babs x) else Babs x.

Section Recon.
  Context {T : Type} `{Num T}.
  Variable csign : T -> T -> T.
  Local Open Scope num_scope.

  (** reconstruction.hpp:103-107; the comparison is a bool, promoted to 1.0 or 0.0 *)
  Definition g_mc (dm dp alpha : T) : T :=
    let dc := (if dm * dp >? nlit 0 1 then nlit 1 1 else nlit 0 1) * nlit 1 2 * (dm + dp) in
    csign (std_min (nabs dc) (alpha * std_min (nabs dm) (nabs dp))) dc.

  (** reconstruction.hpp:118-123; result (ql, qr), alpha = 1.5 *)
  Definition g_PiecewiseLinear (qm q0 qp : T) : T * T :=
    let dq := qp - q0 in
    let dq := g_mc (q0 - qm) dq (nlit 3 2) in
    (q0 + nlit 1 2 * dq, q0 - nlit 1 2 * dq).

  (** reconstruction.hpp:186, the macro MINMOD *)
  Definition g_MINMOD (a b : T) : T :=
    if a * b >? nlit 0 1 then (if nabs a <? nabs b then a else b) else nlit 0 1.
  (** reconstruction.hpp:188 *)
  Definition g_Median (a b c : T) : T := a + g_MINMOD (b - a) (c - a).
End Recon.

(** reconstruction.hpp:118-123 as compiled: Real = double *)
Definition PiecewiseLinear64 : B64 -> B64 -> B64 -> B64 * B64 := g_PiecewiseLinear copysign64.

Section Weno.
  Context {T : Type} `{Num T}.
  Variable csign : T -> T -> T.
  Local Open Scope num_scope.

  (** reconstruction.hpp:133.  At [B64] the literal is 1 divided by the double nearest
      10^100, which may differ from the double nearest 1e-100 in its last bit. *)
  Definition g_eps : T := nlit 1 (10 ^ 100)%positive.

  (** reconstruction.hpp:138, 141, 144 *)
  Definition g_beta (a b : T) : T := nlit 13 3 * a * a + b * b + g_eps.

  (** reconstruction.hpp:155-158 and 168-171: weighted sum of the three parabolas *)
  Definition g_face (w0 w1 w2 p0 p1 p2 p3 p4 : T) : T :=
    let wsum := nlit 1 1 / (w0 + w1 + w2) in
    let q := w0 * (nlit 1 3 * p0 + nlit (-7) 6 * p1 + nlit 11 6 * p2) in
    let q := q + w1 * (nlit (-1) 6 * p1 + nlit 5 6 * p2 + nlit 1 3 * p3) in
    let q := q + w2 * (nlit 1 3 * p2 + nlit 5 6 * p3 + nlit (-1) 6 * p4) in
    q * wsum.

  (** reconstruction.hpp:159-162 and 172-175 *)
  Definition g_alpha (w0 w1 w2 : T) : T :=
    let wsum := nlit 1 1 / (w0 + w1 + w2) in
    nlit 3 1 * wsum * w0 * w1 * w2 /
      (nlit 3 10 * w0 * w1 + nlit 6 10 * w0 * w2 + nlit 1 10 * w1 * w2) + g_eps.

  (** reconstruction.hpp:127-183; result (ql, qr) *)
  Definition g_WENO5Z (q0 q1 q2 q3 q4 : T) : T * T :=
    let beta0 := g_beta (q0 - nlit 2 1 * q1 + q2) (q0 - nlit 4 1 * q1 + nlit 3 1 * q2) in
    let beta1 := g_beta (q1 - nlit 2 1 * q2 + q3) (q3 - q1) in
    let beta2 := g_beta (q2 - nlit 2 1 * q3 + q4) (q4 - nlit 4 1 * q3 + nlit 3 1 * q2) in
    let tau5 := nabs (beta2 - beta0) in
    let beta0 := (beta0 + tau5) / beta0 in
    let beta1 := (beta1 + tau5) / beta1 in
    let beta2 := (beta2 + tau5) / beta2 in
    let w0 := nlit 1 10 * beta0 + g_eps in
    let w1 := nlit 6 10 * beta1 + g_eps in
    let w2 := nlit 3 10 * beta2 + g_eps in
    let ql := g_face w0 w1 w2 q0 q1 q2 q3 q4 in
    let alpha_l := g_alpha w0 w1 w2 in
    let w0 := nlit 1 10 * beta2 + g_eps in
    let w1 := nlit 6 10 * beta1 + g_eps in
    let w2 := nlit 3 10 * beta0 + g_eps in
    let qr := g_face w0 w1 w2 q4 q3 q2 q1 q0 in
    let alpha_r := g_alpha w0 w1 w2 in
    let dq := q3 - q2 in
    let dq := g_mc csign (q2 - q1) dq (nlit 2 1) in
    let alpha_lin := nlit 2 1 * alpha_l * alpha_r / (alpha_l + alpha_r) in
    (alpha_lin * ql + (nlit 1 1 - alpha_lin) * (q2 + nlit 1 2 * dq),
     alpha_lin * qr + (nlit 1 1 - alpha_lin) * (q2 - nlit 1 2 * dq)).
End Weno.

(** reconstruction.hpp:127-183 as compiled *)
Definition WENO5Z64 : B64 -> B64 -> B64 -> B64 -> B64 -> B64 * B64 := g_WENO5Z copysign64.

Section Mp5.
  Context {T : Type} `{Num T}.
  Local Open Scope num_scope.

  (** fmin, fmax of two numbers (not NaN; of two zeros either may be returned) *)
  Definition g_fmin (a b : T) : T := if b <? a then b else a.
  Definition g_fmax (a b : T) : T := if a <? b then b else a.

  (** reconstruction.hpp:198-199 *)
  Definition g_mp5_unlimited (Fjm2 Fjm1 Fj Fjp1 Fjp2 : T) : T :=
    (nlit 2 1 * Fjm2 - nlit 13 1 * Fjm1 + nlit 47 1 * Fj + nlit 27 1 * Fjp1 - nlit 3 1 * Fjp2) / nlit 60 1.

  (** reconstruction.hpp:205-231: the pair (Fmin, Fmax) *)
  Definition g_mp5_interval (Fjm2 Fjm1 Fj Fjp1 Fjp2 : T) : T * T :=
    let d2m := Fjm2 + Fj - nlit 2 1 * Fjm1 in
    let d2 := Fjm1 + Fjp1 - nlit 2 1 * Fj in
    let d2p := Fj + Fjp2 - nlit 2 1 * Fjp1 in
    let dMMp := g_MINMOD (g_MINMOD (nlit 4 1 * d2 - d2p) (nlit 4 1 * d2p - d2)) (g_MINMOD d2 d2p) in
    let dMMm := g_MINMOD (g_MINMOD (nlit 4 1 * d2m - d2) (nlit 4 1 * d2 - d2m)) (g_MINMOD d2 d2m) in
    let fUL := Fj + nlit 4 1 * (Fj - Fjm1) in
    let fAV := nlit 1 2 * (Fj + Fjp1) in
    let fMD := fAV - nlit 1 2 * dMMp in
    let fLC := nlit 1 2 * (nlit 3 1 * Fj - Fjm1) + nlit 4 3 * dMMm in
    (g_fmax (g_fmin (g_fmin Fj Fjp1) fMD) (g_fmin (g_fmin Fj fUL) fLC),
     g_fmin (g_fmax (g_fmax Fj Fjp1) fMD) (g_fmax (g_fmax Fj fUL) fLC)).

  (** reconstruction.hpp:191-235 *)
  Definition g_mp5_subcalc (Fjm2 Fjm1 Fj Fjp1 Fjp2 : T) : T :=
    let f := g_mp5_unlimited Fjm2 Fjm1 Fj Fjp1 Fjp2 in
    let fMP := Fj + g_MINMOD (Fjp1 - Fj) (nlit 4 1 * (Fj - Fjm1)) in
    if (f - Fj) * (f - fMP) <=? nlit 1 (10 ^ 12)%positive then f
    else let I := g_mp5_interval Fjm2 Fjm1 Fj Fjp1 Fjp2 in g_Median f (fst I) (snd I).

  (** reconstruction.hpp:240-244; result (ql, qr) *)
  Definition g_MP5 (q0 q1 q2 q3 q4 : T) : T * T :=
    (g_mp5_subcalc q0 q1 q2 q3 q4, g_mp5_subcalc q4 q3 q2 q1 q0).
End Mp5.

(** reconstruction.hpp:240-244 as compiled *)
Definition MP564 : B64 -> B64 -> B64 -> B64 -> B64 -> B64 * B64 := g_MP5.
