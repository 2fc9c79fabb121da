(** Small perturbations of a uniform magnetised gas in flat space: the conservation laws of
    ideal relativistic magnetohydrodynamics and their linearisation along a plane wave. *)
From Coq Require Import Reals Arith.
From Coquelicot Require Import Coquelicot.
From Verif.Spec Require Import Tensor GeomSpec Relativity GRMHD.
Local Open Scope R_scope.

(** rest-mass density, internal energy density, W v^i, B^i *)
Record Gas := mkGas { g_rho : R; g_u : R; g_vp : vec; g_B : vec }.
Definition gas_W (q : Gas) : R := sqrt (1 + (g_vp q 0%nat * g_vp q 0%nat + g_vp q 1%nat * g_vp q 1%nat + g_vp q 2%nat * g_vp q 2%nat)).
Definition gas_ucon (q : Gas) : vec := fun mu => match mu with O => gas_W q | S i => g_vp q i end.
Definition gas_bcon (q : Gas) : vec := comoving_field eta (gas_W q) (gas_ucon q) (g_B q).
(** law 0: rest mass, 1..4: energy and momentum, 5: no monopoles, 6..8: induction.
    The four-current of law n for a gas with pressure (gam - 1) u; each law says that its
    divergence vanishes *)
Definition current (gam : R) (n : nat) (q : Gas) (mu : nat) : R :=
  match n with
  | 0%nat => g_rho q * gas_ucon q mu
  | 1%nat | 2%nat | 3%nat | 4%nat =>
      Tcon eta eta (g_rho q) (g_u q) ((gam - 1) * g_u q) (gas_ucon q) (gas_bcon q) mu (n - 1)
  | _ => dualF (gas_ucon q) (gas_bcon q) mu (n - 5)
  end.
Definition divergence (J : vec -> vec) (X : vec) : R := sum4 (fun mu => partial (fun Y => J Y mu) mu X).

(** the state at distance s from q0 in the direction dq *)
Definition along (q0 dq : Gas) (s : R) : Gas :=
  mkGas (g_rho q0 + s * g_rho dq) (g_u q0 + s * g_u dq)
        (fun i => g_vp q0 i + s * g_vp dq i) (fun i => g_B q0 i + s * g_B dq i).
(** k_mu x^mu + c *)
Definition phase (k : vec) (c : R) (X : vec) : R := sum4 (fun mu => k mu * X mu) + c.
(** the plane wave of amplitude e *)
Definition plane_wave (q0 dq : Gas) (k : vec) (c e : R) (X : vec) : Gas := along q0 dq (e * cos (phase k c X)).
(** to first order in its amplitude the wave violates law n at X by r *)
Definition linear_defect (gam : R) (n : nat) (q0 dq : Gas) (k : vec) (c : R) (X : vec) (r : R) : Prop :=
  is_derive (fun e => divergence (fun Y => current gam n (plane_wave q0 dq k c e Y)) X) 0 r.
