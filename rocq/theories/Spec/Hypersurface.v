(** The 3+1 form of Einstein's equations (G = c = 1) on a three-dimensional slice with coordinates
    x^0, x^1, x^2, metric gamma_ij, inverse gamma^ij, mixed extrinsic curvature K^i_j
    (sign: d gamma_ij/dt = -2 alpha K_ij + L_beta gamma_ij), and sources rho, S^i, S^i_j.
    Nothing here refers to the code. *)
From Coq Require Import Reals Arith List.
From Coquelicot Require Import Coquelicot.
From Verif.Spec Require Import Tensor GeomSpec.
Local Open Scope R_scope.

Section Slice.
  Variables gam gaminv : vec -> mat.
  (** Gamma^a_bc = gamma^ad (d_c gamma_db + d_b gamma_dc - d_d gamma_bc)/2 *)
  Definition Gam (Y : vec) (a b c : nat) : R :=
    sum3 (fun d => gaminv Y a d * ((partial (fun Z => gam Z d b) c Y + partial (fun Z => gam Z d c) b Y
                                    - partial (fun Z => gam Z b c) d Y) / 2)).
  (** R_ij = d_k Gamma^k_ij - d_j Gamma^k_ik + Gamma^k_kl Gamma^l_ij - Gamma^k_jl Gamma^l_ik *)
  Definition Ricci (Y : vec) (i j : nat) : R :=
    sum3 (fun k => partial (fun Z => Gam Z k i j) k Y - partial (fun Z => Gam Z k i k) j Y
                   + sum3 (fun l => Gam Y k k l * Gam Y l i j - Gam Y k j l * Gam Y l i k)).
  Definition RicciMixed (Y : vec) (i j : nat) : R := sum3 (fun k => gaminv Y i k * Ricci Y k j).
  Definition RicciScalar (Y : vec) : R := sum3 (fun i => RicciMixed Y i i).
  (** D_i D_j f *)
  Definition Hessian (f : vec -> R) (Y : vec) (i j : nat) : R :=
    partial (fun Z => partial f j Z) i Y - sum3 (fun k => Gam Y k i j * partial f k Y).
  Definition HessianMixed (f : vec -> R) (Y : vec) (i j : nat) : R := sum3 (fun k => gaminv Y i k * Hessian f Y k j).
  Definition Laplacian (f : vec -> R) (Y : vec) : R := sum3 (fun i => HessianMixed f Y i i).

  Definition trace3 (A : mat) : R := sum3 (fun i => A i i).
  (** K^i_j K^j_i *)
  Definition square3 (A : mat) : R := sum3 (fun i => sum3 (fun j => A i j * A j i)).
  (** D_i K^i_j *)
  Definition DivMixed (K : vec -> mat) (Y : vec) (j : nat) : R :=
    sum3 (fun i => partial (fun Z => K Z i j) i Y + sum3 (fun l => Gam Y i i l * K Y l j - Gam Y l i j * K Y i l)).

  Definition hamiltonian_constraint (K : vec -> mat) (rho : R) (Y : vec) : Prop :=
    RicciScalar Y + trace3 (K Y) * trace3 (K Y) - square3 (K Y) = 16 * PI * rho.
  Definition momentum_constraint (K : vec -> mat) (S : vec) (Y : vec) : Prop :=
    forall j, (j < 3)%nat ->
      DivMixed K Y j - partial (fun Z => trace3 (K Z)) j Y = 8 * PI * sum3 (fun k => gam Y j k * S k).
  (** the lapse that keeps the trace of K equal to zero *)
  Definition maximal_slicing (alpha : vec -> R) (K : vec -> mat) (rho trS : R) (Y : vec) : Prop :=
    Laplacian alpha Y = alpha Y * (square3 (K Y) + 4 * PI * (rho + trS)).
  (** d gamma_ij / dt *)
  Definition metric_rate (alpha : vec -> R) (beta : vec -> vec) (K : vec -> mat) (Y : vec) (i j : nat) : R :=
    - 2 * alpha Y * sum3 (fun k => gam Y i k * K Y k j)
    + sum3 (fun l => beta Y l * partial (fun Z => gam Z i j) l Y + gam Y l j * partial (fun Z => beta Z l) i Y
                     + gam Y i l * partial (fun Z => beta Z l) j Y).
  (** d K^i_j / dt *)
  Definition curvature_rate (alpha : vec -> R) (beta : vec -> vec) (K : vec -> mat) (rho : R) (Sm : mat) (Y : vec)
             (i j : nat) : R :=
    sum3 (fun l => beta Y l * partial (fun Z => K Z i j) l Y - K Y l j * partial (fun Z => beta Z i) l Y
                   + K Y i l * partial (fun Z => beta Z l) j Y)
    - HessianMixed alpha Y i j + alpha Y * (RicciMixed Y i j + trace3 (K Y) * K Y i j)
    + 4 * PI * alpha Y * ((trace3 Sm - rho) * delta i j - 2 * Sm i j).
End Slice.

(** A spherically symmetric slice in areal coordinates (r, theta, phi):
    gamma = a(r)^2 dr^2 + r^2 (dtheta^2 + sin^2 theta dphi^2), K^i_j = K(r) diag(1, -1/2, -1/2),
    lapse alpha(r), shift beta(r) along r. *)
Definition areal_metric (a : R -> R) (Y : vec) : mat :=
  fun i j => if Nat.eqb i j then
    match i with 0%nat => a (Y 0%nat) * a (Y 0%nat) | 1%nat => Y 0%nat * Y 0%nat
               | _ => Y 0%nat * Y 0%nat * (sin (Y 1%nat) * sin (Y 1%nat)) end else 0.
Definition areal_inverse (a : R -> R) (Y : vec) : mat :=
  fun i j => if Nat.eqb i j then
    match i with 0%nat => / (a (Y 0%nat) * a (Y 0%nat)) | 1%nat => / (Y 0%nat * Y 0%nat)
               | _ => / (Y 0%nat * Y 0%nat * (sin (Y 1%nat) * sin (Y 1%nat))) end else 0.
Definition areal_K (K : R -> R) (Y : vec) : mat :=
  fun i j => if Nat.eqb i j then match i with 0%nat => K (Y 0%nat) | _ => - / 2 * K (Y 0%nat) end else 0.
Definition radial (f : R -> R) (Y : vec) : R := f (Y 0%nat).
Definition radial_vector (f : R -> R) (Y : vec) : vec := fun i => match i with 0%nat => f (Y 0%nat) | _ => 0 end.
(** a source current along r and a stress diag(s, t, t) *)
Definition along_r (j : R) : vec := fun i => match i with 0%nat => j | _ => 0 end.
Definition stress_diag (s t : R) : mat := fun i j => if Nat.eqb i j then match i with 0%nat => s | _ => t end else 0.

(** f and its first derivative can be differentiated around r, with first derivative f' and second f'' at r *)
Definition smooth_at (f f' f'' : R -> R) (r : R) : Prop :=
  locally r (fun x => is_derive f x (f' x)) /\ is_derive f' r (f'' r).

(** A tridiagonal system l_i x_{i-1} + d_i x_i + u_i x_{i+1} = b_i, i = 0 .. n-1; the entries l_0 and
    u_{n-1} are not part of it. *)
Definition tridiagonal_row (l d u : nat -> R) (n : nat) (x : nat -> R) (i : nat) : R :=
  (if Nat.eqb i 0 then 0 else l i * x (i - 1)%nat) + d i * x i + (if Nat.eqb i (n - 1) then 0 else u i * x (S i)).
Definition solves_tridiagonal (l d u b : nat -> R) (n : nat) (x : nat -> R) : Prop :=
  forall i, (i < n)%nat -> tridiagonal_row l d u n x i = b i.

(** central second-order differences of an array on a grid of step h *)
Definition first_difference (h : R) (x : nat -> R) (i : nat) : R := (x (i + 1)%nat - x (i - 1)%nat) / (2 * h).
Definition second_difference (h : R) (x : nat -> R) (i : nat) : R := (x (i + 1)%nat - 2 * x i + x (i - 1)%nat) / (h * h).

(** Projections of T^{mu nu} with respect to the unit normal n_mu = (-alpha, 0, 0, 0) of the slices:
    n^mu = (1/alpha, -beta/alpha), the projector delta^mu_nu + n^mu n_nu. *)
Definition n_cov (alpha : R) : vec := fun mu => if Nat.eqb mu 0 then - alpha else 0.
Definition n_con (alpha : R) (beta : vec) : vec := fun mu => match mu with 0%nat => / alpha | S i => - beta i / alpha end.
Definition projector (alpha : R) (beta : vec) (mu nu : nat) : R := delta mu nu + n_con alpha beta mu * n_cov alpha nu.
Definition energy_density (alpha : R) (T : mat) : R :=
  sum4 (fun mu => sum4 (fun nu => T mu nu * n_cov alpha mu * n_cov alpha nu)).
Definition momentum_density (alpha : R) (beta : vec) (T : mat) (mu : nat) : R :=
  - sum4 (fun ka => sum4 (fun nu => projector alpha beta mu ka * T ka nu * n_cov alpha nu)).
Definition spatial_stress (alpha : R) (beta : vec) (g T : mat) (mu nu : nat) : R :=
  sum4 (fun ka => sum4 (fun la => projector alpha beta mu ka * projector alpha beta la nu * sum4 (fun si => T ka si * g si la))).

(** sum over an array of length n, and over a list *)
Fixpoint sum_n (n : nat) (f : nat -> R) : R := match n with O => 0 | S n => sum_n n f + f n end.
Definition sum_list {A} (f : A -> R) (l : list A) : R := fold_right (fun x s => f x + s) 0 l.
(** the part of the interval [r - dr/2, r + dr/2] inside [x - dx/2, x + dx/2] *)
Definition overlap (x dx r dr : R) : R :=
  Rmax 0 (Rmin (x + dx / 2) (r + dr / 2) - Rmax (x - dx / 2) (r - dr / 2)).
