(** What a user of a coordinate system relies on, stated on plain components. *)
From Coq Require Import Reals Arith.
From Coquelicot Require Import Coquelicot.
From Verif.Spec Require Import Tensor.
Local Open Scope R_scope.

(** 3+1 decomposition of a spacetime metric: g_00 = -alpha^2 + beta_i beta^i,
    g_0i = beta_i, g_ij = gamma_ij, with alpha > 0 and gamma positive definite,
    together with the inverses and volume elements derived from it. *)
Record adm_consistent (alpha : R) (beta : vec) (g ginv gamma gammainv : mat)
                      (sqrt_gamma sqrt_g : R) : Prop := {
  adm_lapse_pos : 0 < alpha;
  adm_gamma_sym : symmetric3 gamma;
  adm_gamma_pd : positive_definite3 gamma;
  adm_g_sym : symmetric4 g;
  adm_g00 : g 0%nat 0%nat = - (alpha * alpha) + dot3 gamma beta beta;
  adm_g0i : forall i, (i < 3)%nat -> g 0%nat (S i) = lower3 gamma beta i;
  adm_gij : forall i j, (i < 3)%nat -> (j < 3)%nat -> g (S i) (S j) = gamma i j;
  adm_inv4 : inverse4 g ginv;
  adm_inv3 : inverse3 gamma gammainv;
  adm_det3 : 0 < sqrt_gamma /\ sqrt_gamma * sqrt_gamma = det3 gamma;
  adm_det4 : 0 < sqrt_g /\ sqrt_g * sqrt_g = - det4 g;
  adm_dets : sqrt_g = alpha * sqrt_gamma
}.

(** coordinate point X with the s-th coordinate replaced by h *)
Definition moved (X : vec) (s : nat) (h : R) : vec := fun i => if Nat.eqb i s then h else X i.

(** f has partial derivative d with respect to coordinate s at X *)
Definition is_partial (f : vec -> R) (s : nat) (X : vec) (d : R) : Prop :=
  is_derive (fun h => f (moved X s h)) (X s) d.
Definition partial (f : vec -> R) (s : nat) (X : vec) : R :=
  Derive (fun h => f (moved X s h)) (X s).

(** dg.[mu][nu][sigma] = d g_{mu nu} / d x^sigma *)
Definition is_metric_derivative (g : vec -> mat) (X : vec) (dg : nat -> nat -> nat -> R) : Prop :=
  forall mu nu s, (mu < 4)%nat -> (nu < 4)%nat -> (s < 4)%nat ->
    is_partial (fun Y => g Y mu nu) s X (dg mu nu s).

Definition is_gradient (f : vec -> R) (X : vec) (df : vec) : Prop :=
  forall s, (s < 4)%nat -> is_partial f s X (df s).

(** Christoffel symbols of the first kind,
    Gamma_{a b c} = (d_c g_ab + d_b g_ac - d_a g_bc) / 2 *)
Definition is_christoffel1 (g : vec -> mat) (X : vec) (G : nat -> nat -> nat -> R) : Prop :=
  forall a b c, (a < 4)%nat -> (b < 4)%nat -> (c < 4)%nat ->
    G a b c = (partial (fun Y => g Y a b) c X + partial (fun Y => g Y a c) b X
               - partial (fun Y => g Y b c) a X) / 2.

(** covariant derivative of the metric vanishes: d_c g_ab = Gamma_{a b c} + Gamma_{b a c} *)
Definition metric_compatible (g : vec -> mat) (X : vec) (G : nat -> nat -> nat -> R) : Prop :=
  forall a b c, (a < 4)%nat -> (b < 4)%nat -> (c < 4)%nat ->
    partial (fun Y => g Y a b) c X = G a b c + G b a c.
Definition torsion_free (G : nat -> nat -> nat -> R) : Prop :=
  forall a b c, (a < 4)%nat -> (b < 4)%nat -> (c < 4)%nat -> G a b c = G a c b.

(** the metric g at X is the flat metric diag(-1,1,1,1) pulled back along the map C *)
Definition eta : mat := fun i j => if Nat.eqb i j then (if Nat.eqb i 0 then -1 else 1) else 0.
Definition is_pullback_of_flat (g : vec -> mat) (C : vec -> vec) (X : vec) : Prop :=
  exists J : mat,
    (forall m s, (m < 4)%nat -> (s < 4)%nat -> is_partial (fun Y => C Y m) s X (J m s)) /\
    (forall mu nu, (mu < 4)%nat -> (nu < 4)%nat ->
       g X mu nu = sum4 (fun l => sum4 (fun k => eta l k * J l mu * J k nu))).
