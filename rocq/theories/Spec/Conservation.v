(** Covariant divergence of a symmetric tensor field and the densitised balance laws.
    Nothing here refers to the code. *)
From Coq Require Import Reals Arith.
From Coquelicot Require Import Coquelicot.
From Verif.Spec Require Import Tensor GeomSpec.
Local Open Scope R_scope.

(** sqrt(-det g) *)
Definition volume (g : vec -> mat) (Y : vec) : R := sqrt (- det4 (g Y)).

(** Christoffel symbols of the second kind at X,
    Gamma^a_{bc} = g^{ad} (d_c g_db + d_b g_dc - d_d g_bc) / 2 *)
Definition christoffel2 (g : vec -> mat) (ginv : mat) (X : vec) (a b c : nat) : R :=
  sum4 (fun d => ginv a d * ((partial (fun Y => g Y d b) c X + partial (fun Y => g Y d c) b X
                              - partial (fun Y => g Y b c) d X) / 2)).

(** nabla_mu T^{mu nu} at X *)
Definition divergence (g : vec -> mat) (ginv : mat) (T : vec -> mat) (X : vec) (nu : nat) : R :=
  sum4 (fun mu => partial (fun Y => T Y mu nu) mu X) +
  sum4 (fun mu => sum4 (fun l => christoffel2 g ginv X mu mu l * T X l nu)) +
  sum4 (fun mu => sum4 (fun l => christoffel2 g ginv X nu mu l * T X mu l)).

(** the components of T can be differentiated at X *)
Definition differentiable_at (T : vec -> mat) (X : vec) : Prop :=
  forall mu nu s, (mu < 4)%nat -> (nu < 4)%nat -> (s < 4)%nat -> exists d, is_partial (fun Y => T Y mu nu) s X d.

(** d_mu J^mu *)
Definition flat_divergence (J : vec -> vec) (X : vec) : R := sum4 (fun mu => partial (fun Y => J Y mu) mu X).

(** sqrt(-g) T^mu_nu *)
Definition mixed_density (g : vec -> mat) (T : vec -> mat) (nu : nat) (Y : vec) : vec :=
  fun mu => volume g Y * sum4 (fun l => T Y mu l * g Y l nu).
(** - sqrt(-g) T^{mu nu} n_nu = sqrt(-g) alpha T^{mu 0}, the energy current of the observers at
    rest with respect to the constant-time surfaces *)
Definition normal_density (g : vec -> mat) (alpha : vec -> R) (T : vec -> mat) (Y : vec) : vec :=
  fun mu => volume g Y * (alpha Y * T Y mu 0%nat).

(** the metric at X does not change along coordinate s *)
Definition ignorable (g : vec -> mat) (s : nat) (X : vec) : Prop :=
  forall mu nu, (mu < 4)%nat -> (nu < 4)%nat -> is_partial (fun Y => g Y mu nu) s X 0.
