(** Vocabulary for statements about four-vectors in a spacetime given in 3+1 form. *)
From Coq Require Import Reals Arith.
From Verif.Spec Require Import Tensor GeomSpec.
Local Open Scope R_scope.

(** the metric g has lapse alpha > 0, shift beta and positive definite spatial metric
    gamma (the part of GeomSpec.adm_consistent that does not mention inverses) *)
Record three_plus_one (alpha : R) (beta : vec) (gamma g : mat) : Prop := {
  tpo_lapse : 0 < alpha;
  tpo_gsym : symmetric3 gamma;
  tpo_gpd : positive_definite3 gamma;
  tpo_sym : symmetric4 g;
  tpo_00 : g 0%nat 0%nat = - (alpha * alpha) + dot3 gamma beta beta;
  tpo_0i : forall i, (i < 3)%nat -> g 0%nat (S i) = lower3 gamma beta i;
  tpo_ij : forall i j, (i < 3)%nat -> (j < 3)%nat -> g (S i) (S j) = gamma i j
}.

(** g is a Lorentzian metric whose surfaces of constant x^0 are spacelike *)
Definition lorentzian (g : mat) : Prop :=
  exists alpha beta gamma, three_plus_one alpha beta gamma g.

Definition timelike (g : mat) (u : vec) : Prop := dot4 g u u < 0.

(** the rows of E are an orthonormal frame: g(E_a, E_b) = diag(-1,1,1,1)_ab *)
Definition orthonormal (g : mat) (E : mat) : Prop :=
  forall a b, (a < 4)%nat -> (b < 4)%nat -> dot4 g (E a) (E b) = eta a b.

(** vectors agree on the four components *)
Definition eq4 (u v : vec) : Prop := forall mu, (mu < 4)%nat -> u mu = v mu.
Definition eq3 (u v : vec) : Prop := forall i, (i < 3)%nat -> u i = v i.

(** unit vectors of the coordinate axes *)
Definition axis (k : nat) : vec := fun mu => delta mu k.

(** future unit normal of the constant-time surfaces: contravariant and covariant *)
Definition normal_con (alpha : R) (beta : vec) : vec :=
  fun mu => match mu with O => 1 / alpha | S i => - (beta i / alpha) end.
Definition normal_cov (alpha : R) : vec := fun mu => match mu with O => - alpha | _ => 0 end.

(** a spatial vector as a four-vector tangent to the constant-time surface *)
Definition spatial4 (v : vec) : vec := fun mu => match mu with O => 0 | S i => v i end.

(** magnetic field of the comoving frame from the Eulerian field B and the fluid
    four-velocity u with Lorentz factor W:
    b^mu = (B^mu + (B.u) u^mu) / W, the part of B orthogonal to u over W *)
Definition comoving_field (g : mat) (W : R) (u B : vec) : vec :=
  fun mu => (spatial4 B mu + dot4 g (spatial4 B) u * u mu) / W.

(** the four rows of C are linearly independent *)
Definition independent (C : mat) : Prop :=
  forall c : vec, (forall mu, (mu < 4)%nat -> sum4 (fun a => c a * C a mu) = 0) ->
    forall a, (a < 4)%nat -> c a = 0.
