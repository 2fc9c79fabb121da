(** Photon geodesics, src/radiation/geodesics.hpp, over the reals.  [flat] is the compile-time
    test PHOEBUS_GEOMETRY = Geometry::Minkowski. *)
From Coq Require Import Reals Arith.
From Verif.Model Require Import Geometry Tetrads.
From Verif.Spec Require Import Tensor.
Local Open Scope R_scope.

(** geodesics.hpp:30-36 GetXSource: dX^mu/dt *)
Definition GetXSource (Kcon : vec) : vec := fun mu => match mu with O => 1 | _ => Kcon mu / Kcon 0%nat end.

(** geodesics.hpp:53 *)
Definition DELTA : R := 1 / 1000000.
(** geodesics.hpp:57-65, Xm[mu] -= DELTA and Xp[mu] += DELTA *)
Definition nudged (X : point) (mu : nat) (d : R) : point := fun nu => if Nat.eqb nu mu then X nu + d else X nu.

(** geodesics.hpp:38-78 GetKSource: dK_mu/dt, differences of the inverse metric *)
Definition GetKSource (flat : bool) (geom : System) (X : point) (Kcov : vec) (Kcon0 : R) : vec := fun mu =>
  if flat then 0 else
  let Xm := nudged X mu (- DELTA) in let Xp := nudged X mu DELTA in
  let Gconm := SpacetimeMetricInverse geom Xm in let Gconp := SpacetimeMetricInverse geom Xp in
  sum4 (fun nu => sum4 (fun kap => Kcov nu * Kcov kap * ((Gconp nu kap - Gconm nu kap) / (Xp mu - Xm mu)))) * (-1 / (2 * Kcon0)).

(** geodesics.hpp:80-122 PushParticle; the momentum source of the second stage is evaluated
    at the old position (line 110) *)
Definition PushParticle (flat : bool) (geom : System) (dt : R) (s : vec * vec) : vec * vec :=
  let '(X, Kcov) := s in
  let Kcon := Raise Kcov (SpacetimeMetricInverse geom X) in
  let c1 := GetXSource Kcon in let d1 := GetKSource flat geom X Kcov (Kcon 0%nat) in
  let Xtmp : vec := fun mu => X mu + dt * c1 mu in let Kcovtmp : vec := fun mu => Kcov mu + dt * d1 mu in
  let Kcontmp := Raise Kcovtmp (SpacetimeMetricInverse geom Xtmp) in
  let c2 := GetXSource Kcontmp in let d2 := GetKSource flat geom X Kcovtmp (Kcontmp 0%nat) in
  (fun mu => X mu + / 2 * dt * (c1 mu + c2 mu), fun mu => Kcov mu + / 2 * dt * (d1 mu + d2 mu)).

(** a particle followed over several steps *)
Fixpoint push_all (flat : bool) (geom : System) (dts : list R) (s : vec * vec) : vec * vec :=
  match dts with nil => s | cons dt r => push_all flat geom r (PushParticle flat geom dt s) end.
