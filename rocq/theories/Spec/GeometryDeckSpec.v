(** Vocabulary for C63: what a deck asks of each geometry, and when that is a spacetime. *)
From Coq Require Import Reals String ZArith List Bool.
From Verif.Spec Require Import Tensor ConfigSpec.
From Verif.Model Require Import Config Geometry GeometryDeck.
Local Open Scope string_scope.
Local Open Scope R_scope.

Definition velocity (d : deck) (n : string) : R := number d "coordinates" n 0.

(** The system with the parameters the deck gives, or the defaults *)
Definition asked (g : geometry) (d : deck) : System :=
  match g with
  | gMinkowski => Minkowski
  | gSphericalMinkowski => SphericalMinkowski
  | gBoostedMinkowski => BoostedMinkowski (velocity d "vx") (velocity d "vy") (velocity d "vz")
  | gFLRW => FLRW (number d "coordinates" "a0" 1) (number d "coordinates" "dadt" 1)
  | gSnake => Snake (number d "geometry" "a" (3 / 10)) (number d "geometry" "k" (2 * PI) * number d "geometry" "kmult" 1)
                (number d "geometry" "alpha" 1) (number d "geometry" "vy" 0)
  | gInchworm => Inchworm (number d "geometry" "a" (3 / 10)) (number d "geometry" "k" (PI / 2))
  | gSphericalKS => SphericalKerrSchild (number d "geometry" "a" 0)
  end.

(** What the start-up refuses *)
Definition admitted (g : geometry) (d : deck) : Prop :=
  match g with
  | gBoostedMinkowski => forall n, In n ("vx" :: "vy" :: "vz" :: nil) -> -1 < velocity d n < 1
  | gFLRW => 0 < number d "coordinates" "a0" 1
  | _ => True
  end.

(** The entries each geometry reads *)
Definition geometry_entries (g : geometry) : list (key * ty) :=
  match g with
  | gMinkowski | gSphericalMinkowski => nil
  | gBoostedMinkowski => map (fun n => (("coordinates", n), TReal)) ("vx" :: "vy" :: "vz" :: nil)
  | gFLRW => map (fun n => (("coordinates", n), TReal)) ("a0" :: "dadt" :: nil)
  | gSnake => map (fun n => (("geometry", n), TReal)) ("a" :: "alpha" :: "vy" :: "k" :: "kmult" :: nil)
  | gInchworm => map (fun n => (("geometry", n), TReal)) ("a" :: "k" :: nil)
  | gSphericalKS => (("geometry", "a"), TReal) :: nil
  end.

(** Points of the chart: times of a run that starts at zero, away from the origin and the axis *)
Definition in_chart (g : geometry) (X : point) : Prop :=
  match g with
  | gSphericalMinkowski | gSphericalKS => X.[1] <> 0 /\ sin X.[2] <> 0
  | gFLRW => 0 <= X.[0]
  | _ => True
  end.

(** The decks that give a spacetime at every point of the chart *)
Definition regular (g : geometry) (d : deck) : Prop :=
  match g with
  | gFLRW => 0 <= number d "coordinates" "dadt" 1
  | gSnake => 0 < number d "geometry" "alpha" 1
  | gInchworm => Rabs (number d "geometry" "a" (3 / 10) * number d "geometry" "k" (PI / 2)) < 1
  | _ => True
  end.

(** a fluid element that stays in its zone moves slower than light *)
Definition rest_timelike (S : System) (X : point) : Prop := SpacetimeMetric S X 0%nat 0%nat < 0.
