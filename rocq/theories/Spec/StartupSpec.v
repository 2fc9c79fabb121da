(** C68: the problems of the code and the metrics they are set up for. *)
From Coq Require Import String List Bool.
From Verif.Model Require Import Config Startup.
From Verif.Spec Require Import ConfigSpec.
Import ListNotations.
Local Open Scope string_scope.

Definition flat_metrics := [Minkowski; BoostedMinkowski; Snake; Inchworm].
Definition monopole_metrics := [MonopoleSph; MonopoleCart].
Definition all_metrics := [Minkowski; BoostedMinkowski; SphericalMinkowski; BoyerLindquist; SphericalKerrSchild; FLRW; FMKS; Snake; Inchworm; MonopoleSph; MonopoleCart].
(** problem, metrics it is set up for *)
Definition problem_table : list (string * list Metric) :=
  [ ("advection", [Minkowski]); ("blandford_mckee", [SphericalMinkowski]); ("bondi", [FMKS]); ("check_cached_geom", all_metrics);
    ("friedmann", [FLRW]); ("homogeneous_sphere", [Minkowski; SphericalMinkowski]); ("homologous", monopole_metrics);
    ("kelvin_helmholtz", [Minkowski]); ("leptoneq", all_metrics); ("linear_modes", flat_metrics); ("p2c2p", all_metrics);
    ("radiation_advection", [Minkowski]); ("radiation_equilibration", [Minkowski]); ("rhs_tester", all_metrics); ("rotor", [Minkowski; Snake]);
    ("sedov", [Minkowski; SphericalMinkowski]); ("shock_tube", [Minkowski; SphericalMinkowski]); ("thin_cooling", all_metrics);
    ("torus", [FMKS]); ("tov", monopole_metrics) ].
Definition set_up_for (name : string) (m : Metric) : Prop := exists l, In (name, l) problem_table /\ In m l.

(** switches of the deck *)
Definition wants_tov (d : deck) := flag d "tov" "enabled" false.
Definition wants_monopole (d : deck) := flag d "monopole_gr" "enabled" false.
Definition wants_progenitor (d : deck) := flag d "progenitor" "enabled" false.
(** gravity is consistent: the monopole solver runs exactly with a monopole metric, and only for a star whose matter it is given *)
Definition gravity_consistent (d : deck) (m : Metric) : Prop :=
  (wants_monopole d = true <-> In m monopole_metrics) /\
  (wants_tov d = true -> wants_monopole d = true) /\
  (wants_monopole d = true -> wants_tov d = true \/ wants_progenitor d = true).
Definition startup_entries : list (key * ty) :=
  [ (("tov", "enabled"), TBool); (("monopole_gr", "enabled"), TBool); (("progenitor", "enabled"), TBool) ].
