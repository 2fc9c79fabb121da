(** The specification of GeomSpec applied to the queries of one coordinate system. *)
From Coq Require Import Reals Arith.
From Coquelicot Require Import Coquelicot.
From Verif.Spec Require Import Tensor GeomSpec.
From Verif.Model Require Import Geometry.
Local Open Scope R_scope.

Definition consistent_at (S : System) (X : point) : Prop :=
  adm_consistent (Lapse S X) (ContravariantShift S X)
    (SpacetimeMetric S X) (SpacetimeMetricInverse S X)
    (Metric S X) (MetricInverse S X) (DetGamma S X) (DetG S X).

(** MetricDerivative and GradLnAlpha are the true derivatives at X *)
Definition derivatives_at (S : System) (X : point) : Prop :=
  is_metric_derivative (SpacetimeMetric S) X (MetricDerivative S X) /\
  is_gradient (fun Y => ln (Lapse S Y)) X (GradLnAlpha S X).

(** ConnectionCoefficient are the Christoffel symbols (first kind) of the metric *)
Definition connection_at (S : System) (X : point) : Prop :=
  is_christoffel1 (SpacetimeMetric S) X (ConnectionCoefficient S X) /\
  torsion_free (ConnectionCoefficient S X) /\
  metric_compatible (SpacetimeMetric S) X (ConnectionCoefficient S X).

(** Coords maps the chart to Cartesian coordinates of flat spacetime *)
Definition flat_at (S : System) (X : point) : Prop :=
  is_pullback_of_flat (SpacetimeMetric S) (Coords S) X.
