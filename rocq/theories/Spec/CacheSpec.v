(** What "transparent cache" means for C14. *)
From Coq Require Import Reals ZArith Arith List.
From Coquelicot Require Import Coquelicot.
From Verif.Spec Require Import Tensor GeomSpec.
From Verif.Model Require Import Geometry Cached.
Local Open Scope R_scope.

(** the variables that exist: cell centres and the three kinds of faces *)
Definition real_var (v : Var) : Prop :=
  match v with
  | v_alpha l | v_bcon l | v_gcov l | v_gamcon l | v_detgam l => l <> Corn
  | _ => True
  end.
(** the pack gives different components different slots *)
Definition layout_ok (first : Var -> nat) (nd : nat) : Prop :=
  forall v v' c c', real_var v -> real_var v' -> (c < var_size nd v)%nat -> (c' < var_size nd v')%nat ->
    (first v + c = first v' + c')%nat -> v = v' /\ c = c'.

(** the point (block, k, j, i) at a location is part of the block: all cells, and one
    more face than cells in the face's own direction *)
Definition on_grid (B : Bounds) (loc : CellLocation) (b k j i : Z) : Prop :=
  (0 <= b < nb B)%Z /\
  (is_ B <= i <= ie B + match loc with Face1 | Corn => 1 | _ => 0 end)%Z /\
  (js B <= j <= je B + match loc with Face2 | Corn => 1 | _ => 0 end)%Z /\
  (ks B <= k <= ke B + match loc with Face3 | Corn => 1 | _ => 0 end)%Z.

(** the system does not depend on the third coordinate *)
Definition axisymmetric_system (S : System) : Prop :=
  forall X Y, X 0%nat = Y 0%nat -> X 1%nat = Y 1%nat -> X 2%nat = Y 2%nat ->
    Lapse S X = Lapse S Y /\ ContravariantShift S X = ContravariantShift S Y /\
    SpacetimeMetric S X = SpacetimeMetric S Y /\
    MetricInverse S X = MetricInverse S Y /\ DetGamma S X = DetGamma S Y /\
    MetricDerivative S X = MetricDerivative S Y /\ GradLnAlpha S X = GradLnAlpha S Y.

Definition eq_vec (n : nat) (u v : vec) : Prop := forall i, (i < n)%nat -> u i = v i.
Definition eq_mat (n : nat) (A B : mat) : Prop :=
  forall i j, (i < n)%nat -> (j < n)%nat -> A i j = B i j.
Definition eq_ten (A B : tensor3) : Prop :=
  forall i j k, (i < 4)%nat -> (j < 4)%nat -> (k < 4)%nat -> A i j k = B i j k.

(** time derivatives of the metric and the lapse vanish *)
Definition static_at (S : System) (X : point) : Prop :=
  (forall mu nu, (mu < 4)%nat -> (nu < 4)%nat -> is_partial (fun Y => SpacetimeMetric S Y mu nu) 0%nat X 0) /\
  is_partial (fun Y => ln (Lapse S Y)) 0%nat X 0.

(** the coordinates of a block are those of a uniform grid: faces are one width apart *)
Definition uniform_faces (c : BlockCoords) : Prop :=
  forall d n, (1 <= d <= 3)%nat -> Xf c d (n + 1)%Z = Xf c d n + CellWidthFA c d /\ 0 < CellWidthFA c d.
