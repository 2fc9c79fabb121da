(** One-dimensional interpolation tables: Spiner::DataBox of rank 1.

    Spiner is not in the repository.  Its documented behaviour is modelled: setRange(0, lo, hi, n)
    lays a RegularGrid1D of n points from lo to hi inclusive over the entries, and interpToReal(x)
    is linear interpolation in the grid cell of x (linear extrapolation beyond the ends).
    Arithmetic is exact; one dimension is a function of a natural-number index. *)
From Coq Require Import Reals ZArith.
From Verif.Model Require Import MonopoleGR.
Local Open Scope R_scope.

(** DataBox::setRange *)
Definition setRange (lo hi : R) (n : nat) : Grid := {| g_min := lo; g_dx := (hi - lo) / INR (n - 1); g_n := n |}.
(** DataBox::interpToReal *)
Definition interpToReal (G : Grid) (d : nat -> R) (x : R) : R :=
  let ix := grid_index G x in
  let w := (x - grid_x G ix) / g_dx G in
  (1 - w) * d ix + w * d (S ix).
