(** src/radiation/radiation.cpp:585-650: the time step radiation asks for, over the reals. *)
From Coq Require Import Reals List.
From Verif.Model Require Import Num Robust Geometry RadTransport.
From Verif.Spec Require Import Tensor.
Import ListNotations.
Local Open Scope R_scope.

(** What the kernel reads in one zone: lapse, shift, spatial metric and inverse, the stored
    primitive velocity, kappaH of every species, zone widths *)
Record RZone := mkRZone { z_alpha : R; z_beta : vec; z_gamma : mat; z_ginv : mat; z_vp : vec; z_kappaH : nat -> R; z_width : vec }.
(** 627-628: kappaH is taken to be 0 when the field does not exist (cooling function, Monte Carlo) *)
Definition zone_kappa (has_kappa : bool) (z : RZone) (s : nat) : R := if has_kappa then z_kappaH z s else 0.
(** 630-642 (std::pow(x, 1) = x); [mixing] is the tanh of 641 *)
Definition zone_csig (has_kappa : bool) (z : RZone) (s d : nat) : R :=
  let sigp := z_alpha z * sqrt (z_ginv z d d) - z_beta z d in
  let sigm := - z_alpha z * sqrt (z_ginv z d d) - z_beta z d in
  let asym_sigl := z_alpha z * z_vp z d - z_beta z d in
  let rad_speed := Rmax (Rabs sigm) (Rabs sigp) in
  let asym_speed := Rabs asym_sigl in
  let dx := z_width z d * sqrt (z_gamma z d d) in
  let a := mixing (zone_kappa has_kappa z s) dx in
  a * rad_speed + (1 - a) * asym_speed.
(** 625-646: the loop over species and directions in one zone *)
Definition zone_min (has_kappa : bool) (nspec ndim : nat) (lmin : R) (z : RZone) : R :=
  fold_left (fun l s => fold_left (fun l d => Rmin l (1 / (zone_csig has_kappa z s d / z_width z d))) (seq 0 ndim) l) (seq 0 nspec) lmin.
(** 612-650: the reduction starts at [big], the largest double (Kokkos::Min) *)
Definition RadEstimateTimestep (has_kappa : bool) (nspec ndim : nat) (big cfl : R) (zones : list RZone) : R :=
  cfl * fold_left (zone_min has_kappa nspec ndim) zones big.
