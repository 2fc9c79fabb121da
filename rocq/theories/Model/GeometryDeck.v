(** Start-up of the analytic geometries: which coordinate system an input deck gives
    (src/geometry/*.cpp, the Initialize and GetCoordinateSystem specialisations).  The geometry is
    picked at compile time (GEOMETRY_NAME): here it is the argument [g].  Cached geometries call the
    same routines (cached_system.hpp:473-478).  The per-block and the per-mesh
    GetCoordinateSystem read the same parameters and are one definition. *)
From Coq Require Import Reals String ZArith List Bool.
From Flocq Require Import Core.
From Verif.Model Require Import Config Geometry.
Local Open Scope string_scope.
Local Open Scope R_scope.
Local Open Scope prog_scope.

Inductive geometry := gMinkowski | gSphericalMinkowski | gBoostedMinkowski | gFLRW | gSnake | gInchworm | gSphericalKS.

(** boosted_minkowski.cpp:33-46, 54-72 *)
Definition boosted_Initialize : prog System :=
  vx <- GetOrAddReal "coordinates" "vx" 0 ;;
  vy <- GetOrAddReal "coordinates" "vy" 0 ;;
  vz <- GetOrAddReal "coordinates" "vz" 0 ;;
  _ <- Require (Rlt_bool (-1) vx && Rlt_bool vx 1) ;;
  _ <- Require (Rlt_bool (-1) vy && Rlt_bool vy 1) ;;
  _ <- Require (Rlt_bool (-1) vz && Rlt_bool vz 1) ;;
  Ret (BoostedMinkowski vx vy vz).

(** flrw.cpp:32-49, 56-74.  The parameter "time" is the 0 component of the point at which the
    system is asked (Driver.geometry_time). *)
Definition flrw_Initialize : prog System :=
  a0 <- GetOrAddReal "coordinates" "a0" 1 ;;
  _ <- Require (Rlt_bool 0 a0) ;;
  dadt <- GetOrAddReal "coordinates" "dadt" 1 ;;
  Ret (FLRW a0 dadt).

(** snake.cpp:34-47, 55-74 *)
Definition snake_Initialize : prog System :=
  a <- GetOrAddReal "geometry" "a" (3 / 10) ;;
  alpha <- GetOrAddReal "geometry" "alpha" 1 ;;
  vy <- GetOrAddReal "geometry" "vy" 0 ;;
  k <- GetOrAddReal "geometry" "k" (2 * PI) ;;
  kmult <- GetOrAddReal "geometry" "kmult" 1 ;;
  Ret (Snake a (k * kmult) alpha vy).

(** inchworm.cpp:34-41, 49-64 *)
Definition inchworm_Initialize : prog System :=
  a <- GetOrAddReal "geometry" "a" (3 / 10) ;;
  k <- GetOrAddReal "geometry" "k" (PI / 2) ;;
  Ret (Inchworm a k).

(** spherical_kerr_schild.cpp:34-39, 47-59 *)
Definition sks_Initialize : prog System :=
  a <- GetOrAddReal "geometry" "a" 0 ;;
  Ret (SphericalKerrSchild a).

(** geometry.cpp:38-41; minkowski.cpp and spherical_minkowski.cpp read nothing
    (geometry_defaults.hpp:31-32) *)
Definition geometry_Initialize (g : geometry) : prog System :=
  match g with
  | gMinkowski => Ret Minkowski
  | gSphericalMinkowski => Ret SphericalMinkowski
  | gBoostedMinkowski => boosted_Initialize
  | gFLRW => flrw_Initialize
  | gSnake => snake_Initialize
  | gInchworm => inchworm_Initialize
  | gSphericalKS => sks_Initialize
  end.
