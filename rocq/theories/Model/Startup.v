(** Start of a run: main (src/main.cpp:34-75), ProcessPackages (src/phoebus_driver.cpp:802-858),
    ProblemModifier, ProblemGenerator and PostInitializationModifier (src/pgen/pgen.cpp:22-56,
    src/pgen/pgen.hpp:31-116) and the metric and package requirements at the head of each problem
    generator.  Not modelled: what the generators and modifiers do, their other requirements
    (numbers, equation of state), and the other packages (C58, C63, C67). *)
From Coq Require Import Reals String List Bool.
From Verif.Model Require Import Num Config.
Import ListNotations.
Local Open Scope string_scope.
Local Open Scope prog_scope.

(** cmake/Geometry.cmake:20-32: the metric of an executable, PHOEBUS_GEOMETRY *)
Inductive Metric := Minkowski | BoostedMinkowski | SphericalMinkowski | BoyerLindquist | SphericalKerrSchild
  | FLRW | FMKS | Snake | Inchworm | MonopoleSph | MonopoleCart.
Definition metric_eqb (a b : Metric) : bool :=
  match a, b with
  | Minkowski, Minkowski | BoostedMinkowski, BoostedMinkowski | SphericalMinkowski, SphericalMinkowski
  | BoyerLindquist, BoyerLindquist | SphericalKerrSchild, SphericalKerrSchild | FLRW, FLRW | FMKS, FMKS | Snake, Snake
  | Inchworm, Inchworm | MonopoleSph, MonopoleSph | MonopoleCart, MonopoleCart => true
  | _, _ => false end.
Definition is_one (m : Metric) (l : list Metric) : bool := existsb (metric_eqb m) l.

(** pgen.hpp:31-52, 55-58, 62-65 *)
Definition pgen_names : list string :=
  ["phoebus"; "advection"; "check_cached_geom"; "shock_tube"; "friedmann"; "linear_modes"; "thin_cooling"; "leptoneq";
   "kelvin_helmholtz"; "rhs_tester"; "sedov"; "blandford_mckee"; "bondi"; "radiation_advection"; "radiation_equilibration";
   "rotor"; "homogeneous_sphere"; "torus"; "p2c2p"; "tov"; "homologous"].
Definition pmod_names : list string := ["phoebus"; "torus"; "radiation_advection"].
Definition pinitmod_names : list string := ["phoebus"; "advection"; "torus"].
Definition count_name (name : string) (l : list string) : bool := existsb (String.eqb name) l.

(** the requirement on the metric: advection.cpp:23, blandford_mckee.cpp:27, bondi.cpp:88,
    check_cached_geom.cpp:44 ([cached]: PHOEBUS_CACHE_GEOMETRY), friedmann.cpp:34, homogeneous_sphere.cpp:23, kh.cpp:23,
    linear_modes.cpp:39, progenitor.cpp:37, radiation_advection.cpp:24, radiation_equilibration.cpp:27,
    rotor.cpp:29, sedov.cpp:26, shock_tube.cpp:30, torus.cpp:132, tov.cpp:51; the others have none *)
Definition pgen_metric (cached : bool) (name : string) (m : Metric) : bool :=
  if String.eqb name "advection" then is_one m [Minkowski]
  else if String.eqb name "blandford_mckee" then is_one m [SphericalMinkowski]
  else if String.eqb name "bondi" then is_one m [FMKS]
  else if String.eqb name "check_cached_geom" then cached
  else if String.eqb name "friedmann" then is_one m [FLRW]
  else if String.eqb name "homogeneous_sphere" then is_one m [SphericalMinkowski; Minkowski]
  else if String.eqb name "kelvin_helmholtz" then is_one m [Minkowski]
  else if String.eqb name "linear_modes" then is_one m [Minkowski; BoostedMinkowski; Snake; Inchworm]
  else if String.eqb name "homologous" then is_one m [MonopoleCart; MonopoleSph]
  else if String.eqb name "radiation_advection" then is_one m [Minkowski]
  else if String.eqb name "radiation_equilibration" then is_one m [Minkowski]
  else if String.eqb name "rotor" then is_one m [Minkowski; Snake]
  else if String.eqb name "sedov" then is_one m [Minkowski; SphericalMinkowski]
  else if String.eqb name "shock_tube" then is_one m [Minkowski; SphericalMinkowski]
  else if String.eqb name "torus" then is_one m [FMKS]
  else if String.eqb name "tov" then is_one m [MonopoleCart; MonopoleSph]
  else true.
(** the requirement on packages: tov.cpp:48; progenitor.cpp:70-75 reads parameters that the progenitor package has only when
    enabled (Params::Get of a missing parameter throws) *)
Definition pgen_packages (name : string) (enable_tov enable_monopole enable_progenitor : bool) : bool :=
  if String.eqb name "tov" then enable_tov && enable_monopole
  else if String.eqb name "homologous" then enable_progenitor else true.

(** phoebus_driver.cpp:811-843 with monopole_gr.cpp:54, tov.cpp:47-56, progenitordata.cpp:19 *)
Definition process_packages (m : Metric) : prog (bool * bool * bool) :=
  enable_monopole <- GetOrAddBoolean "monopole_gr" "enabled" false ;;
  enable_tov <- GetOrAddBoolean "tov" "enabled" false ;;
  _ <- (if enable_tov then
          do_monopole_gr <- GetOrAddBoolean "monopole_gr" "enabled" false ;; Require do_monopole_gr
        else Ret tt) ;;
  enable_progenitor <- GetOrAddBoolean "progenitor" "enabled" false ;;
  let is_monopole_cart := metric_eqb m MonopoleCart in
  let is_monopole_sph := metric_eqb m MonopoleSph in
  _ <- Require (negb (enable_tov && negb enable_monopole)) ;;
  _ <- Require (negb (enable_monopole && negb (enable_tov || enable_progenitor))) ;;
  _ <- Require (negb ((enable_monopole && negb (is_monopole_cart || is_monopole_sph)) ||
                      ((is_monopole_cart || is_monopole_sph) && negb enable_monopole))) ;;
  Ret (enable_tov, enable_monopole, enable_progenitor).

(** which problem-specific code runs *)
Record Started := mkStarted { s_modifier : option string; s_generator : option string; s_postinit : option string }.
(** pgen.cpp:39-47 *)
Definition ProblemModifier : prog (option string) :=
  name <- GetString "phoebus" "problem" ;;
  if String.eqb name "phoebus" || negb (count_name name pmod_names) then Ret None else Ret (Some name).
(** pgen.cpp:22-37 *)
Definition ProblemGenerator (cached : bool) (m : Metric) (t mo p : bool) : prog (option string) :=
  name <- GetString "phoebus" "problem" ;;
  _ <- Require (negb (String.eqb name "phoebus" || negb (count_name name pgen_names))) ;;
  _ <- Require (pgen_metric cached name m) ;;
  _ <- Require (pgen_packages name t mo p) ;;
  Ret (Some name).
(** pgen.cpp:49-57 *)
Definition PostInitializationModifier : prog (option string) :=
  name <- GetString "phoebus" "problem" ;;
  if String.eqb name "phoebus" || negb (count_name name pinitmod_names) then Ret None else Ret (Some name).
(** main.cpp:57-73; Parthenon does not call the problem generator on a restart *)
Definition main_startup (cached : bool) (m : Metric) (restart : bool) : prog Started :=
  md <- ProblemModifier ;;
  pk <- process_packages m ;;
  let '(t, mo, p) := pk in
  if restart then Ret (mkStarted md None None)
  else
    g <- ProblemGenerator cached m t mo p ;;
    q <- PostInitializationModifier ;;
    Ret (mkStarted md g q).
