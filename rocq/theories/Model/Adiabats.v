(** Model of src/phoebus_utils/adiabats.hpp and of the stellar-collapse branch of
    src/pgen/torus.cpp.

    Simplifications.  Arithmetic is exact.  The equation of state is three functions of density
    and temperature at the fixed electron fraction: specific entropy, pressure and specific
    internal energy.  std::numeric_limits<Real>::epsilon() is 2^-52.  None = PARTHENON_FAIL. *)
From Coq Require Import Reals ZArith List.
From Flocq Require Import Core.
From Verif.Model Require Import Num RootFind MonopoleGR DataBox.
Local Open Scope R_scope.

Definition epsilon : R := / 2 ^ 52.
Definition log10 (x : R) : R := ln x / ln 10.
Definition pow10 (x : R) : R := Rpower 10 x.

(** root_find.hpp:23: a fresh RootFind allows INT_MAX iterations *)
Definition fresh : RootFind := new_RootFind 2147483647.

Section EOS.
Variables (entropy press sie : R -> R -> R).

(** adiabats.hpp:51-55, 62-66: the density found, or the fallback *)
Definition rho_search (T S0 rho_min rho_max guess fallback : R) : option R :=
  match regula_falsi (fun rho => entropy rho T - S0) fresh rho_min rho_max (epsilon * guess) guess true with
  | Returned x (Some success) _ _ => Some x
  | Returned _ _ _ _ => Some fallback
  | _ => None
  end.
(** adiabats.hpp:33-70 *)
Definition GetRhoBounds (rho_min rho_max T_min T_max S0 : R) : option (R * R) :=
  match rho_search T_min S0 rho_min rho_max (11 / 10 * rho_min) rho_min with
  | Some r1 =>
      let l1 := log10 r1 in
      let lrho_min := l1 + / 100 * Rabs l1 in
      match rho_search T_max S0 rho_min rho_max (1 / 10 * rho_max) rho_max with
      | Some r2 =>
          let l2 := log10 r2 in
          Some (lrho_min, l2 - / 100 * (l2 - lrho_min))
      | None => None
      end
  | None => None
  end.

(** adiabats.hpp:73-80 *)
Definition SampleRho (lrho_min lrho_max : R) (n : nat) (i : nat) : R :=
  let dlrho := (lrho_max - lrho_min) / INR n in lrho_min + INR i * dlrho.

(** adiabats.hpp:90-105, entry i *)
Definition ComputeAdiabat (lrho : nat -> R) (S0 T_min T_max : R) (i : nat) : option R :=
  let rho := pow10 (lrho i) in
  let guess := (T_max - T_min) / 2 in
  match regula_falsi (fun T => entropy rho T - S0) fresh T_min T_max (epsilon * guess) guess false with
  | Returned x _ _ _ => Some x
  | _ => None
  end.
(** adiabats.hpp:90-105: all entries; the first failure ends the run *)
Fixpoint ComputeAdiabats (lrho : nat -> R) (S0 T_min T_max : R) (n : nat) : option (nat -> R) :=
  match n with
  | O => Some (fun _ => 0)
  | S n =>
      match ComputeAdiabats lrho S0 T_min T_max n with
      | Some t => match ComputeAdiabat lrho S0 T_min T_max n with Some x => Some (upd t n x) | None => None end
      | None => None
      end
  end.

(** adiabats.hpp:121-125; torus.cpp:100-107 *)
Definition enthalpy_sc (rho T : R) : R := 1 + sie rho T + press rho T / rho.
(** adiabats.hpp:111-132; G is the grid laid over temp *)
Fixpoint MinEnthalpy (G : Grid) (lrho temp : nat -> R) (n : nat) : R :=
  match n with
  | O => 10 ^ 30
  | S n =>
      let m := MinEnthalpy G lrho temp n in
      let h := enthalpy_sc (pow10 (lrho n)) (interpToReal G temp (lrho n)) in
      if Rlt_bool h m then h else m
  end.

(** torus.cpp:88-91, 100-107 EnthalpyResidual *)
Definition enthalpy_residual (G : Grid) (temp : nat -> R) (hm1 h_min rho : R) : R :=
  hm1 - enthalpy_sc rho (interpToReal G temp (log10 rho)) + h_min.
(** torus.cpp:807-823 GetStateFromEnthalpy, StellarCollapse: density and energy *)
Definition StateFromEnthalpy (G : Grid) (lrho temp : nat -> R) (hm1 h_min : R) : option (R * R) :=
  let N := (g_n G - 1)%nat in
  let rho_min := pow10 (lrho O) in
  let rho_max := pow10 (lrho N) in
  let guess := / 2 * (rho_max - rho_min) in
  match regula_falsi (enthalpy_residual G temp hm1 h_min) fresh rho_min rho_max (epsilon * guess) guess false with
  | Returned rho _ _ _ => Some (rho, sie rho (interpToReal G temp (log10 rho)) * rho)
  | _ => None
  end.

(** torus.cpp:263-273: the table of the problem generator: bounds, grid, samples, temperatures
    and smallest enthalpy *)
Record AdiabatTable := { at_lo : R; at_hi : R; at_grid : Grid; at_lrho : nat -> R; at_temp : nat -> R; at_hmin : R }.
Definition torus_table (rho_min rho_max T_min T_max S0 : R) (n : nat) : option AdiabatTable :=
  match GetRhoBounds rho_min rho_max T_min T_max S0 with
  | Some (lo, hi) =>
      let G := setRange lo hi n in
      let lrho := SampleRho lo hi n in
      match ComputeAdiabats lrho S0 T_min T_max n with
      | Some temp => Some {| at_lo := lo; at_hi := hi; at_grid := G; at_lrho := lrho; at_temp := temp; at_hmin := MinEnthalpy G lrho temp n |}
      | None => None
      end
  | None => None
  end.
End EOS.
