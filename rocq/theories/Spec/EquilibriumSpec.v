(** Matter and radiation exchanging energy in a zone at rest. *)
From Coq Require Import Reals List.
From Verif.Spec Require Import RadExchange.
Import ListNotations.
Local Open Scope R_scope.

(** what the matter needs to know about a species: its absorption coefficient and its
    thermal energy density at a given temperature *)
Record Thermal := { th_abs : R -> R; th_J : R -> R }.
(** temperature of the matter and energy density of each species *)
Record HeatState := { hs_T : R; hs_J : nat -> R }.

(** one implicit step over the proper time dtau, for n species and matter of energy density
    eu T: each species relaxes towards the thermal value at the NEW temperature, with an
    absorption coefficient capped at amax, and matter plus radiation keep their energy *)
Definition exchange_step (n : nat) (sp : nat -> Thermal) (eu : R -> R) (amax dtau : R) (a b : HeatState) : Prop :=
  (forall s, (s < n)%nat ->
     relaxed dtau (Rmin (th_abs (sp s) (hs_T b)) amax) (th_J (sp s) (hs_T b)) (hs_J a s) (hs_J b s)) /\
  total n (eu (hs_T b)) (hs_J b) = total n (eu (hs_T a)) (hs_J a).
(** any number of steps of any lengths, at positive temperatures; the list holds the product
    dtau * (capped absorption of species 0) of each step, latest first *)
Inductive exchange_history (n : nat) (sp : nat -> Thermal) (eu : R -> R) (amax : R) (a : HeatState) : list R -> HeatState -> Prop :=
| history_start : 0 < hs_T a -> exchange_history n sp eu amax a [] a
| history_step ds b dtau c : exchange_history n sp eu amax a ds b -> 0 <= dtau -> 0 < hs_T c ->
    exchange_step n sp eu amax dtau b c ->
    exchange_history n sp eu amax a (dtau * Rmin (th_abs (sp 0%nat) (hs_T c)) amax :: ds) c.

(** ordinary matter and radiation: hotter means more energy, and absorption is not negative *)
Record ordinary (n : nat) (sp : nat -> Thermal) (eu : R -> R) (amax : R) : Prop := {
  ord_eu : forall T T', 0 < T -> T < T' -> eu T < eu T';
  ord_J : forall s T T', (s < n)%nat -> 0 < T -> T <= T' -> th_J (sp s) T <= th_J (sp s) T';
  ord_abs : forall s T, (s < n)%nat -> 0 < T -> 0 <= th_abs (sp s) T;
  ord_max : 0 <= amax }.
(** the state lies between two thermal equilibria *)
Definition between (n : nat) (sp : nat -> Thermal) (lo hi : R) (a : HeatState) : Prop :=
  lo <= hs_T a <= hi /\ forall s, (s < n)%nat -> th_J (sp s) lo <= hs_J a s <= th_J (sp s) hi.
