(** Model of src/radiation/moments.cpp:926-1001 (MomentCalculateOpacities): the opacities and the
    thermal energy density the moment method keeps in every zone.

    Simplifications: one block (the loop over blocks is outermost, and blocks do not share
    arrays); the opacity object (opac_phoebus.hpp:75-125) is a record of functions of density,
    temperature, electron fraction and species; Model/Opacity.v says how it is put together.
    The positions of the pack follow the list of names (Parthenon's PackVariables): a name that is
    not a registered variable has position -1 and takes no room; every fluid and every radiation
    variable of the list takes the room its number of components says. *)
From Coq Require Import Reals ZArith List String.
From Verif.Model Require Import ParFor.
Import ListNotations.
Local Open Scope R_scope.

(** the arrays; [aRest] is any other array *)
Inductive Array := aRho | aTemp | aYe | aKappaJ (s : nat) | aKappaH (s : nat) | aJBB (s : nat) | aRest (n : nat).
Definition Store := Array * Cell -> R.
Definition put (m : Store) (a : Array) (c : Cell) (x : R) (same : forall p q : Array * Cell, {p = q} + {p <> q}) : Store :=
  fun l => if same l (a, c) then x else m l.
Lemma Loc_dec : forall p q : Array * Cell, {p = q} + {p <> q}.
Proof. repeat decide equality. Defined.

(** opac_phoebus.hpp:57-125 *)
Record OpacityTable := {
  RosselandMeanAbsorptionCoefficient : R -> R -> R -> nat -> R;
  RosselandMeanScatteringCoefficient : R -> R -> R -> nat -> R;
  EnergyDensityFromTemperature : R -> nat -> R }.

(** PackVariables, imap[name].first: the names in order with their number of components, those
    that are registered *)
Fixpoint first_index (registered : string -> option Z) (names : list string) (name : string) (at_ : Z) : Z :=
  match names with
  | [] => (-1)%Z
  | n :: r =>
    match registered n with
    | Some comps => if String.eqb n name then at_ else first_index registered r name (at_ + comps)
    | None => first_index registered r name at_
    end
  end.
(** moments.cpp:943-945 (the fluid names come first) *)
Definition opacity_pack : list string :=
  ["p.density"; "p.temperature"; "p.ye"; "p.velocity"; "r.i.kappaJ"; "r.i.kappaH"; "r.i.JBB"]%string.

(** moments.cpp:980-996, one species of one zone *)
Definition one_species (o : OpacityTable) (pYe : Z) (c : Cell) (ispec : nat) (m : Store) : Store :=
  let rho := m (aRho, c) in
  let Temp := m (aTemp, c) in
  let Ye := if (0 <? pYe)%Z then m (aYe, c) else 1 / 2 in
  let kappaJ := RosselandMeanAbsorptionCoefficient o rho Temp Ye ispec in
  let kappaH := kappaJ + RosselandMeanScatteringCoefficient o rho Temp Ye ispec in
  let JBB := EnergyDensityFromTemperature o Temp ispec in
  put (put (put m (aJBB ispec) c JBB Loc_dec) (aKappaJ ispec) c kappaJ Loc_dec) (aKappaH ispec) c kappaH Loc_dec.
(** line 980: for (ispec = 0; ispec < nspec; ++ispec) *)
Definition one_zone (o : OpacityTable) (pYe : Z) (nspec : nat) (c : Cell) (m : Store) : Store :=
  fold_left (fun m s => one_species o pYe c s m) (seq 0 nspec) m.
(** lines 926-1001; [zones] is the order in which the loop over the entire block runs *)
Definition MomentCalculateOpacities (mocmc : bool) (registered : string -> option Z) (o : OpacityTable) (nspec : nat) (zones : list Cell) (m : Store) : Store :=
  if mocmc then m
  else par_for zones (one_zone o (first_index registered opacity_pack "p.ye" 0) nspec) m.
