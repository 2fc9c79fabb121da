(** src/geometry/cached_system.hpp: a coordinate system stored on the grid, with the
    memory of the variable pack made explicit.

    A store is one assignment pack(b, slot, k, j, i) = value.  The set-up routine is a
    sequence of parallel loops; inside one loop the stores of different iterations may
    happen in any order, so one execution is the concatenation of one permutation per
    loop.  Parthenon's pack gives every requested variable a contiguous range of slots;
    [first v] is the first slot of v (PackIndexMap), an arbitrary function here.
    Real arithmetic is exact; int is Z (b, k, j, i) or nat (slots, components).  Not
    modelled: that each variable has its own extents (an index out of the extents of the
    field is a memory error in the code), and device memory. *)
From Coq Require Import Reals ZArith Arith List Permutation Bool.
From Verif.Spec Require Import Tensor.
From Verif.Model Require Import Num Robust LinearAlgebra Geometry Interpolation.
Import ListNotations.
Local Open Scope R_scope.

(** cell_locations.hpp:20-21 *)
Inductive CellLocation := Cent | Face1 | Face2 | Face3 | Corn.

(** Parthenon's Coordinates_t of one block: Xc<d>(i), Xf<d>(i), CellWidthFA(d) *)
Record BlockCoords := { Xc : nat -> Z -> R; Xf : nat -> Z -> R; CellWidthFA : nat -> R }.

(** analytic_system.hpp:66-93 and 113-140 GetX, with X0_ = 0 (analytic_system.hpp:300) *)
Definition GetX (co : Z -> BlockCoords) (loc : CellLocation) (b k j i : Z) : point :=
  let X1 := Xc (co b) 1 i in let X2 := Xc (co b) 2 j in let X3 := Xc (co b) 3 k in
  match loc with
  | Cent => row4 0 X1 X2 X3
  | Face1 => row4 0 (Xf (co b) 1 i) X2 X3
  | Face2 => row4 0 X1 (Xf (co b) 2 j) X3
  | Face3 => row4 0 X1 X2 (Xf (co b) 3 k)
  | Corn => row4 0 (Xf (co b) 1 i) (Xf (co b) 2 j) (Xf (co b) 3 k)
  end.

(** geometry_utils.hpp:205-211 *)
Definition Flatten2 (m n : nat) : nat :=
  (nth n (nth m [[0; 1; 3; 6]; [1; 2; 4; 7]; [3; 4; 5; 8]; [6; 7; 8; 9]] []) 0)%nat.
(** geometry_utils.hpp:212-215 *)
Definition SymSize (size : nat) : nat := (size * size - (size * (size - 1)) / 2)%nat.

(** cached_system.hpp:47-57 the cached variables *)
Inductive Var :=
| v_alpha (loc : CellLocation) | v_bcon (loc : CellLocation) | v_gcov (loc : CellLocation)
| v_gamcon (loc : CellLocation) | v_detgam (loc : CellLocation)
| v_dalpha | v_dg | v_coord_c | v_coord_n.
(** cached_system.hpp:531-534 var_sizes, cent_only_sizes; geometry_utils.hpp:230-233 *)
Definition var_size (nvar_deriv : nat) (v : Var) : nat :=
  match v with
  | v_alpha _ | v_detgam _ => 1
  | v_bcon _ => 3
  | v_gcov _ => SymSize 4
  | v_gamcon _ => SymSize 3
  | v_dalpha => nvar_deriv
  | v_dg => nvar_deriv * SymSize 4
  | v_coord_c | v_coord_n => 4
  end.

Definition addr : Type := Z * nat * Z * Z * Z.          (* b, slot, k, j, i *)
Definition addr_eqb (x y : addr) : bool :=
  let '(b, s, k, j, i) := x in let '(b', s', k', j', i') := y in
  andb (andb (andb (b =? b')%Z (k =? k')%Z) (andb (j =? j')%Z (i =? i')%Z)) (s =? s')%nat.
Definition mem := addr -> R.
Definition write : Type := addr * R.
Definition store (m : mem) (w : write) : mem := fun a => if addr_eqb a (fst w) then snd w else m a.
Definition run (W : list write) (m : mem) : mem := fold_left store W m.
(** one execution of a sequence of parallel loops *)
Definition execution (loops : list (list write)) (W : list write) : Prop :=
  exists Ws, Forall2 (@Permutation write) Ws loops /\ W = concat Ws.

Record Bounds := { nb : Z; ks : Z; ke : Z; js : Z; je : Z; is_ : Z; ie : Z }.
Definition zrange (s e : Z) : list Z := map (fun n => (s + Z.of_nat n)%Z) (seq 0 (Z.to_nat (e - s + 1))).
(** parthenon::par_for over blocks and indices *)
Definition par_for (nb ks ke js je is_ ie : Z) (body : Z -> Z -> Z -> Z -> list write) : list write :=
  flat_map (fun b => flat_map (fun k => flat_map (fun j => flat_map (fun i => body b k j i)
    (zrange is_ ie)) (zrange js je)) (zrange ks ke)) (zrange 0 (nb - 1)).

Section Cached.
Variable S : System.                    (* the analytic system being cached *)
Variable co : Z -> BlockCoords.
Variable axisymmetric time_dependent do_fd_on_grid : bool.
Variable first : Var -> nat.

(** cached_system.hpp:95, 597 *)
Definition nvar_deriv : nat := if time_dependent then 4 else 3.
(** cached_system.hpp:668, 679 "offset = !time_dependent" *)
Definition offset : nat := if time_dependent then 0 else 1.

Definition at_ (b : Z) (slot : nat) (k j i : Z) : addr := (b, slot, k, j, i).

(** cached_system.hpp:626-657 lamb *)
Definition lamb (loc : CellLocation) (b k j i : Z) : list write :=
  let X := GetX co loc b k j i in
  [ (at_ b (first (v_alpha loc)) k j i, Lapse S X);
    (at_ b (first (v_detgam loc)) k j i, DetGamma S X) ]
  ++ map (fun d => (at_ b (first (v_bcon loc) + d) k j i, ContravariantShift S X d)) (seq 0 3)
  ++ flat_map (fun mu => map (fun nu =>
       (at_ b (first (v_gcov loc) + Flatten2 mu nu) k j i, SpacetimeMetric S X mu nu))
       (seq mu (4 - mu))) (seq 0 4)
  ++ flat_map (fun mu => map (fun nu =>
       (at_ b (first (v_gamcon loc) + Flatten2 mu nu) k j i, MetricInverse S X mu nu))
       (seq mu (3 - mu))) (seq 0 3).

(** cached_system.hpp:660-685 lamb_derivs *)
Definition lamb_derivs (b k j i : Z) : list write :=
  let X := GetX co Cent b k j i in
  map (fun d => (at_ b (first v_dalpha + d - offset) k j i, GradLnAlpha S X d))
      (seq offset (4 - offset))
  ++ flat_map (fun sigma => flat_map (fun mu => map (fun nu =>
       (at_ b (first v_dg + nvar_deriv * Flatten2 mu nu + sigma - offset) k j i,
        MetricDerivative S X mu nu sigma)) (seq mu (4 - mu))) (seq 0 4))
       (seq offset (4 - offset)).

(** cached_system.hpp:690-730 lamb_derivs_fd *)
Definition fd_loc (d : nat) : CellLocation :=
  match d with 0%nat => Face1 | 1%nat => Face2 | _ => Face3 end.
Definition fd_plus (d : nat) (b k j i : Z) : point :=
  match d with
  | 0%nat => GetX co Face1 b k j (i + 1)
  | 1%nat => GetX co Face2 b k (j + 1) i
  | _ => GetX co Face3 b (k + 1) j i
  end.
Definition td_shift : nat := if time_dependent then 1 else 0.
Definition lamb_derivs_fd (b k j i : Z) : list write :=
  let alpha := Lapse S (GetX co Cent b k j i) in
  flat_map (fun d =>
    let Xp := fd_plus d b k j i in let Xm := GetX co (fd_loc d) b k j i in
    let h := CellWidthFA (co b) (d + 1) in
    (at_ b (first v_dalpha + d + td_shift) k j i,
     gratio (Lapse S Xp - Lapse S Xm) (alpha * h))
    :: flat_map (fun mu => map (fun nu =>
         (at_ b (first v_dg + nvar_deriv * Flatten2 mu nu + (d + td_shift)) k j i,
          gratio (SpacetimeMetric S Xp mu nu - SpacetimeMetric S Xm mu nu) h))
         (seq mu (4 - mu))) (seq 0 4)) (seq 0 3).

(** geometry_utils.hpp:238-245 lamb of SetGeometryDefault *)
Definition lamb_coords (loc : CellLocation) (b k j i : Z) : list write :=
  let icoord := match loc with Cent => first v_coord_c | _ => first v_coord_n end in
  map (fun mu => (at_ b (icoord + mu) k j i, Coords S (GetX co loc b k j i) mu)) (seq 0 4).

(** cached_system.hpp:732-778 and geometry_utils.hpp:246-260 (SetGeometryDefault) *)
Definition SetCached (B : Bounds) : list (list write) :=
  let kbs := if axisymmetric then 0%Z else ks B in
  let kbe := if axisymmetric then 0%Z else ke B in
  let kbe3 := if axisymmetric then 0%Z else (ke B + 1)%Z in
  [ par_for (nb B) kbs kbe (js B) (je B) (is_ B) (ie B) (lamb Cent);
    (if orb time_dependent (negb do_fd_on_grid)
     then par_for (nb B) kbs kbe (js B) (je B) (is_ B) (ie B) lamb_derivs else []);
    par_for (nb B) kbs kbe (js B) (je B) (is_ B) (ie B + 1) (lamb Face1);
    par_for (nb B) kbs kbe (js B) (je B + 1) (is_ B) (ie B) (lamb Face2);
    par_for (nb B) kbs kbe3 (js B) (je B) (is_ B) (ie B) (lamb Face3);
    (if do_fd_on_grid
     then par_for (nb B) kbs kbe (js B) (je B) (is_ B) (ie B) lamb_derivs_fd else []);
    par_for (nb B) (ks B) (ke B) (js B) (je B) (is_ B) (ie B) (lamb_coords Cent);
    par_for (nb B) (ks B) (ke B + 1) (js B) (je B + 1) (is_ B) (ie B + 1) (lamb_coords Corn) ].

(** ---- reads.  [m] is the memory of the pack. ---- *)
Variable m : mem.
Definition pack (b : Z) (slot : nat) (k j i : Z) : R := m (at_ b slot k j i).
(** "k *= (!axisymmetric_)" *)
Definition kx (k : Z) : Z := if axisymmetric then 0%Z else k.

(** cached_system.hpp:146-152 *)
Definition cLapse (loc : CellLocation) (b k j i : Z) : R := pack b (first (v_alpha loc)) (kx k) j i.
(** :166-172 *)
Definition cShift (loc : CellLocation) (b k j i : Z) : vec :=
  fun d => pack b (first (v_bcon loc) + d) (kx k) j i.
(** :192-202 *)
Definition cMetric (loc : CellLocation) (b k j i : Z) : mat :=
  fun r c => pack b (first (v_gcov loc) + Flatten2 (r + 1) (c + 1)) (kx k) j i.
(** :221-230 *)
Definition cMetricInverse (loc : CellLocation) (b k j i : Z) : mat :=
  fun r c => pack b (first (v_gamcon loc) + Flatten2 r c) (kx k) j i.
(** :248-257 *)
Definition cSpacetimeMetric (loc : CellLocation) (b k j i : Z) : mat :=
  fun mu nu => pack b (first (v_gcov loc) + Flatten2 mu nu) (kx k) j i.
(** :286-305 *)
Definition cSpacetimeMetricInverse (loc : CellLocation) (b k j i : Z) : mat :=
  let alpha := cLapse loc b k j i in
  let alpha2 := alpha * alpha in
  let g0 d := gratio (pack b (first (v_bcon loc) + d) (kx k) j i) alpha2 in
  fun mu nu => match mu, nu with
  | O, O => - gratio 1 alpha2
  | O, Datatypes.S n => g0 n
  | Datatypes.S n, O => g0 n
  | Datatypes.S p, Datatypes.S q =>
      pack b (first (v_gamcon loc) + Flatten2 p q) (kx k) j i - g0 p * g0 q * alpha2
  end.
(** :319-325 *)
Definition cDetGamma (loc : CellLocation) (b k j i : Z) : R := pack b (first (v_detgam loc)) (kx k) j i.
(** :330-333 *)
Definition cDetG (loc : CellLocation) (b k j i : Z) : R := cLapse loc b k j i * cDetGamma loc b k j i.
(** :377-392 at cell centres.  At faces idx_[loc].dg is never set by the constructor
    (:127-131), so the code reads an indeterminate index: None *)
Definition cMetricDerivative (loc : CellLocation) (b k j i : Z) : option tensor3 :=
  match loc with
  | Cent => Some (fun mu nu sigma =>
      if (sigma <? offset)%nat then 0
      else pack b (nvar_deriv * Flatten2 mu nu + first v_dg + sigma - offset) (kx k) j i)
  | _ => None
  end.
(** :410-419 *)
Definition cGradLnAlpha (loc : CellLocation) (b k j i : Z) : option vec :=
  match loc with
  | Cent => Some (fun d => if (d <? offset)%nat then 0
                           else pack b (first v_dalpha + d - offset) (kx k) j i)
  | _ => None
  end.
(** :347-360 with geometry_utils.hpp:83-90 *)
Definition cConnectionCoefficient (loc : CellLocation) (b k j i : Z) : option tensor3 :=
  option_map SetConnectionCoeffFromMetricDerivs (cMetricDerivative loc b k j i).
(** :435-445 *)
Definition cCoords (loc : CellLocation) (b k j i : Z) : vec :=
  match loc with
  | Cent => fun d => match d with O => 0 | Datatypes.S d' => pack b (first v_coord_c + d') k j i end
  | Corn => fun d => match d with O => 0 | Datatypes.S d' => pack b (first v_coord_n + d') k j i end
  | _ => Coords S (GetX co loc b k j i)
  end.

(** reads off the grid, :136-139 and siblings: interpolation of the cell-centred data.
    [ax b d] is axis d of block b. *)
Variable ax : Z -> nat -> Axis.
Definition interp (b : Z) (X1 X2 X3 : R) (slot : nat) : R :=
  Do (ax b 1%nat) (ax b 2%nat) (ax b 3%nat) X1 X2 X3 (fun k j i => pack b slot k j i).
(** :136-139 *)
Definition xLapse (b : Z) (X0 X1 X2 X3 : R) : R := interp b X1 X2 X3 (first (v_alpha Cent)).
(** :157-160 *)
Definition xShift (b : Z) (X0 X1 X2 X3 : R) : vec :=
  fun d => interp b X1 X2 X3 (first (v_bcon Cent) + d).
(** :180-187 *)
Definition xMetric (b : Z) (X0 X1 X2 X3 : R) : mat :=
  fun r c => interp b X1 X2 X3 (first (v_gcov Cent) + Flatten2 (r + 1) (c + 1)).
(** :236-242 *)
Definition xSpacetimeMetric (b : Z) (X0 X1 X2 X3 : R) : mat :=
  fun mu nu => interp b X1 X2 X3 (first (v_gcov Cent) + Flatten2 mu nu).
(** :312-315 *)
Definition xDetGamma (b : Z) (X0 X1 X2 X3 : R) : R := interp b X1 X2 X3 (first (v_detgam Cent)).
(** :263-280.  "Lapse(b, X1, X2, X3)" has four arguments, so overload resolution picks
    Lapse(Real X0, Real X1, Real X2, Real X3) (:141-144) with X0 = b, which reads block 0 *)
Definition xSpacetimeMetricInverse (b : Z) (X0 X1 X2 X3 : R) : mat :=
  let alpha := xLapse 0 (IZR b) X1 X2 X3 in
  let alpha2 := alpha * alpha in
  let g0 d := gratio (interp b X1 X2 X3 (first (v_bcon Cent) + d)) alpha2 in
  fun mu nu => match mu, nu with
  | O, O => - gratio 1 alpha2
  | O, Datatypes.S n => g0 n
  | Datatypes.S n, O => g0 n
  | Datatypes.S p, Datatypes.S q =>
      interp b X1 X2 X3 (first (v_gamcon Cent) + Flatten2 p q) - g0 p * g0 q * alpha2
  end.
End Cached.
