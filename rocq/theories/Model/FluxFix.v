(** src/fixup/fixup.cpp:728-1068 FixFluxes; src/fluid/fluid.cpp:775-835 FluxCT,
    842-895 CalculateDivB, 899-950 EstimateTimestepBlock. *)
From Coq Require Import ZArith List Bool.
From Verif.Model Require Import Num ParFor.
Import ListNotations.

Inductive Dir := D1 | D2 | D3.   (* X1DIR, X2DIR, X3DIR *)
(** conserved variables with fluxes: density, energy, momentum, magnetic field, electron
    fraction, radiation energy and flux of a species *)
Inductive CVar := CD | Ctau | CS (i : nat) | CB (i : nat) | Cye | CE (s : nat) | CF (s i : nat).
(** location of a face flux: direction, variable, cell whose lower face it is *)
Definition FLoc : Type := (Dir * CVar * Cell)%type.
Definition Dir_dec (x y : Dir) : {x = y} + {x <> y}.
Proof. decide equality. Defined.
Definition CVar_dec (x y : CVar) : {x = y} + {x <> y}.
Proof. repeat decide equality. Defined.
Definition FLoc_dec (x y : FLoc) : {x = y} + {x <> y}.
Proof. repeat decide equality. Defined.

Section FF.
Context {T : Type} `{Num T}.
Local Open Scope num_scope.
Definition FluxMem : Type := FLoc -> T.
Definition fput (l : FLoc) (x : T) (m : FluxMem) : FluxMem := fun l' => if FLoc_dec l' l then x else m l'.
Definition fzero (d : Dir) (v : CVar) (c : Cell) (m : FluxMem) : FluxMem := fput (d, v, c) (nlit 0 1) m.
(** for (int ispec = 0; ispec < num_species; ispec++) *)
Definition species_loop (n : nat) (f : nat -> FluxMem -> FluxMem) (m : FluxMem) : FluxMem :=
  fold_left (fun m s => f s m) (seq 0 n) m.

(** the boundary condition strings that FixFluxes knows *)
Inductive BC := GrOutflow | Reflect | Polar | OtherBC.
(** the input of FixFluxes: fixup/enable_flux_fixup, ndim, number of species (0 when the
    radiation package is inactive, fixup.cpp:744-747), whether the radiation moments exist
    (idx_E.IsValid()), moments_active, whether the magnetic field exists, and for each face
    whether its boundary_flag is BoundaryFlag::user and the condition named in the input *)
Record FixConf := {
  enabled : bool; fndim : nat; num_species : nat; has_E : bool; moments_active : bool; has_B : bool;
  user : Dir -> bool -> bool;      (* true: inner face *)
  bc : Dir -> bool -> BC
}.
(** fixup.cpp:767,809 etc.: v.flux(d, crho) = std::min / std::max with 0 *)
Definition outflow_body (d : Dir) (inner : bool) (c : Cell) (m : FluxMem) : FluxMem :=
  fput (d, CD, c) (if inner then std_min (m (d, CD, c)) (nlit 0 1) else std_max (m (d, CD, c)) (nlit 0 1)) m.
(** fixup.cpp:785-793, 825-833, 1017-1025, 1055-1063: reflect in x1 and x3 *)
Definition reflect_body (cf : FixConf) (d : Dir) (c : Cell) (m : FluxMem) : FluxMem :=
  let m := fzero d Ctau c (fzero d CD c m) in
  if has_E cf then species_loop (num_species cf) (fun s => fzero d (CE s) c) m else m.
(** fixup.cpp:883-890, 917-924, 973-980: radiation fluxes at an x2 boundary; the second
    component of the radiation flux (index 1) is not touched *)
Definition rad_x2 (cf : FixConf) (c : Cell) (m : FluxMem) : FluxMem :=
  species_loop (num_species cf) (fun s m => fzero D2 (CF s 2) c (fzero D2 (CF s 0) c (fzero D2 (CE s) c m))) m.
(** fixup.cpp:907-925, 970-988: reflect in x2.  The inner face tests moments_active, the
    outer one idx_E.IsValid() *)
Definition reflect2_body (cf : FixConf) (inner : bool) (c : Cell) (m : FluxMem) : FluxMem :=
  let m := fzero D2 (CS 2) c (fzero D2 (CS 0) c (fzero D2 Ctau c (fzero D2 CD c m))) in
  if (if inner then moments_active cf else has_E cf) then rad_x2 cf c m else m.
(** fixup.cpp:869-892 and 934-957: polar axis.  Without a magnetic field idx_cb is invalid
    and the code still indexes with it; the model then does nothing for these lines *)
Definition polar_body (cf : FixConf) (inner : bool) (c : Cell) (m : FluxMem) : FluxMem :=
  let '(k, j, i) := c in
  let below := (k, (j - 1)%Z, i) in
  let m := fzero D2 Ctau c (fzero D2 CD c m) in
  let m := fold_left (fun m ii => let m := fzero D2 (CS ii) c m in if has_B cf then fzero D2 (CB ii) c m else m) (seq 0 3) m in
  let m := if has_B cf then
             if inner then fput (D1, CB 1, below) (- m (D1, CB 1, c)) m
             else fput (D1, CB 1, c) (- m (D1, CB 1, below)) m
           else m in
  let m := if has_B cf && Nat.eqb (fndim cf) 3 then
             if inner then fput (D3, CB 1, below) (- m (D3, CB 1, c)) m
             else fput (D3, CB 1, c) (- m (D3, CB 1, below)) m
           else m in
  if has_E cf then rad_x2 cf c m else m.
(** the faces of the interior [B] on one side (loop bounds in fixup.cpp:765,807,853,...) *)
Definition face_box (B : Box) (d : Dir) (inner : bool) : Box :=
  match d with
  | D1 => let f := if inner then is_ B else (ie B + 1)%Z in {| ks := ks B; ke := ke B; js := js B; je := je B; is_ := f; ie := f |}
  | D2 => let f := if inner then js B else (je B + 1)%Z in {| ks := ks B; ke := ke B; js := f; je := f; is_ := is_ B; ie := ie B |}
  | D3 => let f := if inner then ks B else (ke B + 1)%Z in {| ks := f; ke := f; js := js B; je := je B; is_ := is_ B; ie := ie B |}
  end.
(** one if (boundary_flag == user) block *)
Definition side_body (cf : FixConf) (d : Dir) (inner : bool) : option (Cell -> FluxMem -> FluxMem) :=
  if user cf d inner then
    match bc cf d inner, d with
    | GrOutflow, _ => Some (outflow_body d inner)
    | Reflect, D2 => Some (reflect2_body cf inner)
    | Reflect, _ => Some (reflect_body cf d)
    | Polar, D2 => Some (polar_body cf inner)
    | _, _ => None
    end
  else None.
Definition fix_side (cf : FixConf) (o : list Cell) (d : Dir) (inner : bool) (m : FluxMem) : FluxMem :=
  match side_body cf d inner with Some body => par_for o body m | None => m end.
(** [ord d inner]: the order in which the loop over that side runs *)
Definition FixFluxes (cf : FixConf) (ord : Dir -> bool -> list Cell) (m : FluxMem) : FluxMem :=
  if enabled cf then
    let m := fix_side cf (ord D1 false) D1 false (fix_side cf (ord D1 true) D1 true m) in
    if Nat.eqb (fndim cf) 1 then m else
    let m := fix_side cf (ord D2 false) D2 false (fix_side cf (ord D2 true) D2 true m) in
    if Nat.eqb (fndim cf) 2 then m else
    fix_side cf (ord D3 false) D3 false (fix_side cf (ord D3 true) D3 true m)
  else m.
End FF.
Arguments FluxMem T : clear implicits.

(** *** constrained transport *)
Section CT.
Context {T : Type} `{Num T}.
Local Open Scope num_scope.
(** internal_variables::emf: in 2D one component (emf(k,j,i), stored as component 2 here),
    in 3D three *)
Definition Emf : Type := (nat * Cell)%type -> T.
Definition ELoc_dec (x y : nat * Cell) : {x = y} + {x <> y}.
Proof. repeat decide equality. Defined.
Definition eput (l : nat * Cell) (x : T) (m : Emf) : Emf := fun l' => if ELoc_dec l' l then x else m l'.
Definition quarter : T := nlit 1 4.
Definition half_ : T := nlit 1 2.
Definition nhalf : T := nlit (-1) 2.
(** fluid.cpp:812-817 / 795-797: emf(2,...) *)
Definition emf_z (f : FluxMem T) (c : Cell) : T :=
  let '(k, j, i) := c in
  quarter * (f (D1, CB 1, (k, j, i)) + f (D1, CB 1, (k, (j - 1)%Z, i)) - f (D2, CB 0, (k, j, i)) - f (D2, CB 0, (k, j, (i - 1)%Z))).
(** fluid.cpp:808-810 *)
Definition emf_x (f : FluxMem T) (c : Cell) : T :=
  let '(k, j, i) := c in
  quarter * (f (D2, CB 2, (k, j, i)) + f (D2, CB 2, ((k - 1)%Z, j, i)) - f (D3, CB 1, (k, j, i)) - f (D3, CB 1, (k, (j - 1)%Z, i))).
(** fluid.cpp:811-813 *)
Definition emf_y (f : FluxMem T) (c : Cell) : T :=
  let '(k, j, i) := c in
  nlit (-1) 4 * (f (D1, CB 2, (k, j, i)) + f (D1, CB 2, ((k - 1)%Z, j, i)) - f (D3, CB 0, (k, j, i)) - f (D3, CB 0, (k, j, (i - 1)%Z))).
(** FluxCT::EMF kernels *)
Definition emf_body (ndim : nat) (f : FluxMem T) (c : Cell) (e : Emf) : Emf :=
  if Nat.eqb ndim 2 then eput (2, c) (emf_z f c) e
  else eput (2, c) (emf_z f c) (eput (1, c) (emf_y f c) (eput (0, c) (emf_x f c) e)).
(** FluxCT::Flux kernels (fluid.cpp:800-806, 819-831) *)
Definition flux_body (ndim : nat) (e : Emf) (c : Cell) (f : FluxMem T) : FluxMem T :=
  let '(k, j, i) := c in
  let ej n := e (n, (k, (j + 1)%Z, i)) in let ei n := e (n, (k, j, (i + 1)%Z)) in let ek n := e (n, ((k + 1)%Z, j, i)) in
  let e0 n := e (n, c) in
  if Nat.eqb ndim 2 then
    fput (D2, CB 1, c) (nlit 0 1)
   (fput (D2, CB 0, c) (nhalf * (e0 2%nat + ei 2%nat))
   (fput (D1, CB 1, c) (half_ * (e0 2%nat + ej 2%nat))
   (fput (D1, CB 0, c) (nlit 0 1) f)))
  else
    fput (D3, CB 2, c) (nlit 0 1)
   (fput (D3, CB 1, c) (nhalf * (e0 0%nat + ej 0%nat))
   (fput (D3, CB 0, c) (half_ * (e0 1%nat + ei 1%nat))
   (fput (D2, CB 2, c) (half_ * (e0 0%nat + ek 0%nat))
   (fput (D2, CB 1, c) (nlit 0 1)
   (fput (D2, CB 0, c) (nhalf * (e0 2%nat + ei 2%nat))
   (fput (D1, CB 2, c) (nhalf * (e0 1%nat + ek 1%nat))
   (fput (D1, CB 1, c) (half_ * (e0 2%nat + ej 2%nat))
   (fput (D1, CB 0, c) (nlit 0 1) f)))))))).
(** loop bounds: s .. e+1 in the active directions *)
Definition ct_box (ndim : nat) (B : Box) : Box :=
  {| ks := ks B; ke := (if Nat.eqb ndim 2 then ke B else ke B + 1)%Z; js := js B; je := (je B + 1)%Z; is_ := is_ B; ie := (ie B + 1)%Z |}.
(** FluxCT for mhd runs; ndim is 2 or 3, in 1D it returns at once (fluid.cpp:784); [o1], [o2]
    are the orders of the two loops, [e] the stale content of the emf array *)
Definition FluxCT (ndim : nat) (o1 o2 : list Cell) (e : Emf) (f : FluxMem T) : FluxMem T * Emf :=
  if Nat.eqb ndim 1 then (f, e)
  else let e' := par_for o1 (emf_body ndim f) e in (par_for o2 (flux_body ndim e') f, e').

(** CalculateDivB (fluid.cpp:842-895): one zone; [dx d c] is coords.CellWidthFA *)
Definition BField : Type := nat -> Cell -> T.
Definition divB (ndim : nat) (dx : Dir -> Cell -> T) (b : BField) (c : Cell) : T :=
  let '(k, j, i) := c in
  let k1 := (k - 1)%Z in let j1 := (j - 1)%Z in let i1 := (i - 1)%Z in
  if Nat.eqb ndim 2 then
    half_ * (b 0%nat (k, j, i) + b 0%nat (k, j1, i) - b 0%nat (k, j, i1) - b 0%nat (k, j1, i1)) / dx D1 c +
    half_ * (b 1%nat (k, j, i) + b 1%nat (k, j, i1) - b 1%nat (k, j1, i) - b 1%nat (k, j1, i1)) / dx D2 c
  else
    quarter * (b 0%nat (k, j, i) + b 0%nat (k, j1, i) + b 0%nat (k1, j, i) + b 0%nat (k1, j1, i)
               - b 0%nat (k, j, i1) - b 0%nat (k, j1, i1) - b 0%nat (k1, j, i1) - b 0%nat (k1, j1, i1)) / dx D1 c +
    quarter * (b 1%nat (k, j, i) + b 1%nat (k, j, i1) + b 1%nat (k1, j, i) + b 1%nat (k1, j, i1)
               - b 1%nat (k, j1, i) - b 1%nat (k, j1, i1) - b 1%nat (k1, j1, i) - b 1%nat (k1, j1, i1)) / dx D2 c +
    quarter * (b 2%nat (k, j, i) + b 2%nat (k, j, i1) + b 2%nat (k, j1, i) + b 2%nat (k, j1, i1)
               - b 2%nat (k1, j, i) - b 2%nat (k1, j, i1) - b 2%nat (k1, j1, i) - b 2%nat (k1, j1, i1)) / dx D3 c.

(** EstimateTimestepBlock (fluid.cpp:899-950).  [csig d c], [fsig d c]: cell and face signal
    speeds; [with_faces]: the "has_face_speeds" parameter exists; the reduction runs over the
    interior in the order [o] from the initial value [big] (Kokkos::Min starts at the largest
    double) and in a tree, which is immaterial for min over the reals *)
Definition up (d : Dir) (c : Cell) : Cell :=
  let '(k, j, i) := c in
  match d with D1 => (k, j, (i + 1)%Z) | D2 => (k, (j + 1)%Z, i) | D3 => ((k + 1)%Z, j, i) end.
Definition dirs (ndim : nat) : list Dir := firstn ndim [D1; D2; D3].
Definition zone_rate (with_faces : bool) (ndim : nat) (csig fsig : Dir -> Cell -> T) (dx : Dir -> Cell -> T) (c : Cell) : T :=
  fold_left (fun ldt d =>
    let s := if with_faces then std_max (csig d c) (std_max (fsig d c) (fsig d (up d c))) else csig d c in
    ldt + s / dx d c) (dirs ndim) (nlit 0 1).
Definition EstimateTimestep (with_faces : bool) (ndim : nat) csig fsig dx (tiny big cfl : T) (o : list Cell) : T :=
  cfl * fold_left (fun lmin c => std_min lmin (nlit 1 1 / (zone_rate with_faces ndim csig fsig dx c + tiny))) o big.
End CT.
Arguments Emf T : clear implicits.
Arguments BField T : clear implicits.
