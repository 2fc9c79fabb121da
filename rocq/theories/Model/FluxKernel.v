(** src/fluid/fluid.cpp:659-773 fluid::CalculateFluxes on one block: reconstruction of the
    primitive variables at the faces of every direction and the Riemann problem at each face.
    Over the reals.  An iteration of the reconstruction loop (n, k, j outside, i inside) is one
    zone here, handling all variables and directions; they write different locations. *)
From Coq Require Import ZArith Reals List Bool.
From Verif.Model Require Import Num ParFor Reconstruction Riemann FluxFix.
From Verif.Spec Require Import Tensor.
Import ListNotations.
Local Open Scope R_scope.

(** reconstructed variables (riemann.hpp recon_vars) *)
Inductive PVar := pRho | pVel (i : nat) | pEng | pB (i : nat) | pYe | pPrs | pGm1.
Definition PVar_dec (x y : PVar) : {x = y} + {x <> y}. Proof. repeat decide equality. Defined.
Definition PMem := PVar -> Cell -> R.
(** arrays ql (true) and qr (false): direction, variable, face *)
Definition QMem := bool -> Dir -> PVar -> Cell -> R.

Inductive ReconType := weno5z | mp5 | linear | constant.
Inductive Solver := LLF | HLL.

(** zone n places along direction d *)
Definition shift (d : Dir) (n : Z) (c : Cell) : Cell :=
  let '(k, j, i) := c in match d with D1 => (k, j, i + n)%Z | D2 => (k, j + n, i)%Z | D3 => (k + n, j, i)%Z end.
(** fluid.cpp:685-741: the five pointers pv?m2 .. pv?p2 of direction d and the call *)
Definition recon (rt : ReconType) (v : Cell -> R) (d : Dir) (c : Cell) : R * R :=
  let q n := v (shift d n c) in
  match rt with
  | weno5z => WENO5Z (q (-2)%Z) (q (-1)%Z) (v c) (q 1%Z) (q 2%Z)
  | mp5 => MP5 (q (-2)%Z) (q (-1)%Z) (v c) (q 1%Z) (q 2%Z)
  | linear => PiecewiseLinear (q (-1)%Z) (v c) (q 1%Z)
  | constant => PiecewiseConstant (v c)
  end.
Definition live_dir (ndim : nat) (d : Dir) : bool := match d with D1 => true | D2 => Nat.ltb 1 ndim | D3 => Nat.ltb 2 ndim end.
(** loop bounds 678-680: one ghost zone around the interior in the directions that exist *)
Definition flux_box (ndim : nat) (B : Box) : Box :=
  let dj := if Nat.ltb 1 ndim then 1%Z else 0%Z in let dk := if Nat.eqb ndim 3 then 1%Z else 0%Z in
  {| ks := ks B - dk; ke := ke B + dk; js := js B - dj; je := je B + dj; is_ := is_ B - 1; ie := ie B + 1 |}.
(** 689-703: the upper-face value of zone c goes to ql at face c+1, the lower-face value to qr at
    face c *)
Definition recon_body (rt : ReconType) (ndim : nat) (v : PMem) (c : Cell) (q : QMem) : QMem :=
  fun l d n f => if live_dir ndim d then
      if Cell_dec f (if l then shift d 1 c else c) then (if l then fst (recon rt (v n) d c) else snd (recon rt (v n) d c)) else q l d n f
    else q l d n f.
(** the state prim_to_flux reads: q(dir, ., k, j, i) *)
Definition state_at (has_B has_ye : bool) (q : QMem) (l : bool) (d : Dir) (f : Cell) : FaceState :=
  let r n := q l d n f in
  {| q_rho := r pRho; q_vp := fun i => r (pVel i); q_eng := r pEng; q_prs := r pPrs; q_gm1 := r pGm1;
     q_B := fun i => if has_B then r (pB i) else 0; q_ye := if has_ye then r pYe else 0 |}.
Definition dnum (d : Dir) : nat := match d with D1 => 0%nat | D2 => 1%nat | D3 => 2%nat end.

(** run-time and compile-time configuration: geometry at faces, floors (the density floor may
    depend on the density of the state, riemann.hpp:92-94) and ceilings (sie_max, gam_max) *)
Record KConf := mkK {
  kndim : nat; kvalencia : bool; khas_B : bool; khas_ye : bool; krecon : ReconType; ksolver : Solver;
  kgeom : Dir -> Cell -> FaceGeom; kfloors : Dir -> Cell -> R -> R * R; kceil : Dir -> Cell -> R * R }.
Definition side (cf : KConf) (q : QMem) (l : bool) (d : Dir) (f : Cell) : FluxOut :=
  let s := state_at (khas_B cf) (khas_ye cf) q l d f in
  let '(rho_floor, sie_floor) := kfloors cf d f (q_rho s) in
  let '(sie_max, gam_max) := kceil cf d f in
  prim_to_flux (kvalencia cf) (dnum d) (kgeom cf d f) s rho_floor sie_floor sie_max gam_max.
(** fluxes written by the solvers (NumConserved: five, the field, the composition); the others
    belong to other packages *)
Definition cons_of (cf : KConf) (v : CVar) : option ConsVar :=
  match v with
  | CD => Some vRho | Ctau => Some vEng | CS i => if Nat.ltb i 3 then Some (vMom i) else None
  | CB i => if khas_B cf && Nat.ltb i 3 then Some (vB i) else None
  | Cye => if khas_ye cf then Some vYe else None
  | _ => None end.
Definition face_flux (cf : KConf) (l r : FluxOut) (d : Dir) (f : Cell) (m : ConsVar) : R :=
  match ksolver cf with LLF => llf (kgeom cf d f) l r m | HLL => hll (kgeom cf d f) l r m end.
Definition face_speed (cf : KConf) (l r : FluxOut) : R := match ksolver cf with LLF => llf_cmax l r | HLL => hll_speed l r end.

(** fluxes and face signal speeds *)
Definition FMem := (FluxMem R * (Dir -> Cell -> R))%type.
(** 751-760, one face of every direction *)
Definition flux_body_k (cf : KConf) (q : QMem) (c : Cell) (m : FMem) : FMem :=
  (fun loc => let '(d, v, f) := loc in
     if live_dir (kndim cf) d then if Cell_dec f c then match cons_of cf v with Some cv => face_flux cf (side cf q true d c) (side cf q false d c) d c cv | None => fst m loc end else fst m loc else fst m loc,
   fun d f => if live_dir (kndim cf) d then if Cell_dec f c then face_speed cf (side cf q true d c) (side cf q false d c) else snd m d f else snd m d f).
(** [o1], [o2]: the orders of the two loops; [q0], [m0]: what the arrays contain before *)
Definition CalculateFluxes (cf : KConf) (o1 o2 : list Cell) (v : PMem) (q0 : QMem) (m0 : FMem) : FMem :=
  let q := par_for o1 (recon_body (krecon cf) (kndim cf) v) q0 in
  par_for o2 (flux_body_k cf q) m0.

(** *** layout of the radiation reconstruction arrays, moments.cpp:38-58, 325-375 and 578-600 *)
(** radiation.cpp:486-487: ql has shape (num_species, nrecon, 3); Parthenon's flat index of
    component (a, b, c) of shape (A, B, _) is offset + a + A (b + B c) *)
Definition flat3 (A B offset a b c : nat) : nat := (offset + a + A * (b + B * c))%nat.
Definition flat2 (A offset a b : nat) : nat := (offset + a + A * b)%nat.
(** writer: variable number n of the pack (J, H[, tilPi]) goes to idir * chunk + n + offset *)
Definition written_at (nspec ncomp offset idir n : nat) : nat := (idir * (ncomp * nspec) + n + offset)%nat.
(** position of J, H_i and tilPi_ij of a species in the pack *)
Definition pos_J (ispec : nat) : nat := ispec.
Definition pos_H (nspec ispec i : nat) : nat := flat2 nspec nspec ispec i.
Definition pos_tilPi (nspec ispec i j : nat) : nat := flat3 nspec 3 (4 * nspec) ispec i j.
