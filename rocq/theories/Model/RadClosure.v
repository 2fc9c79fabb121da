(** src/radiation/closure.hpp, closure_m1.hpp, local_three_geometry.hpp: closing the
    radiation moment equations.  Real arithmetic; robust::ratio is taken as division
    ([gratio], Geometry.v; Properties/P_Robust.v bounds the difference in binary64). *)
From Coq Require Import Reals Bool ZArith.
From Flocq Require Import Core.
From Verif.Model Require Import Geometry LinearAlgebra.
From Verif.Spec Require Import Tensor.
Local Open Scope R_scope.

(** closure.hpp:36-42, 46 *)
Inductive ClosureStatus := Csuccess | Cfailure | Cmodified.
Inductive ClosureEquation := energy_conserve | number_conserve.
(** closure.hpp:57-63; [true] is robust *)
Definition Strategy := bool.

(** local_three_geometry.hpp:118-143 (LocalThreeGeometry: con_gamma from matrixInverse3x3)
    and closure.hpp:157-172 (constructor of ClosureEdd): members of a closure object *)
Record Closure := { cov_gamma : mat; con_gamma : mat; c_alpha : R; con_v : vec; cov_v : vec; c_v2 : R; cW : R; cW2 : R; robust_c2p : Strategy }.
(** local_three_geometry.hpp:147-157 *)
Definition lower3Vector (g : mat) (U : vec) : vec := fun i => sum3 (fun j => U j * g i j).
Definition raise3Vector (gi : mat) (U : vec) : vec := fun i => sum3 (fun j => U j * gi i j).
(** 159-181 *)
Definition contractCon3Vectors (g : mat) (A B : vec) : R := sum3 (fun i => sum3 (fun j => g i j * A i * B j)).
Definition contractCov3Vectors (gi : mat) (A B : vec) : R := sum3 (fun i => sum3 (fun j => gi i j * A i * B j)).
Definition contractConCov3Vectors (A B : vec) : R := sum3 (fun i => A i * B i).
Definition mkClosure (v : vec) (gamma : mat) (alpha : R) (rset : Strategy) : Closure :=
  let cv := lower3Vector gamma v in
  let v2 := Rmin (sum3 (fun i => v i * cv i)) (9999 / 10000) in
  let W := 1 / sqrt (1 - v2) in
  {| cov_gamma := gamma; con_gamma := fst (matrixInverse3x3 gamma); c_alpha := alpha; con_v := v; cov_v := cv; c_v2 := v2; cW := W; cW2 := W * W; robust_c2p := rset |}.

Section Closure.
Variable c : Closure.
Let W := cW c.
Let W2 := cW2 c.

(** closure.hpp:142-152 (GetTilPiContractions) *)
Definition con_vTilPi (Pi : mat) : vec := fun i => sum3 (fun j => cov_v c j * Pi i j).
Definition vvTilPi (Pi : mat) : R := sum3 (fun i => cov_v c i * con_vTilPi Pi i).
Definition cov_vTilPi (Pi : mat) : vec := lower3Vector (cov_gamma c) (con_vTilPi Pi).

(** closure.hpp:282-302 *)
Definition Prim2Con (eq : ClosureEquation) (J : R) (H : vec) (Pi : mat) : R * vec :=
  let vH := sum3 (fun i => con_v c i * H i) in
  (match eq with
   | energy_conserve => (4 * W2 - 1 + 3 * W2 * vvTilPi Pi) / 3 * J + 2 * W * vH
   | number_conserve => W * J + vH
   end,
   fun i => 4 * W2 / 3 * cov_v c i * J + W * cov_v c i * vH + W * H i + J * cov_vTilPi Pi i).

(** closure.hpp:304-329: J and H before the checks *)
Definition c2p_energy (eq : ClosureEquation) (E : R) (F : vec) : R :=
  match eq with energy_conserve => E | number_conserve => E / W + sum3 (fun i => con_v c i * F i) end.
Definition c2p_lam (Pi : mat) : R := (2 * W2 + 1) / 3 + (2 * W2 - 3) * W2 * vvTilPi Pi.
Definition c2p_raw (eq : ClosureEquation) (E0 : R) (F : vec) (Pi : mat) : R * vec :=
  let vF := sum3 (fun i => con_v c i * F i) in
  let E := c2p_energy eq E0 F in
  let lam := c2p_lam Pi in
  let a := gratio W2 lam * ((4 * W2 / 3 - vvTilPi Pi) * E - ((4 * W2 + 1) / 3 - W2 * vvTilPi Pi) * vF) in
  let J := gratio ((2 * W2 - 1) * E - 2 * W2 * vF) lam in
  (J, fun i => (F i - J * cov_vTilPi Pi i - cov_v c i * a) / W).
(** closure.hpp:331-334: the flux factor.  The square root of a negative number and the
    division by J = 0 are NaN or infinite in the code; both are covered by [xi_defined] *)
Definition flux_sq (H : vec) : R := contractCov3Vectors (con_gamma c) H H - contractConCov3Vectors (con_v c) H * contractConCov3Vectors (con_v c) H.
Definition flux_xi (J : R) (H : vec) : R := sqrt (flux_sq H) / J.
Definition xi_defined (J : R) (H : vec) : bool := Rle_bool 0 (flux_sq H) && negb (Req_bool J 0).
(** closure.hpp:336-356: 0.999 / xi, 10 * robust::SMALL() = 100 * 2^-1022.  J = 0 with H <> 0
    gives xi = infinity in the code (the xi >= 1 branch, which multiplies H by 0), J = 0
    with H = 0 gives NaN: the model reports failure for J = 0 in both cases. *)
Definition SMALL10 : R := 100 / IZR (2 ^ 1022).
Definition Con2Prim (eq : ClosureEquation) (E : R) (F : vec) (Pi : mat) : R * vec * ClosureStatus :=
  let '(J, H) := c2p_raw eq E F Pi in
  if negb (xi_defined J H) then (J, H, Cfailure)
  else let xi := flux_xi J H in
    if Rlt_bool J 0 || Rle_bool 1 xi then
      if robust_c2p c then
        (if Rlt_bool J 0 then Rmin J SMALL10 else J, if Rle_bool 1 xi then (fun i => H i * (999 / 1000 / xi)) else H, Cmodified)
      else (J, H, Cfailure)
    else (J, H, Csuccess).

(** closure.hpp:174-224 (LinearSourceUpdate): the unknowns J and zeta, and the updates *)
Definition LinearA (eq : ClosureEquation) (Pi : mat) (tauJ tauH : R) : mat :=
  let a00 := (4 * W2 - 1) / 3 + W2 * vvTilPi Pi + W * tauJ in
  let a01 := 2 * W + tauH in
  let a10 := a00 - 1 - tauJ / W in
  let a11 := a01 - 1 / W in
  match eq with
  | energy_conserve => rows3 (row3 a00 a01 0) (row3 a10 a11 0) (row3 0 0 0)
  | number_conserve => rows3 (row3 (W + tauJ) 1 0) (row3 a10 a11 0) (row3 0 0 0)
  end.
Definition Linearb (eq : ClosureEquation) (Estar : R) (Fstar : vec) (JBB tauJ : R) : vec :=
  row3 (match eq with energy_conserve => Estar + W * tauJ * JBB | number_conserve => Estar + tauJ * JBB end)
       (contractConCov3Vectors (con_v c) Fstar + (W2 - 1) / W * tauJ * JBB) 0.
Definition LinearSolution (eq : ClosureEquation) (Estar : R) (Fstar : vec) (Pi : mat) (JBB tauJ tauH : R) : R * R :=
  let x := SolveAxb2x2 (LinearA eq Pi tauJ tauH) (Linearb eq Estar Fstar JBB tauJ) in (x 0%nat, x 1%nat).
Definition LinearSourceUpdate (eq : ClosureEquation) (Estar : R) (Fstar : vec) (Pi : mat) (JBB tauJ tauH : R) : R * vec :=
  let '(J, zeta) := LinearSolution eq Estar Fstar Pi JBB tauJ tauH in
  (match eq with
   | energy_conserve => (4 * W2 - 1 + 3 * W2 * vvTilPi Pi) / 3 * J + 2 * W * zeta - Estar
   | number_conserve => W * J + zeta - Estar
   end,
   fun i => (cov_v c i * tauH * (4 * W2 / 3 * J + W * zeta) + tauH * cov_vTilPi Pi i * J + tauJ * W2 * cov_v c i * (JBB - J) + W * Fstar i) / (W + tauH) - Fstar i).

(** closure.hpp:246-258 *)
Definition getConPFromPrim (J : R) (H : vec) (Pi : mat) : mat :=
  let con_H := raise3Vector (con_gamma c) H in
  fun i j => 4 / 3 * W2 * con_v c i * con_v c j * J + W * (con_v c i * con_H j + con_v c j * con_H i) + J * Pi i j + J / 3 * con_gamma c i j.
(** closure.hpp:260-280 *)
Definition getConCovPFromPrim (J : R) (H : vec) (Pi : mat) : mat :=
  let con_H := raise3Vector (con_gamma c) H in
  fun i j => 4 / 3 * W2 * con_v c i * cov_v c j * J + W * (con_v c i * H j + cov_v c j * con_H i)
             + J * sum3 (fun k => Pi i k * cov_gamma c k j) + (if Nat.eqb i j then J / 3 else 0).
(** closure.hpp:226-244 *)
Definition getFluxesFromPrim (eq : ClosureEquation) (J : R) (H : vec) (Pi : mat) : vec * mat :=
  let P := getConCovPFromPrim J H Pi in
  let con_F := match eq with
    | energy_conserve => raise3Vector (con_gamma c) (snd (Prim2Con energy_conserve J H Pi))
    | number_conserve => fun i => W * con_v c i * J + H i
    end in
  (fun i => con_F i * c_alpha c, fun i j => P i j * c_alpha c).

(** *** closure_m1.hpp *)
(** 49-54 *)
Definition closure (xi : R) : R := (1 - 2 * (xi * xi) + 4 * (xi * xi * xi)) / 3.
Definition athin_of (xi : R) : R := / 2 * (3 * closure xi - 1).
Definition M1Pi (xi : R) (f : vec) : mat :=
  fun i j => (f i * f j - (W2 * con_v c i * con_v c j + con_gamma c i j) / 3) * athin_of xi.
(** 298-320 (M1FluidPressureTensor from J and H); a negative radicand, NaN in the code, is
    excluded by the hypotheses of the theorems (it cannot occur for exact arithmetic) *)
Definition m1_flux (H : vec) : R :=
  let con_H := raise3Vector (con_gamma c) H in
  let vH := sum3 (fun i => H i * con_v c i) in
  sqrt (sum3 (fun i => H i * con_H i) - vH * vH).
Definition m1_dir (H : vec) : vec := fun i => gratio (raise3Vector (con_gamma c) H i) (m1_flux H).
Definition m1_xi (J : R) (H : vec) : R := Rmax (Rmin 1 (gratio (m1_flux H) J)) 0.
Definition GetConTilPiFromPrim (J : R) (H : vec) : mat := M1Pi (m1_xi J H) (m1_dir H).
(** 343-372 (GetBasisVectors); eps10 is 10 * epsilon = 10 * 2^-52 *)
Definition eps10 : R := 10 / IZR (2 ^ 52).
Definition basis_Fmag (F : vec) : R := sqrt (sum3 (fun i => F i * raise3Vector (con_gamma c) F i)).
Definition basis_vl (F : vec) : R := gratio (sum3 (fun i => F i * con_v c i)) (basis_Fmag F).
Definition basis_lam (F : vec) : R := gratio 1 (W * (1 - basis_vl F)).
Definition basis_aa (F : vec) : R :=
  sqrt (sum3 (fun i => cov_v c i * con_v c i) * (1 + eps10) - basis_vl F * basis_vl F).
Definition basis_g (F : vec) : vec := fun i => gratio (raise3Vector (con_gamma c) F i * basis_lam F) (basis_Fmag F) - W * con_v c i.
Definition basis_d (F : vec) : vec :=
  fun i => gratio (gratio (raise3Vector (con_gamma c) F i) (basis_Fmag F) * (1 - basis_lam F / W) + con_v c i) (basis_aa F).
(** 322-341 (M1FluidPressureTensor from xi and phi) *)
Definition m1_dir_phi (phi : R) (g d : vec) : vec := fun i => - cos phi * g i + sin phi * d i.
Definition M1FluidPressureTensor (xi phi : R) (g d : vec) : mat := M1Pi xi (m1_dir_phi phi g d).
(** 269-296 (M1Residuals): fXi only; fPhi is computed but discarded, see SolveClosure *)
Definition M1Residual (E : R) (F : vec) (xi phi : R) (g d : vec) : R :=
  let Pi := M1FluidPressureTensor xi phi g d in
  let '(J, H, _) := Con2Prim energy_conserve E F Pi in
  let Hs := sum3 (fun i => sum3 (fun j => H i * H j * con_gamma c i j)) in
  let vH := sum3 (fun i => con_v c i * H i) in
  xi - gratio (sqrt (Hs - vH * vH)) J.
End Closure.

(** *** the iteration in xi, closure_m1.hpp:183-267 (SolveClosure), for a residual f.  The
    test "iter < max_iter" at line 231 holds in every pass, so dx[1] = 0, fPhi = 0 and phi
    stays acos(-1) always; the step limiter alpha is then ratio(corrected, dx[0]) (the second
    argument of the minimum is 0.5 * 3.14159 / 0 = infinity).  tol = 1e6 * 2^-52,
    eps = sqrt(10 * 2^-52), delta = 20 * 2^-52. *)
Definition m1_max_iter : nat := 30.
Definition m1_tol : R := 1000000 / IZR (2 ^ 52).
Definition m1_eps : R := sqrt (10 / IZR (2 ^ 52)).
Definition m1_delta : R := 20 / IZR (2 ^ 52).
Definition m1_step (f : R -> R) (xi : R) : R :=
  let xi_up := Rmin (xi * (1 + m1_eps) + m1_delta) 1 in
  let xi_lo := Rmax (xi * (1 - m1_eps) - m1_delta) 0 in
  let jac := (f xi_up - f xi_lo) / (xi_up - xi_lo) in
  let dx := f xi / jac in
  let corrected := Rmax (Rmin dx (xi - m1_delta * xi)) (xi - (1 - m1_delta * (1 - xi))) in
  xi - gratio corrected dx * dx.
(** do { ... } while (iter < max_iter && |fXi| > tol): result (xi, iter, last fXi) *)
Fixpoint m1_loop (f : R -> R) (fuel iter : nat) (xi : R) : R * nat * R :=
  let xi' := m1_step f xi in
  match fuel with
  | O => (xi', S iter, f xi)
  | S fuel => if (Nat.ltb (S iter) m1_max_iter && Rlt_bool m1_tol (Rabs (f xi)))%bool then m1_loop f fuel (S iter) xi' else (xi', S iter, f xi)
  end.
Definition SolveClosure (f : R -> R) (xi_guess : R) : R * ClosureStatus :=
  let '(xi, iter, _) := m1_loop f m1_max_iter 0 xi_guess in
  (xi, if Nat.leb m1_max_iter iter then Cfailure else Csuccess).
(** closure_m1.hpp:73-88 (GetConTilPiFromCon) with 189-197: F is divided by E and moved away
    from zero by 1e3 * numeric_limits<double>::min() for the solve (the offset is dropped
    here: 1e3 * 2^-1022); the pressure tensor uses the original F *)
Definition GetConTilPiFromCon (c : Closure) (eq : ClosureEquation) (E0 : R) (F : vec) (xi_guess : R) : mat * R * ClosureStatus :=
  let E := match eq with energy_conserve => E0 | number_conserve => E0 / cW c + sum3 (fun i => con_v c i * F i) end in
  let Fn := fun i => gratio (F i) E in
  let '(xi, st) := SolveClosure (fun xi => M1Residual c 1 Fn xi PI (basis_g c Fn) (basis_d c Fn)) xi_guess in
  (M1FluidPressureTensor c xi PI (basis_g c F) (basis_d c F), xi, st).
