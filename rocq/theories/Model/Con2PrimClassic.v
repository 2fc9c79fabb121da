(** src/fluid/con2prim.hpp, the "classic" two-dimensional Newton inversion selected with
    fluid/c2p_method = classic (fluid.cpp:66-75, 520-560).

    The solver is written over the class [Num], so that it can be read over the reals and
    over IEEE doubles; Setup and Finalize are written over the reals, except the initial
    guess.  The equation of state is a record of functions of density, temperature and
    electron fraction (lambda[0]).  The debugging output and the second, printing call of
    solve under NDEBUG are not modelled.  Optional fields are present (their index is
    positive) exactly when the flags [mhd], [hasye] say so. *)
From Coq Require Import ZArith Reals Bool.
From Verif.Model Require Import Num Robust Geometry Relativity Prim2Con.
From Verif.Spec Require Import Tensor.

Section Solver.
  Context {T : Type} `{Num T}.
  Local Open Scope num_scope.

  (** the two equation-of-state calls of the residual, at a fixed lambda *)
  Variables (P E : T -> T -> T).
  (** con2prim.hpp:75-79  the members of Residual; BdotSsq_ = BdotS * BdotS (line 40) *)
  Variables (D tau Bsq Ssq BdotS : T).

  (** con2prim.hpp:50-55 *)
  Definition sfunc (z Wp : T) : T :=
    let zBsq := (z + Bsq) * (z + Bsq) in
    (zBsq - Ssq - (nlit 2 1 * z + Bsq) * (BdotS * BdotS) / (z * z)) * Wp * Wp - zBsq.
  (** con2prim.hpp:56-59 *)
  Definition taufunc (z Wp p : T) : T :=
    (tau + D - z - Bsq + BdotS * BdotS / (nlit 2 1 * z * z) + p) * Wp * Wp + nlit 1 2 * Bsq.
  (** con2prim.hpp:60-68 *)
  Definition residual (rho Temp : T) : T * T :=
    let p := P rho Temp in
    let sie := E rho Temp in
    let Wp := D / rho in
    let z := (rho * (nlit 1 1 + sie) + p) * Wp * Wp in
    (sfunc z Wp, taufunc z Wp p).

  Variables (rel_tolerance : T) (max_iter : Z).

  (** con2prim.hpp:302-305 *)
  Definition delta_fact_min : T := nlit 1 1000000.
  Definition delta_adj : T := nlit 12 10.
  Definition idelta_adj : T := nlit 1 1 / delta_adj.
  Definition delta_min : T := make_positive (rel_tolerance * delta_fact_min).

  (** con2prim.hpp:308-311, 316-319 *)
  Definition fd_delta (fact x : T) : T :=
    let d := fact * x in
    if nabs d <? delta_min then nlit (sgn d) 1 * delta_min else d.

  (** the loop's variables.  The temperature and density are the stored primitives. *)
  Record It := mkIt { it_rho : T; it_T : T; it_res : T * T; it_fact : T; it_n : Z; it_conv : bool }.

  (** con2prim.hpp:308-322: the Jacobian by forward differences *)
  Definition jacobian (fact rho Temp : T) (res : T * T) : (T * T) * (T * T) :=
    let drho := fd_delta fact rho in
    let idrho := ratio (nlit 1 1) drho in
    let resp := residual (rho + drho) Temp in
    let j00 := (fst resp - fst res) * idrho in
    let j10 := (snd resp - snd res) * idrho in
    let dT := fd_delta fact Temp in
    let idT := ratio (nlit 1 1) dT in
    let resp' := residual rho (Temp + dT) in
    let j01 := (fst resp' - fst res) * idT in
    let j11 := (snd resp' - snd res) * idT in
    ((j00, j01), (j10, j11)).
  Definition jdet (J : (T * T) * (T * T)) : T :=
    fst (fst J) * snd (snd J) - snd (fst J) * fst (snd J).

  Definition norm_res (r : T * T) : T := fst r * fst r + snd r * snd r.

  (** con2prim.hpp:364-371: while (res1 >= res0 && cnt < 5), [n] = 5 - cnt *)
  Fixpoint line_search (n : nat) (rho Temp drho dT res0 alpha : T) (res : T * T) : T * (T * T) :=
    match n with
    | O => (alpha, res)
    | S n' =>
        if norm_res res >=? res0 then
          let alpha' := alpha * nlit 1 2 in
          let res' := residual (rho + alpha' * drho) (Temp + alpha' * dT) in
          line_search n' rho Temp drho dT res0 alpha' res'
        else (alpha, res)
    end.

  (** con2prim.hpp:348-355: keep the density in (0, D] and the temperature positive *)
  Definition limit_rho (rho drho : T) : T :=
    let alpha :=
      if rho + drho <? nzero then nopp (nlit 1 10) * rho / drho
      else if rho + drho >? D then (D - rho) / drho
      else nlit 1 1 in
    alpha * drho.
  Definition limit_T (Temp dT : T) : T :=
    if Temp + dT <? nzero then nopp (nlit 1 10) * Temp else dT.

  (** con2prim.hpp:307-379: one pass of the do loop *)
  Definition pass (s : It) : It :=
    let rho := it_rho s in let Temp := it_T s in let res := it_res s in
    let J := jacobian (it_fact s) rho Temp res in
    let det := jdet J in
    let idet := nlit 1 1 / det in
    if nabs det <? nlit 1 10000000000000000 then
      mkIt rho Temp res (it_fact s * delta_adj) (it_n s + 1) (it_conv s)
    else
      let '((j00, j01), (j10, j11)) := J in
      let drho := nopp (fst res * j11 - j01 * snd res) * idet in
      let dT := nopp (j00 * snd res - j10 * fst res) * idet in
      let conv := if (nabs drho / rho <? rel_tolerance) && (nabs dT / Temp <? rel_tolerance)
                  then true else it_conv s in
      let drho' := limit_rho rho drho in
      let dT' := limit_T Temp dT in
      let res0 := norm_res res in
      let res1 := residual (rho + drho') (Temp + dT') in
      let '(alpha, resf) := line_search 5 rho Temp drho' dT' res0 (nlit 1 1) res1 in
      mkIt (rho + alpha * drho') (Temp + alpha * dT') resf
           (it_fact s * (if it_fact s >? delta_fact_min then idelta_adj else nlit 1 1))
           (it_n s + 1) conv.

  (** con2prim.hpp:307, 381: do ... while (converged != true && iter < max_iter); the fuel
      is the number of passes that max_iter allows after the first *)
  Fixpoint loop (fuel : nat) (s : It) : It :=
    let s' := pass s in
    match fuel with
    | O => s'
    | S k => if negb (it_conv s') && (it_n s' <? max_iter)%Z then loop k s' else s'
    end.

  (** con2prim.hpp:297-306, 381-391: [true] is ConToPrimStatus::success *)
  Definition solve_classic (rho Temp : T) : bool * It :=
    let s := loop (Z.to_nat max_iter) (mkIt rho Temp (residual rho Temp) delta_fact_min 0 false) in
    (it_conv s, s).

  (** con2prim.hpp:428-429: the initial density; [vv] is gcov_ij v^i v^j of the stored velocity *)
  Definition initial_rho (vv : T) : T :=
    let W := nsqrt (nlit 1 1 / (nlit 1 1 - vv)) in
    D / W.
End Solver.

Local Open Scope R_scope.

(** equation of state: pressure, specific internal energy and bulk modulus as functions of
    density, temperature and lambda[0] *)
Record TEOS := mkTEOS { t_P : R -> R -> R -> R; t_E : R -> R -> R -> R; t_B : R -> R -> R -> R }.

(** CellGeom, con2prim.hpp:101-126 *)
Record CGeom := mkCGeom { cg_gcov : mat; cg_gcon : mat; cg_beta : vec; cg_gdet : R; cg_lapse : R }.

(** what Setup stores: the scratch variables and the primitives it sets *)
Record Scratch := mkScratch {
  x_D : R; x_tau : R; x_Bsq : R; x_Ssq : R; x_BdotS : R; x_B : vec; x_ye : R; x_rho : R }.

(** con2prim.hpp:396-430.  [vel], [ye] are the stored primitives before the call *)
Definition setup_classic (mhd hasye : bool) (g : CGeom) (c : Cons) (vel : vec) (ye : R) : Scratch :=
  let igdet := 1 / cg_gdet g in
  let D := cD c * igdet in
  let tau := ctau c * igdet in
  let B : vec := if mhd then fun i => cB c i * igdet else fun _ => 0 in
  {| x_D := D;
     x_tau := tau;
     x_ye := if hasye then cye c / cD c else ye;
     x_B := B;
     x_Bsq := if mhd then sum3 (fun i => sum3 (fun j => cg_gcov g i j * B i * B j)) else 0;
     x_BdotS := if mhd then sum3 (fun i => B i * cS c i) * igdet else 0;
     x_Ssq := sum3 (fun i => sum3 (fun j => cg_gcon g i j * cS c i * cS c j)) * (igdet * igdet);
     x_rho := initial_rho D (sum3 (fun i => sum3 (fun j => cg_gcov g i j * vel i * vel j))) |}.

(** the operator(), con2prim.hpp:285-293: the Residual is built with the constructor that
    leaves lambda at its default {0, 0} *)
Definition call_classic (eos : TEOS) (tol : R) (max_iter : Z) (x : Scratch) (Temp : R) : bool * It :=
  solve_classic (fun r t => t_P eos r t 0) (fun r t => t_E eos r t 0)
    (x_D x) (x_tau x) (x_Bsq x) (x_Ssq x) (x_BdotS x) tol max_iter (x_rho x) Temp.

(** the primitives after Finalize *)
Record Prims := mkPrims {
  p_rho : R; p_T : R; p_vel : vec; p_B : vec; p_ye : R; p_eng : R; p_prs : R; p_gm1 : R; p_sig : vec }.

(** con2prim.hpp:245-254: the speed estimate *)
Definition classic_fast2 (BdotS Bsq H W gm1 prs : R) : R :=
  let vasq := BdotS / (H * W) in
  let vasq := Bsq + vasq * vasq in
  let vasq := vasq / (H + vasq) in
  let cssq := gm1 * prs / H in
  cssq + (vasq - cssq * vasq).

(** con2prim.hpp:214-268 *)
Definition finalize_classic (mhd hasye : bool) (eos : TEOS) (g : CGeom) (c : Cons) (x : Scratch) (rho Temp : R) : Prims :=
  let igdet := 1 / cg_gdet g in
  let lam := if hasye then x_ye x else 0 in
  let prs := t_P eos rho Temp lam in
  let eng := rho * t_E eos rho Temp lam in
  let H := rho + eng + prs in
  let gm1 := t_B eos rho Temp lam / prs in
  let W := x_D x / rho in
  let W2 := W * W in
  let z := (rho + eng + prs) * W2 in
  let izbsq := 1 / (z + x_Bsq x) in
  let v : vec := fun i =>
    let sconi := sum3 (fun j => cg_gcon g i j * cS c j) * igdet in
    if mhd then izbsq * (sconi + x_BdotS x * x_B x i / z) else izbsq * sconi in
  let cssq := classic_fast2 (x_BdotS x) (x_Bsq x) H W gm1 prs in
  let vsq := 1 - 1 / W2 in
  {| p_rho := rho; p_T := Temp; p_ye := x_ye x; p_B := x_B x; p_eng := eng; p_prs := prs; p_gm1 := gm1;
     p_vel := fun i => W * v i;
     p_sig := fun m => let '(vp, vm) := signal_vpm cssq v vsq (cg_lapse g) (cg_beta g) (cg_gcon g) m in
                       std_max (Rabs vp) (Rabs vm) |}.
