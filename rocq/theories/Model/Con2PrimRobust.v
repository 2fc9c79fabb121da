(** src/fluid/con2prim_robust.hpp over the reals (robust::ratio as in Model/Geometry.v).
    The NaN tests (con2prim_robust.hpp:303-304, 441-445) are always false over the reals
    and are not modelled.  The equation of state and the floors are arbitrary functions. *)
From Coq Require Import Reals Arith ZArith Bool.
From Flocq Require Import Core.
From Verif.Model Require Import Num Robust Geometry Relativity Prim2Con RootFind.
From Verif.Spec Require Import Tensor.
Local Open Scope R_scope.

(** con2prim_robust.hpp:46-180 class Residual.  The members used_*_ are overwritten by
    every call, so each method also returns the flags it sets.
    [rho_floor]: rho_floor_ after the scaling of line 61; [e_floor rho]: e_floor_ after
    lines 103-104, from the density the floor routine is given; [P rho e]: the equation of
    state at the electron fraction of the cell. *)
Section Residual.
Variables (D q bsq bsq_rpsq rsq rbsq v0sq rho_floor e_max : R) (e_floor : R -> R) (P : R -> R -> R).

(** lines 64-65 *)
Definition x_mu (mu : R) : R := gratio 1 (1 + mu * bsq).
(** lines 66-69 *)
Definition rbarsq_mu (mu x : R) : R := x * (x * rsq + mu * (1 + x) * rbsq).
(** lines 70-74 *)
Definition qbar_mu (mu x : R) : R := let mux := mu * x in q - / 2 * (bsq + mux * mux * bsq_rpsq).
(** lines 75-85 *)
Definition vhatsq_mu (mu rbarsq : R) : R * bool :=
  let vsq_trial := mu * mu * rbarsq in
  if Rlt_bool v0sq vsq_trial then (v0sq, true) else (vsq_trial, false).
(** lines 86-87 *)
Definition iWhat_mu (vhatsq : R) : R := sqrt (1 - vhatsq).
(** lines 88-98 *)
Definition rhohat_mu (iWhat : R) : R * bool :=
  let rho_trial := D * iWhat in
  if Rle_bool rho_trial rho_floor then (rho_floor, true) else (rho_trial, false).
(** lines 99-118: value, used_energy_floor_, used_energy_max_ *)
Definition ehat_mu (mu qbar rbarsq vhatsq What : R) : R * bool * bool :=
  let rho := fst (rhohat_mu (gratio 1 What)) in
  let efl := e_floor rho in
  let ehat_trial := What * (qbar - mu * rbarsq) + vhatsq * What * gratio What (1 + What) in
  if Rle_bool ehat_trial efl then (efl, true, false)
  else if Rlt_bool e_max ehat_trial then (e_max, false, true)
  else (ehat_trial, false, false).
(** lines 120-141 *)
Definition residual (mu : R) : R :=
  let x := x_mu mu in
  let rbarsq := rbarsq_mu mu x in
  let qbar := qbar_mu mu x in
  let vhatsq := fst (vhatsq_mu mu rbarsq) in
  let iWhat := iWhat_mu vhatsq in
  let What := gratio 1 iWhat in
  let rhohat := fst (rhohat_mu iWhat) in
  let ehat := fst (fst (ehat_mu mu qbar rbarsq vhatsq What)) in
  let Phat := P rhohat ehat in
  let hhat := rhohat * (1 + ehat) + Phat in
  let ahat := Phat / make_positive (hhat - Phat) in
  let nua := (1 + ahat) * (1 + ehat) * iWhat in
  let nub := (1 + ahat) * (1 + qbar - mu * rbarsq) in
  let nuhat := std_max nua nub in
  let muhat := 1 / (nuhat + mu * rbarsq) in
  mu - muhat.
End Residual.

(** equation of state as used here; the third argument is the electron fraction (lambda[0]);
    lambda[1], an initial guess for the temperature solve, is not modelled *)
Record EOS := mkEOS {
  eos_P : R -> R -> R -> R;   (* PressureFromDensityInternalEnergy *)
  eos_T : R -> R -> R -> R;   (* TemperatureFromDensityInternalEnergy *)
  eos_PT : R -> R -> R -> R;  (* PressureFromDensityTemperature *)
  eos_BT : R -> R -> R -> R   (* BulkModulusFromDensityTemperature *) }.

(** con2prim_robust.hpp:198-221 struct CellGeom *)
Record CellGeom := mkCell {
  c_gcov4 : mat; c_gcon : mat; c_beta : vec; c_gdet : R; c_lapse : R }.

(** limits at the cell: floors as a function of the in-out density argument
    (Model/Floors.v), and ceilings; floor_scale_fac_, fail_on_floors_, fail_on_ceilings_ *)
Record Limits := mkLimits {
  l_floors : R -> R * R; l_gam_max : R; l_e_max : R; l_fac : R;
  l_fail_floors : bool; l_fail_ceilings : bool }.

(** con2prim_robust.hpp:40-44 *)
Inductive ConToPrimStatus := c2p_success | c2p_failure.

(** what solve leaves in the cell, the flags of the residual object and the return value *)
Record C2POut := mkOut {
  o_rho : R; o_vel : vec; o_eng : R; o_B : vec; o_ye : R; o_tmp : R; o_prs : R; o_gm1 : R;
  o_cons : Cons; o_mu : R;
  o_rho_floored : bool; o_e_floored : bool; o_e_maxed : bool; o_gamma_maxed : bool;
  o_status : ConToPrimStatus }.

(** con2prim_robust.hpp:299-453 solve.  [mhd] is pb_hi > 0, [hasye] is pye > 0,
    [valencia] is USE_VALENCIA.  Of the conserved state, csig is ignored on input and
    holds the signal speeds on output. *)
Section Solve.
Variables (valencia mhd hasye : bool) (eos : EOS) (L : Limits) (g : CellGeom) (c : Cons).

(** lines 307-315 and 57-61 *)
Definition s_rhoflr : R := fst (l_floors L 0) * l_fac L.
Definition s_efl (rho : R) : R := snd (l_floors L rho) * l_fac L.
Definition s_D : R := cD c * (1 / c_gdet g).
(** lines 315-327 *)
Definition s_tau : R :=
  if valencia then ctau c * (1 / c_gdet g)
  else
    let Qcov : vec := fun mu => match mu with
      | O => (ctau c - cD c) * (1 / c_gdet g) | S m => cS c m * (1 / c_gdet g) end in
    let ncon : vec := fun mu => match mu with
      | O => 1 / c_lapse g | S m => - c_beta g m / c_lapse g end in
    - sum4 (fun mu => Qcov mu * ncon mu) - s_D.
Definition s_q : R := gratio s_tau s_D.
(** lines 329-330 *)
Definition s_ye : R := if hasye then gratio (cye c) (cD c) else / 2.
(** lines 339-346 *)
Definition s_rcov : vec := fun i => gratio (cS c i) (cD c).
Definition s_rcon : vec := fun i => sum3 (fun j => c_gcon g i j * s_rcov j).
Definition s_rsq : R := sum3 (fun i => s_rcon i * s_rcov i).
(** lines 347-362 *)
Definition s_B : vec := fun i => if mhd then cB c i * (1 / c_gdet g) else 0.
Definition s_sD : R := 1 / sqrt (std_max s_D s_rhoflr).
Definition s_bu : vec := fun i => if mhd then s_B i * s_sD else 0.
Definition s_bdotr : R := if mhd then sum3 (fun i => s_bu i * s_rcov i) else 0.
Definition s_bsq : R :=
  if mhd then std_max 0 (sum3 (fun i => sum3 (fun j => c_gcov4 g (i + 1)%nat (j + 1)%nat * s_bu i * s_bu j))) else 0.
Definition s_rbsq : R := if mhd then s_bdotr * s_bdotr else 0.
Definition s_bsq_rpsq : R := if mhd then s_bsq * s_rsq - s_rbsq else 0.
(** lines 363-364, h0sq_ = 1 *)
Definition s_v0sq : R :=
  let zsq := s_rsq / 1 in std_min (zsq / (1 + zsq)) (1 - 1 / (l_gam_max L * l_gam_max L)).

(** lines 366-367 *)
Definition s_residual : R -> R :=
  residual s_D s_q s_bsq s_bsq_rpsq s_rsq s_rbsq s_v0sq s_rhoflr (l_e_max L) s_efl
           (fun rho e => eos_P eos rho e s_ye).

(** lines 381-452, after the root finder has returned mu *)
Definition solve_at (mu : R) : C2POut :=
  let x := x_mu s_bsq mu in
  let rbarsq := rbarsq_mu s_rsq s_rbsq mu x in
  let '(vsq, used_gamma) := vhatsq_mu s_v0sq mu rbarsq in
  let iW := iWhat_mu vsq in
  let '(prho, used_rho0) := rhohat_mu s_D s_rhoflr iW in
  let qbar := qbar_mu s_q s_bsq s_bsq_rpsq mu x in
  let W := 1 / iW in
  let '(sie, used_efl, used_emax) := ehat_mu s_D s_rhoflr (l_e_max L) s_efl mu qbar rbarsq vsq W in
  (* ehat_mu calls rhohat_mu again, which sets used_density_floor_ last *)
  let used_rho := snd (rhohat_mu s_D s_rhoflr (gratio 1 W)) in
  let tmp := eos_T eos prho sie s_ye in
  let peng := sie * prho in
  let prs := eos_PT eos prho tmp s_ye in
  let gm1 := eos_BT eos prho tmp s_ye / prs in
  let vel : vec := fun i => W * mu * x * (s_rcon i + mu * s_bdotr * s_bu i) in
  let bounds_used := used_rho || used_efl || used_emax || used_gamma in
  let ye_prim := if hasye then s_ye else 0 in
  let cons :=
    if bounds_used then
      let n := p2c valencia prho vel s_B peng ye_prim prs gm1 (c_gcov4 g) (c_gcon g) (c_beta g) (c_lapse g) (c_gdet g) in
      {| cD := cD n; cS := cS n; cB := cB c; ctau := ctau n;
         cye := if hasye then cye n else cye c; csig := csig n |}
    else
      let vel' : vec := fun m => vel m * iW in
      let bsq0 := sum3 (fun m => sum3 (fun n => s_B m * s_B n * c_gcov4 g (m + 1)%nat (n + 1)%nat)) in
      let bdotv := sum3 (fun m => sum3 (fun n => s_B m * vel' n * c_gcov4 g (m + 1)%nat (n + 1)%nat)) in
      let bsq := if mhd then iW * iW * bsq0 + bdotv * bdotv else 0 in
      {| cD := cD c; cS := cS c; cB := cB c; ctau := ctau c; cye := cye c;
         csig := signal_speeds prho peng prs bsq vel' vsq gm1 (c_lapse g) (c_beta g) (c_gcon g) |} in
  {| o_rho := prho; o_vel := vel; o_eng := peng; o_B := s_B; o_ye := s_ye; o_tmp := tmp;
     o_prs := prs; o_gm1 := gm1; o_cons := cons; o_mu := mu;
     o_rho_floored := used_rho; o_e_floored := used_efl; o_e_maxed := used_emax; o_gamma_maxed := used_gamma;
     o_status := if l_fail_floors L && (used_rho || used_efl) then c2p_failure
                 else if l_fail_ceilings L && used_gamma then c2p_failure else c2p_success |}.

(** lines 366-376: the root finder, and what is done with its answer.  None: the root
    finder aborts (PARTHENON_FAIL) because the root is not bracketed. *)
Definition solve (max_iter : Z) (tol guess : R) : option C2POut :=
  match regula_falsi s_residual (new_RootFind max_iter) 0 1 tol guess false with
  | Returned mu _ _ _ => Some (solve_at mu)
  | _ => None
  end.
End Solve.
