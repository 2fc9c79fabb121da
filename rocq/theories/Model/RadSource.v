(** src/radiation/moments_source.cpp, radiation.cpp:550-583, cooling_function.cpp:296-330:
    exchange of energy and momentum between matter and radiation in one zone.

    Simplifications: real arithmetic (the isnan tests never fire); the equation of state and
    the opacities are arbitrary functions of the temperature, density and electron fraction
    being held fixed as in the code; printf and PARTHENON_DEBUG_* are dropped; the zerod
    solver, which aborts, is left out.  The uninitialised arrays dE and cov_dF
    (lines 337-338) are arguments of the functions that read them. *)
From Coq Require Import Reals Bool ZArith List.
From Flocq Require Import Core.
From Verif.Model Require Import Num RootFind Geometry LinearAlgebra Relativity Prim2Con Con2PrimRobust RadClosure Tetrads.
From Verif.Spec Require Import Tensor.
Import ListNotations.
Local Open Scope R_scope.

(** one radiation species as seen by the matter: absorption, scattering and thermal energy
    density as functions of the temperature (Opacities, at fixed density and Ye) *)
Record Species := { op_abs : R -> R; op_sc : R -> R; op_JBB : R -> R }.

(** *** the temperature equation *)
(** moments_source.cpp:169-193 (InteractionTResidual::operator()); [eu T] is
    rho * InternalEnergyFromDensityTemperature *)
Definition comoving_J1 (sp : Species) (dtau amax J0 T : R) : R :=
  let kappa := Rmin (op_abs sp T) amax in (J0 + dtau * kappa * op_JBB sp T) / (1 + dtau * kappa).
Definition InteractionTResidual (eu : R -> R) (ug0 dtau amax : R) (l : list (Species * R)) (T : R) : R :=
  let J0tot := fold_left (fun acc p => acc + snd p) l 0 in
  let dJtot := fold_left (fun acc p => acc + (comoving_J1 (fst p) dtau amax (snd p) T - snd p)) l 0 in
  ((eu T - ug0) + dJtot) / (ug0 + J0tot).

(** lines 369-380: the retries.  [k] is MAX_REBRACKETING_TRIES - n_rebracketing_tries. *)
Fixpoint rebracket (f : R -> R) (T0 tol : R) (k : nat) (fac : R) (rf : RootFind) (T1 : R) : R * RootFindStatus :=
  match k with
  | O => (T1, failure)
  | S k =>
    match regula_falsi f rf (1 / 10 / fac * T0) (10 * fac * T0) (tol * T0) T0 true with
    | Returned T1 (Some success) _ _ => (T1, success)
    | Returned T1 _ rf _ => rebracket f T0 tol k (fac * 10) rf T1
    | _ => (T1, failure)
    end
  end.
(** lines 357-380; src_rootfind_maxiter = maxi *)
Definition interaction_T (f : R -> R) (maxi : Z) (T0 tol : R) : R * RootFindStatus :=
  match regula_falsi f (new_RootFind maxi) (1 / 100 * T0) (100 * T0) (tol * T0) T0 true with
  | Returned T1 (Some success) _ _ => (T1, success)
  | Returned T1 _ rf _ => rebracket f T0 tol 4 10 rf T1
  | _ => (T0, failure)
  end.

(** *** the oned solver, lines 344-487, one species (line 351 requires num_species = 1) *)
(** radiation.hpp OneDFixupStrategy *)
Inductive OneDFixup := fix_none | ignore_dJ | ignore_all.
Record OneD := { od_ok : bool; od_dE : R; od_dF : vec; od_T : R }.
(** [c] is the closure object with the velocity at the start of the step; [Pi] the explicit
    Eddington tensor; [junkE], [junkF] are what dE[0] and cov_dF[0] hold on entry *)
Definition oned (c : Closure) (sp : Species) (f : R -> R) (maxi : Z) (T0 tol dt amax : R) (strat : OneDFixup)
    (Es : R) (Fs : vec) (Pi : mat) (junkE : R) (junkF : vec) : OneD :=
  let '(T1, st) := interaction_T f maxi T0 tol in
  let kJ := Rmin (op_abs sp T1) amax in
  let kH := Rmin (op_sc sp T1) amax + kJ in
  let '(ok, dE, dF) :=
    match st with
    | success =>
      let '(dE, dF) := LinearSourceUpdate c energy_conserve Es Fs Pi (op_JBB sp T1) (c_alpha c * dt * kJ) (c_alpha c * dt * kH) in
      (match Con2Prim c energy_conserve (Es + dE) (fun i => Fs i + dF i) Pi with (_, _, Csuccess) => true | _ => false end, dE, dF)
    | failure => (false, junkE, junkF)
    end in
  if ok then {| od_ok := true; od_dE := dE; od_dF := dF; od_T := T1 |}
  else match strat with
  | ignore_dJ =>
    let kJ := op_abs sp T1 in
    let kH := op_sc sp T1 + kJ in
    let '(dE, dF) := LinearSourceUpdate c energy_conserve Es Fs Pi (op_JBB sp T0) (c_alpha c * dt * kJ) (c_alpha c * dt * kH) in
    {| od_ok := match Con2Prim c energy_conserve (Es + dE) (fun i => Fs i + dF i) Pi with (_, _, Csuccess) => true | _ => false end;
       od_dE := dE; od_dF := dF; od_T := T1 |}
  | ignore_all => {| od_ok := true; od_dE := 0; od_dF := fun _ => 0; od_T := T1 |}
  | fix_none => {| od_ok := false; od_dE := dE; od_dF := dF; od_T := T1 |}
  end.

(** *** the fourd solver, lines 488-757 *)
Section FourD.
(** [mhd]: lines 57-67 (CalculateMHDConserved: energy and momentum of p2c at the primitive
    state P = (ug, velocity)); [radprim]: lines 82-104 (CalculateRadPrimitive), with status;
    [src]: lines 106-134; [flux_ratio P Prad]: the expression xi of lines 678-685 *)
Variables (mhd : vec -> vec) (radprim : vec -> vec -> vec * ClosureStatus) (src : vec -> vec -> vec) (flux_ratio : vec -> vec -> R).
Variables (U0 R0 : vec) (dt eps tol xi_max : R).
Record Eval := { e_P : vec; e_U : vec; e_R : vec; e_Pr : vec; e_S : vec; e_st : ClosureStatus }.
(** lines 532-535 and the same four calls elsewhere; CalculateRadConserved is lines 69-74 *)
Definition evaluate (P : vec) : Eval :=
  let U := mhd P in
  let Rr : vec := fun n => R0 n - (U n - U0 n) in
  let '(Pr, st) := radprim P Rr in
  {| e_P := P; e_U := U; e_R := Rr; e_Pr := Pr; e_S := src P Pr; e_st := st |}.
(** lines 536-538 *)
Definition resid (e : Eval) : vec := fun n => e_U e n - U0 n + dt * e_S e n.
(** lines 548-553; robust::LARGE() is the largest double / 10, any value above the others *)
Definition LARGE_ : R := IZR (2 ^ 1020).
Definition mag_min (P : vec) : R :=
  fold_left (fun acc m => if Rlt_bool 0 (Rabs (P m)) then Rmin acc (Rabs (P m)) else acc) [0; 1; 2; 3]%nat LARGE_.
(** lines 562-563 *)
Definition fd_step (P : vec) (m : nat) : R := Rmax (eps * mag_min P) (eps * Rabs (P m)).
Definition bump (P : vec) (m : nat) (h : R) : vec := fun n => if Nat.eqb n m then P n + h else P n.
Definition failed (st : ClosureStatus) : bool := match st with Cfailure => true | _ => false end.
(** lines 555-652: the finite-difference Jacobian jac[n][m], None when both sides are bad *)
Definition jacobian (e : Eval) : option mat :=
  let P := e_P e in
  let em := fun m => evaluate (bump P m (- fd_step P m)) in
  let ep := fun m => evaluate (bump P m (fd_step P m)) in
  let bad_m := existsb (fun m => failed (e_st (em m))) [0; 1; 2; 3]%nat in
  let bad_p := existsb (fun m => failed (e_st (ep m))) [0; 1; 2; 3]%nat in
  if bad_m && bad_p then None
  else if bad_m then Some (fun n m => (resid (ep m) n - resid e n) / (e_P (ep m) m - P m))
  else if bad_p then Some (fun n m => (resid e n - resid (em m) n) / (P m - e_P (em m) m))
  else Some (fun n m => (resid (ep m) n - resid (em m) n) / (e_P (ep m) m - e_P (em m) m)).
(** lines 654-713: the Newton step with its rescaling; None when the guess stays bad *)
Definition SMALL100 : R := 1000 / IZR (2 ^ 1022).
Definition newton (e : Eval) (J : mat) : option Eval :=
  let Ji := matrixInverse4x4 J in
  let r := resid e in
  let step : vec := fun m => sum4 (fun n => Ji m n * r n) in
  let e1 := evaluate (fun m => e_P e m - step m) in
  if negb (failed (e_st e1)) then Some e1
  else
    let xi := flux_ratio (e_P e1) (e_Pr e1) in
    let s := 0 in
    let s := if Rlt_bool xi_max xi then Rmax s (xi_max / xi) else s in
    let s := if Rlt_bool (e_P e1 0%nat) SMALL100 then Rmax s ((e_P e 0%nat - SMALL100) / (e_P e 0%nat - e_P e1 0%nat)) else s in
    let s := if Rlt_bool (e_Pr e1 0%nat) SMALL100 then Rmax s ((e_Pr e 0%nat - SMALL100) / (e_Pr e 0%nat - e_Pr e1 0%nat)) else s in
    if negb (Rle_bool 1 s) then None
    else let s := s * / 2 in
      let e2 := evaluate (fun m => e_P e1 m + (1 - s) * step m) in
      match e_st e2 with Csuccess => Some e2 | _ => None end.
(** lines 726-739 *)
Definition max_divisor (e : Eval) : R :=
  fold_left (fun acc n => Rmax acc (Rabs (e_U e n) + Rabs (U0 n) + Rabs (dt * e_S e n))) [0; 1; 2; 3]%nat (10 / IZR (2 ^ 1022)).
Definition error (e : Eval) : R :=
  fold_left (fun acc n => if Rlt_bool acc (Rabs (resid e n) / max_divisor e) then Rabs (resid e n) / max_divisor e else acc) [0; 1; 2; 3]%nat (10 / IZR (2 ^ 1022)).
(** lines 543-755: [k] is src_rootfind_maxiter - niter; the last pass, after which
    niter = src_rootfind_maxiter, is always a failure (line 746) *)
Fixpoint fourd_loop (k : nat) (e : Eval) : option Eval :=
  match jacobian e with
  | None => None
  | Some J =>
    match newton e J with
    | None => None
    | Some e' =>
      match k with
      | O | S O => None
      | S k => if Rlt_bool tol (error e') then fourd_loop k e' else Some e'
      end
    end
  end.
(** lines 749-756: the increments, per volume *)
Definition fourd (maxi : nat) (sdet : R) (P0 : vec) : option (R * vec) :=
  match fourd_loop maxi (evaluate P0) with
  | None => None
  | Some e => Some ((e_R e 0%nat - R0 0%nat) / sdet, fun i => (e_R e (S i) - R0 (S i)) / sdet)
  end.
End FourD.

(** moments_source.cpp:106-134 (CalculateSource), [kap T] is the absorption coefficient,
    which line 112 adds to itself where the scattering coefficient is meant *)
Definition CalculateSource (kap JBBof : R -> R) (Tof : R -> R) (gcov : mat) (alpha sdet : R) (P Pr : vec) : vec :=
  let Tg := Tof (P 0%nat) in
  let kJ := kap Tg in
  let kH := kJ + kap Tg in
  let kH := Rmin kH 100000 in
  let kJ := Rmin kJ 100000 in
  let W := sqrt (1 + sum3 (fun i => sum3 (fun j => gcov (i + 1)%nat (j + 1)%nat * P (i + 1)%nat * P (j + 1)%nat))) in
  let cov_v : vec := fun i => sum3 (fun j => gcov (i + 1)%nat (j + 1)%nat * P (i + 1)%nat / W) in
  let vdH := sum3 (fun i => P (i + 1)%nat / W * Pr (i + 1)%nat) in
  fun n => match n with
  | O => alpha * sdet * (kJ * W * (JBBof Tg - Pr 0%nat) - kH * vdH)
  | S i => alpha * sdet * (kJ * W * cov_v i * (JBBof Tg - Pr 0%nat) - kH * Pr (1 + i)%nat)
  end.

(** *** applying the update to a zone, lines 766-960 *)
(** how the closure tensor is obtained in the recovery (lines 806-826, 850-868) *)
Inductive ClosureKind := kind_eddington | kind_m1 | kind_stored (Pi : nat -> mat).
Definition recovery_Pi (k : ClosureKind) (c : Closure) (s : nat) (E : R) (F : vec) : mat :=
  match k with
  | kind_eddington => fun _ _ => 0
  | kind_m1 => fst (fst (GetConTilPiFromCon c energy_conserve E F 0))
  | kind_stored Pi => Pi s
  end.
(** the variables of a zone: fluid conserved and primitive, radiation conserved (densitised)
    and primitive (z_H is the stored H / J) *)
Record Zone := mkZone {
  z_cons : Cons; z_rho : R; z_eng : R; z_vel : vec; z_ye : R; z_B : vec;
  z_E : nat -> R; z_F : nat -> vec; z_J : nat -> R; z_H : nat -> vec }.
Definition upd {A} (f : nat -> A) (s : nat) (x : A) : nat -> A := fun t => if Nat.eqb t s then x else f t.
(** what a pass did: the fluid inversion's answer, and successful_prim_recovery *)
Record StepLog := { l_inv : option C2POut; l_recovered : bool }.

Section Apply.
Variables (update_fluid mhdB hasye : bool) (eos : EOS) (eos_Bulk : R -> R -> R -> R) (kind : ClosureKind) (gamma : mat) (cell : CellGeom) (invert : Cons -> option C2POut).
Let sdet := c_gdet cell.
Let alpha := c_lapse cell.
Definition closure_at (vp : vec) : Closure :=
  let W := GetLorentzFactor vp gamma in mkClosure (fun i => vp i / W) gamma alpha false.
(** lines 794-795, 835-836: the radiation inversion, giving J and H / J *)
Definition recover (vp : vec) (s : nat) (E : R) (F : vec) : option (R * vec) :=
  let c := closure_at vp in
  match Con2Prim c energy_conserve E F (recovery_Pi kind c s E F) with
  | (J, H, Csuccess) => Some (J, fun i => H i / J)
  | _ => None
  end.
(** lines 773-777 *)
Definition add_radiation (z : Zone) (s : nat) (dE : R) (dF : vec) : Zone :=
  mkZone (z_cons z) (z_rho z) (z_eng z) (z_vel z) (z_ye z) (z_B z)
    (upd (z_E z) s (z_E z s + sdet * dE)) (upd (z_F z) s (fun i => z_F z s i + sdet * dF i)) (z_J z) (z_H z).
(** lines 788-794 *)
Definition take_from_fluid (c : Cons) (dE : R) (dF : vec) : Cons :=
  {| cD := cD c; cS := fun i => cS c i - sdet * dF i; cB := cB c; ctau := ctau c - sdet * dE;
     cye := cye c - sdet * 0; csig := csig c |}.
(** the zone after the fluid inversion has written its results *)
Definition after_inversion (z : Zone) (o : C2POut) : Zone :=
  mkZone (o_cons o) (o_rho o) (o_eng o) (o_vel o) (if hasye then o_ye o else z_ye z) (if mhdB then o_B o else z_B z)
    (z_E z) (z_F z) (z_J z) (z_H z).
Definition set_cons (z : Zone) (c : Cons) : Zone :=
  mkZone c (z_rho z) (z_eng z) (z_vel z) (z_ye z) (z_B z) (z_E z) (z_F z) (z_J z) (z_H z).
Definition set_radprim (z : Zone) (s : nat) (J : R) (H : vec) : Zone :=
  mkZone (z_cons z) (z_rho z) (z_eng z) (z_vel z) (z_ye z) (z_B z) (z_E z) (z_F z) (upd (z_J z) s J) (upd (z_H z) s H).
(** lines 884-960: the reset; SMALL = 10 * 2^-1022.  [conTilPi] is whatever the recovery
    left (zero when the fluid inversion failed); [junkB] stands for the uninitialised bp *)
Definition SMALL1 : R := 10 / IZR (2 ^ 1022).
Definition reset_fluid (z : Zone) (junkB : vec) : Zone :=
  let ye := if hasye then z_ye z else / 2 in
  let rho := SMALL10 in let u := SMALL10 in
  let p := eos_P eos rho (gratio u rho) ye in
  let T := eos_T eos rho (gratio u rho) ye in
  let gm1 := eos_Bulk rho T ye in
  let n := p2c true rho (fun _ => 0) (if mhdB then z_B z else junkB) u ye p gm1 (c_gcov4 cell) (c_gcon cell) (c_beta cell) alpha sdet in
  mkZone {| cD := cD n; cS := cS n; cB := cB (z_cons z); ctau := ctau n; cye := if hasye then cye n else cye (z_cons z); csig := csig (z_cons z) |}
    rho u (fun _ => 0) (z_ye z) (z_B z) (z_E z) (z_F z) (z_J z) (z_H z).
Definition reset (z : Zone) (s : nat) (Pi : mat) (junkB : vec) : Zone :=
  let z := if update_fluid then reset_fluid z junkB else z in
  let c := closure_at (z_vel z) in
  let '(E, F) := Prim2Con c energy_conserve SMALL1 (fun _ => 0) Pi in
  mkZone (z_cons z) (z_rho z) (z_eng z) (z_vel z) (z_ye z) (z_B z)
    (upd (z_E z) s (E * sdet)) (upd (z_F z) s (fun i => F i * sdet)) (upd (z_J z) s SMALL1) (upd (z_H z) s (fun _ => 0)).
(** the body of the loop over species; None: the fluid root finder aborts *)
Definition species_step (ok : bool) (vp0 : vec) (junkB : vec) (dE : nat -> R) (dF : nat -> vec) (s : nat) (z : Zone) : option (Zone * StepLog) :=
  let z := if ok then add_radiation z s (dE s) (dF s) else z in
  let E := z_E z s / sdet in
  let F : vec := fun i => z_F z s i / sdet in
  if update_fluid then
    let z := set_cons z (take_from_fluid (z_cons z) (dE s) (dF s)) in
    match invert (z_cons z) with
    | None => None
    | Some o =>
      let z := after_inversion z o in
      match o_status o with
      | c2p_failure => Some (reset z s (fun _ _ => 0) junkB, {| l_inv := Some o; l_recovered := false |})
      | c2p_success =>
        match recover (z_vel z) s E F with
        | Some (J, H) => Some (set_radprim z s J H, {| l_inv := Some o; l_recovered := true |})
        | None => Some (reset z s (recovery_Pi kind (closure_at (z_vel z)) s E F) junkB, {| l_inv := Some o; l_recovered := false |})
        end
      end
    end
  else
    match recover vp0 s E F with
    | Some (J, H) => Some (set_radprim z s J H, {| l_inv := None; l_recovered := true |})
    | None => Some (reset z s (recovery_Pi kind (closure_at vp0) s E F) junkB, {| l_inv := None; l_recovered := false |})
    end.
(** line 771: for ispec = 0 .. num_species - 1 *)
Fixpoint apply_source (n : nat) (ok : bool) (vp0 junkB : vec) (dE : nat -> R) (dF : nat -> vec) (z : Zone) : option (Zone * list StepLog) :=
  match n with
  | O => Some (z, [])
  | S n =>
    match apply_source n ok vp0 junkB dE dF z with
    | None => None
    | Some (z, l) =>
      match species_step ok vp0 junkB dE dF n z with
      | None => None
      | Some (z, x) => Some (z, l ++ [x])
      end
    end
  end.
End Apply.
(** line 311-313: the inversion used here fails on floors and on the velocity ceiling *)
Definition source_limits (fl : R -> R * R) (gmax emax fac : R) : Limits := mkLimits fl gmax emax fac true true.
Definition source_invert (mhdB hasye : bool) (eos : EOS) (L : Limits) (cell : CellGeom) (maxi : Z) (tol guess : R) (c : Cons) : option C2POut :=
  solve true mhdB hasye eos L cell c maxi tol guess.

(** *** the explicit four-force, radiation.cpp:571-581 *)
Definition ApplyRadiationFourForce (hasye : bool) (dt : R) (G : vec) (Gye : R) (c : Cons) : Cons :=
  {| cD := cD c; cS := fun i => cS c i + G (S i) * dt; cB := cB c; ctau := ctau c - G 0%nat * dt;
     cye := if hasye then cye c + Gye * dt else cye c; csig := csig c |}.
(** cooling_function.cpp:169-176 and 296-330, one species: Gcov and Gye start at zero and
    each species adds to them (Kokkos::atomic_add; this cell is touched once per species) *)
Definition add_cooling (u : vec) (gcov : mat) (detG J Jye lepton_sign : R) (acc : vec * R) : vec * R :=
  let Gt := TetradToCoordCov u default_trial gcov (fun m => match m with O => - J | _ => 0 end) in
  (fun m => fst acc m + - detG * Gt m, snd acc + - lepton_sign * detG * Jye).
(** cooling_function.cpp:262-289 (lightbulb): heat H and cooling C per mass, cdensity the
    densitised conserved density *)
Definition add_lightbulb (u : vec) (gcov : mat) (cdensity H C Jye : R) (acc : vec * R) : vec * R :=
  let Gt := TetradToCoordCov u default_trial gcov (fun m => match m with O => cdensity * (H - C) | _ => 0 end) in
  (fun m => fst acc m + - Gt m, snd acc + Jye).
