(** Model of RootFind::itp, src/phoebus_utils/root_find.hpp:169-221.
    Over the reals only, because std::log2, std::ceil and std::pow are not part
    of IEEE-754's correctly rounded operations. *)
From Coq Require Import ZArith List Reals.
From Flocq Require Import Core.
From Verif.Model Require Import Num RootFind.
Import ListNotations.
Local Open Scope R_scope.

Section ITP.
  Variable func : R -> R.

  (** root_find.hpp:176  ceil(log2(0.5 * (b - a) / tol)) + n0, n0 = 0.  When
      b <= a or tol <= 0 the C++ converts a non-finite double to int (undefined);
      the theorems about itp therefore assume a < b and 0 < tol. *)
  Definition itp_nmax (a b tol : R) : Z :=
    Zceil (ln (/ 2 * (b - a) / tol) / ln 2).

  (** root_find.hpp:193-200  the point at which the residual is evaluated;
      kappa1 = 0.1, kappa2 = 2 (lines 172-173) *)
  Definition itp_point (nmax : Z) (tol a b ya yb : R) (count : Z) : R :=
    let xh := / 2 * (a + b) in
    let xf := (yb * a - ya * b) / (yb - ya) in
    let xhxf := xh - xf in
    let delta := std_min (1 / 10 * (b - a) ^ 2) (Rabs xhxf) in
    let sigma := if Rlt_bool 0 xhxf then 1 else -1 in
    let xt := if Rle_bool delta (sigma * xhxf) then xf + sigma * delta else xh in
    let r := tol * powerRZ 2 (nmax - count) - / 2 * (b - a) in
    if Rlt_bool r (Rabs (xt - xh)) then xh - sigma * r else xt.

  (** root_find.hpp:192-213 *)
  Fixpoint itp_loop (fuel : nat) (nmax : Z) (tol sign a b ya yb : R) (count : Z)
           (tr : list R) : R * R * Z * list R :=
    match fuel with
    | O => (a, b, count, tr)
    | S fuel' =>
      if Rlt_bool (2 * tol) (b - a) then
        let xitp := itp_point nmax tol a b ya yb count in
        let yitp := sign * func xitp in
        if Rlt_bool 0 yitp then
          itp_loop fuel' nmax tol sign a xitp ya yitp (count + 1) (tr ++ [xitp])
        else if Rlt_bool yitp 0 then
          itp_loop fuel' nmax tol sign xitp b yitp yb (count + 1) (tr ++ [xitp])
        else
          itp_loop fuel' nmax tol sign xitp xitp ya yb (count + 1) (tr ++ [xitp])
      else (a, b, count, tr)
    end.

  (** root_find.hpp:169-221.  nmax is computed from the bracket before
      refinement (line 176), as in the code. *)
  Definition itp (rf : RootFind) (a b tol guess : R) (have_status : bool) : outcome R :=
    let nmax := itp_nmax a b tol in
    let '(a, b, ya, yb, tr) := refine_bracket func guess a b in
    if negb (check_bracket ya yb) then
      if have_status then Returned guess (Some failure) rf tr else Aborted
    else
      let sign := if Rlt_bool ya 0 then 1 else -1 in
      let ya := ya * sign in
      let yb := yb * sign in
      let '(a, b, count, tr) :=
        itp_loop (budget rf) nmax tol sign a b ya yb (iteration_count rf) tr in
      Returned (/ 2 * (a + b)) (report have_status count (max_iter rf))
               (mkRootFind count (max_iter rf)) tr.
End ITP.
