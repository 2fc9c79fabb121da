(** Model of src/phoebus_utils/root_find.hpp (namespace root_find).

    The residual [F func] is modelled as a pure function T -> T.  The
    simplification: functors with side effects (counters inside the functor)
    are not modelled.  Each routine returns, besides the C++ results, the list
    of points at which the residual was evaluated, oldest first, so that
    claims about where and how often the residual is called can be stated. *)
From Coq Require Import ZArith List Bool.
From Verif.Model Require Import Num.
Import ListNotations.

(** root_find.hpp:19 *)
Inductive RootFindStatus := success | failure.

(** root_find.hpp:21-24,265  int iteration_count, max_iter *)
Record RootFind := mkRootFind { iteration_count : Z; max_iter : Z }.

(** root_find.hpp:23-24  constructor *)
Definition new_RootFind (max_iterations : Z) : RootFind :=
  mkRootFind 0 max_iterations.

(** What a call can do.  [Returned x st rf tr]: returns x, writes st to
    *status when the pointer is not null (None otherwise), leaves the solver
    object rf, having evaluated the residual at tr.  [Aborted]:
    PARTHENON_FAIL.  [Undefined]: an uninitialised variable was read. *)
Inductive outcome (T : Type) :=
| Returned (x : T) (st : option RootFindStatus) (rf : RootFind) (trace : list T)
| Aborted
| Undefined.
Arguments Returned {T}.
Arguments Aborted {T}.
Arguments Undefined {T}.

Section RootFinders.
  Context {T : Type} `{Num T}.
  Local Open Scope num_scope.
  Variable func : T -> T.

  (** root_find.hpp:26-39  true when the root is treated as bracketed *)
  Definition check_bracket (ya yb : T) : bool := negb (ya * yb >? nzero).

  (** root_find.hpp:41-58  returns (a, b, ya, yb, points evaluated) *)
  Definition refine_bracket (guess a b : T) : T * T * T * T * list T :=
    if (a <=? guess) && (b >=? guess) then
      let ya := func guess in
      let yb := func b in
      if ya * yb >? nzero
      then (a, guess, func a, ya, [guess; b; a])
      else (guess, b, ya, yb, [guess; b])
    else (a, b, func a, func b, [a; b]).

  (** root_find.hpp:101-104, 161-164, 215-218, 257-260 *)
  Definition final_status (count maxi : Z) : RootFindStatus :=
    if Z.eqb count maxi then failure else success.

  Definition report (have_status : bool) (count maxi : Z) : option RootFindStatus :=
    if have_status then Some (final_status count maxi) else None.

  (** root_find.hpp:81-99.  [fuel] is max_iter - iteration_count, so the test
      iteration_count < max_iter is fuel <> 0.  State: x1 x2 y1 y2. *)
  Fixpoint secant_loop (fuel : nat) (tol sign x1 x2 y1 y2 : T) (count : Z) (tr : list T)
    : T * T * Z * list T :=
    match fuel with
    | O => (x1, x2, count, tr)
    | S fuel' =>
      if nabs (x2 - x1) >? nlit 2 1 * tol then
        let x0 := (x1 * y2 - x2 * y1) / (y2 - y1) in
        if x0 =? x1 then secant_loop fuel' tol sign x1 x1 y1 y2 (count + 1)%Z tr
        else if x0 =? x2 then secant_loop fuel' tol sign x2 x2 y1 y2 (count + 1)%Z tr
        else
          let y0 := sign * func x0 in
          secant_loop fuel' tol sign x0 x1 y0 y1 (count + 1)%Z (tr ++ [x0])
      else (x1, x2, count, tr)
    end.

  (** number of iterations still allowed *)
  Definition budget (rf : RootFind) : nat := Z.to_nat (max_iter rf - iteration_count rf).

  (** root_find.hpp:60-107 *)
  Definition secant (rf : RootFind) (a b tol guess : T) (have_status : bool) : outcome T :=
    let '(a, b, ya, yb, tr) := refine_bracket guess a b in
    let start :=
      if a =? guess then Some (a, ya, b, yb)
      else if b =? guess then Some (b, yb, a, ya)
      else None in
    match start with
    | None => Undefined
    | Some (x1, y1, x2, y2) =>
      let sign := if y1 <? nzero then nlit 1 1 else nlit (-1) 1 in
      let y1 := y1 * sign in
      let y2 := y2 * sign in
      let '(x1, x2, count, tr) :=
        secant_loop (budget rf) tol sign x1 x2 y1 y2 (iteration_count rf) tr in
      Returned (nlit 1 2 * (x1 + x2)) (report have_status count (max_iter rf))
               (mkRootFind count (max_iter rf)) tr
    end.

  (** root_find.hpp:129-159.  b1, b2 are the C++ ints of the same name. *)
  Fixpoint regula_loop (fuel : nat) (tol sign a b ya yb : T) (b1 b2 : Z) (count : Z)
           (tr : list T) : T * T * Z * list T :=
    match fuel with
    | O => (a, b, count, tr)
    | S fuel' =>
      if b - a >? nlit 2 1 * tol then
        let c := (a * yb - b * ya) / (yb - ya) in
        if c =? a then regula_loop fuel' tol sign a a ya yb b1 b2 (count + 1)%Z tr
        else if c =? b then regula_loop fuel' tol sign b b ya yb b1 b2 (count + 1)%Z tr
        else
          let yc := sign * func c in
          if yc >? nzero then
            let b1' := (b1 + 1)%Z in
            regula_loop fuel' tol sign a c
              (ya * (if (1 <? b1')%Z then nlit 1 2 else nlit 1 1)) yc b1' 0%Z
              (count + 1)%Z (tr ++ [c])
          else if yc <? nzero then
            let b2' := (b2 + 1)%Z in
            regula_loop fuel' tol sign c b yc
              (yb * (if (1 <? b2')%Z then nlit 1 2 else nlit 1 1)) 0%Z b2'
              (count + 1)%Z (tr ++ [c])
          else regula_loop fuel' tol sign c c ya yb b1 b2 (count + 1)%Z (tr ++ [c])
      else (a, b, count, tr)
    end.

  (** root_find.hpp:109-167 *)
  Definition regula_falsi (rf : RootFind) (a b tol guess : T) (have_status : bool)
    : outcome T :=
    let '(a, b, ya, yb, tr) := refine_bracket guess a b in
    if negb (check_bracket ya yb) then
      if have_status then Returned guess (Some failure) rf tr else Aborted
    else
      let sign := if ya <? nzero then nlit 1 1 else nlit (-1) 1 in
      let ya := ya * sign in
      let yb := yb * sign in
      let '(a, b, count, tr) :=
        regula_loop (budget rf) tol sign a b ya yb 0 0 (iteration_count rf) tr in
      Returned (nlit 1 2 * (a + b)) (report have_status count (max_iter rf))
               (mkRootFind count (max_iter rf)) tr.

  (** root_find.hpp:241-255.  ya and yb are assigned but never read in this
      loop, so they are not carried. *)
  Fixpoint bisect_loop (fuel : nat) (tol sign a b : T) (count : Z) (tr : list T)
    : T * T * Z * list T :=
    match fuel with
    | O => (a, b, count, tr)
    | S fuel' =>
      if b - a >? tol then
        let xh := nlit 1 2 * (a + b) in
        let yh := sign * func xh in
        if yh >? nzero then bisect_loop fuel' tol sign a xh (count + 1)%Z (tr ++ [xh])
        else if yh <? nzero then bisect_loop fuel' tol sign xh b (count + 1)%Z (tr ++ [xh])
        else bisect_loop fuel' tol sign xh xh (count + 1)%Z (tr ++ [xh])
      else (a, b, count, tr)
    end.

  (** root_find.hpp:223-263 *)
  Definition bisect (rf : RootFind) (a b tol : T) (have_status : bool) : outcome T :=
    let ya := func a in
    let yb := func b in
    let tr := [a; b] in
    if negb (check_bracket ya yb) then
      if have_status then Returned ((a + b) / nlit 2 1) (Some failure) rf tr else Aborted
    else
      let sign := if ya <? nzero then nlit 1 1 else nlit (-1) 1 in
      let '(a, b, count, tr) :=
        bisect_loop (budget rf) tol sign a b (iteration_count rf) tr in
      Returned (nlit 1 2 * (a + b)) (report have_status count (max_iter rf))
               (mkRootFind count (max_iter rf)) tr.
End RootFinders.
