(** Model of src/phoebus_utils/robust.hpp (namespace robust). *)
From Coq Require Import ZArith.
From Verif.Model Require Import Num.

Section Robust.
  Context {T : Type} `{Num T}.
  Local Open Scope num_scope.

  (** robust.hpp:17-20  EPS() = 10 * numeric_limits<double>::epsilon(), epsilon = 2^-52 *)
  Definition EPS : T := nlit 10 (2 ^ 52).

  (** robust.hpp:13-16  SMALL() = 10 * numeric_limits<double>::min(), min = 2^-1022 *)
  Definition SMALL : T := nlit 10 (2 ^ 1022).

  (** robust.hpp:9-12  LARGE() = 0.1 * numeric_limits<double>::max(), max = (2^53-1) * 2^971 *)
  Definition LARGE : T := nlit 1 10 * (nlit (2 ^ 53 - 1) 1 * nlit (2 ^ 971) 1).

  (** robust.hpp:22-25  std::max(val, EPS<T>()) *)
  Definition make_positive (val : T) : T := std_max val EPS.

  (** robust.hpp:27-30  std::min(std::max(val, vmin + EPS()), vmax * (1.0 - EPS())) *)
  Definition make_bounded (val vmin vmax : T) : T :=
    std_min (std_max val (vmin + EPS)) (vmax * (nlit 1 1 - EPS)).

  (** robust.hpp:32-35  (T(0) <= val) - (val < T(0)), an int *)
  Definition sgn (val : T) : Z :=
    Z.sub (if nzero <=? val then 1%Z else 0%Z) (if val <? nzero then 1%Z else 0%Z).

  (** robust.hpp:36-40  a / (b + sgn * SMALL<B>()), sgn = b >= 0 ? 1 : -1 *)
  Definition ratio (a b : T) : T :=
    let s := if nzero <=? b then nlit 1 1 else nlit (-1) 1 in
    a / (b + s * SMALL).
End Robust.
