(** Component-level linear algebra used in the statements.  Indices are natural
    numbers, spatial indices run over 0..2 (the code's 0..2), spacetime indices over
    0..3 with 0 = time. *)
From Coq Require Import Reals Arith.
Local Open Scope R_scope.

Definition vec := nat -> R.
Definition mat := nat -> nat -> R.

Notation "A .[ i , j ]" := (A i%nat j%nat)
  (at level 2, left associativity, only parsing) : R_scope.
Notation "v .[ i ]" := (v i%nat) (at level 2, left associativity, only parsing) : R_scope.

Definition sum3 (f : nat -> R) : R := f 0%nat + f 1%nat + f 2%nat.
Definition sum4 (f : nat -> R) : R := f 0%nat + f 1%nat + f 2%nat + f 3%nat.

Definition delta (i j : nat) : R := if Nat.eqb i j then 1 else 0.

Definition mul3 (A B : mat) : mat := fun i j => sum3 (fun k => A i k * B k j).
Definition mul4 (A B : mat) : mat := fun i j => sum4 (fun k => A i k * B k j).
Definition transpose (A : mat) : mat := fun i j => A j i.

Definition symmetric3 (A : mat) : Prop := forall i j, (i < 3)%nat -> (j < 3)%nat -> A i j = A j i.
Definition symmetric4 (A : mat) : Prop := forall i j, (i < 4)%nat -> (j < 4)%nat -> A i j = A j i.

(** B is the two-sided inverse of A *)
Definition inverse3 (A B : mat) : Prop := forall i j, (i < 3)%nat -> (j < 3)%nat ->
  mul3 A B i j = delta i j /\ mul3 B A i j = delta i j.
Definition inverse4 (A B : mat) : Prop := forall i j, (i < 4)%nat -> (j < 4)%nat ->
  mul4 A B i j = delta i j /\ mul4 B A i j = delta i j.

(** determinants: expansion along the first row.  [skip j k] is the k-th of the
    indices 0,1,2,... with j left out. *)
Definition skip (j k : nat) : nat := if Nat.ltb k j then k else S k.
Definition minor (A : mat) (i j : nat) : mat := fun r c => A (skip i r) (skip j c).
Definition det2 (A : mat) : R := A 0%nat 0%nat * A 1%nat 1%nat - A 0%nat 1%nat * A 1%nat 0%nat.
Definition det3 (A : mat) : R :=
  A 0%nat 0%nat * det2 (minor A 0 0) - A 0%nat 1%nat * det2 (minor A 0 1)
  + A 0%nat 2%nat * det2 (minor A 0 2).
Definition det4 (A : mat) : R :=
  A 0%nat 0%nat * det3 (minor A 0 0) - A 0%nat 1%nat * det3 (minor A 0 1)
  + A 0%nat 2%nat * det3 (minor A 0 2) - A 0%nat 3%nat * det3 (minor A 0 3).

(** quadratic and bilinear forms *)
Definition dot3 (G : mat) (u v : vec) : R := sum3 (fun i => sum3 (fun j => G i j * u i * v j)).
Definition dot4 (G : mat) (u v : vec) : R := sum4 (fun i => sum4 (fun j => G i j * u i * v j)).
Definition lower3 (G : mat) (v : vec) : vec := fun i => sum3 (fun j => G i j * v j).
Definition lower4 (G : mat) (v : vec) : vec := fun i => sum4 (fun j => G i j * v j).

Definition positive_definite3 (G : mat) : Prop :=
  forall v, (exists i, (i < 3)%nat /\ v i <> 0) -> 0 < dot3 G v v.

(** tabulated matrices and vectors, for concrete examples *)
Definition row4 (a b c d : R) : vec :=
  fun i => match i with 0%nat => a | 1%nat => b | 2%nat => c | _ => d end.
Definition row3 (a b c : R) : vec := fun i => match i with 0%nat => a | 1%nat => b | _ => c end.
Definition rows3 (r0 r1 r2 : vec) : mat := fun i => match i with 0%nat => r0 | 1%nat => r1 | _ => r2 end.
Definition rows4 (r0 r1 r2 r3 : vec) : mat :=
  fun i => match i with 0%nat => r0 | 1%nat => r1 | 2%nat => r2 | _ => r3 end.
