(** Curvature of the spherically symmetric slice of Spec/Hypersurface.v. *)
From Coq Require Import Reals Arith Lia Lra FunctionalExtensionality.
From Coquelicot Require Import Coquelicot.
From Verif.Spec Require Import Tensor GeomSpec Hypersurface.
From Verif.Proofs Require Import TensorTac.
Local Open Scope R_scope.

Lemma partial_is f s X d : is_partial f s X d -> partial f s X = d.
Proof. intros H. unfold partial. apply is_derive_unique. exact H. Qed.
Lemma partial_loc f g s X : locally (X s) (fun h => f (moved X s h) = g (moved X s h)) -> partial f s X = partial g s X.
Proof. intros H. unfold partial. apply Derive_ext_loc. exact H. Qed.
Lemma partial_const c s X : partial (fun _ => c) s X = 0.
Proof. unfold partial. apply Derive_const. Qed.

(** a function of one coordinate only *)
Lemma moved_same X s h : moved X s h s = h.
Proof. unfold moved. rewrite Nat.eqb_refl. reflexivity. Qed.
Lemma moved_other X s h i : i <> s -> moved X s h i = X i.
Proof. intros H. unfold moved. apply Nat.eqb_neq in H. rewrite H. reflexivity. Qed.

Section S.
  Variables a a' a'' : R -> R.

  Definition good (Y : vec) : Prop := 0 < Y 0%nat /\ sin (Y 1%nat) <> 0 /\ a (Y 0%nat) <> 0 /\ is_derive a (Y 0%nat) (a' (Y 0%nat)).

  Definition closedG (Y : vec) (k i j : nat) : R :=
    let r := Y 0%nat in let s := sin (Y 1%nat) in let c := cos (Y 1%nat) in
    match k, i, j with
    | 0%nat, 0%nat, 0%nat => a' r / a r
    | 0%nat, 1%nat, 1%nat => - r / (a r * a r)
    | 0%nat, 2%nat, 2%nat => - (r * (s * s)) / (a r * a r)
    | 1%nat, 0%nat, 1%nat | 1%nat, 1%nat, 0%nat => / r
    | 1%nat, 2%nat, 2%nat => - (s * c)
    | 2%nat, 0%nat, 2%nat | 2%nat, 2%nat, 0%nat => / r
    | 2%nat, 1%nat, 2%nat | 2%nat, 2%nat, 1%nat => c / s
    | _, _, _ => 0
    end.

  Definition dmetric (Y : vec) (i j s : nat) : R :=
    match i, j, s with
    | 0%nat, 0%nat, 0%nat => 2 * a (Y 0%nat) * a' (Y 0%nat)
    | 1%nat, 1%nat, 0%nat => 2 * Y 0%nat
    | 2%nat, 2%nat, 0%nat => 2 * Y 0%nat * (sin (Y 1%nat) * sin (Y 1%nat))
    | 2%nat, 2%nat, 1%nat => Y 0%nat * Y 0%nat * (2 * sin (Y 1%nat) * cos (Y 1%nat))
    | _, _, _ => 0
    end.

  Lemma metric_partial Y i j s : good Y -> (i < 3)%nat -> (j < 3)%nat -> (s < 3)%nat ->
    partial (fun Z => areal_metric a Z i j) s Y = dmetric Y i j s.
  Proof.
    intros (Hr & Hs & Ha & Hd) Hi Hj Hk.
    apply partial_is. unfold is_partial, areal_metric.
    assert (Dx : ex_derive a (Y 0%nat)) by (eexists; exact Hd).
    assert (De : Derive (fun x => a x) (Y 0%nat) = a' (Y 0%nat)) by (apply is_derive_unique; exact Hd).
    idx; cbn [Nat.eqb dmetric moved]; unfold moved; cbn [Nat.eqb];
      try (auto_derive; [try exact I; repeat split; try exact Dx | try rewrite De; ring]).
  Qed.

  Lemma Gam_closed Y k i j : good Y -> (k < 3)%nat -> (i < 3)%nat -> (j < 3)%nat ->
    Gam (areal_metric a) (areal_inverse a) Y k i j = closedG Y k i j.
  Proof.
    intros G Hk Hi Hj. unfold Gam, sum3.
    rewrite !metric_partial; auto; try lia.
    destruct G as (Hr & Hs & Ha & Hd). unfold areal_inverse.
    idx; cbn [Nat.eqb dmetric closedG]; field; repeat split; auto; lra.
  Qed.

  (** the derivatives of the Christoffel symbols *)
  Definition dclosedG (Y : vec) (k i j s : nat) : R :=
    let r := Y 0%nat in let sn := sin (Y 1%nat) in let c := cos (Y 1%nat) in
    match k, i, j, s with
    | 0%nat, 0%nat, 0%nat, 0%nat => (a'' r * a r - a' r * a' r) / (a r * a r)
    | 0%nat, 1%nat, 1%nat, 0%nat => - / (a r * a r) + 2 * r * a' r / (a r * a r * a r)
    | 0%nat, 2%nat, 2%nat, 0%nat => (- / (a r * a r) + 2 * r * a' r / (a r * a r * a r)) * (sn * sn)
    | 0%nat, 2%nat, 2%nat, 1%nat => - (r * (2 * sn * c)) / (a r * a r)
    | 1%nat, 0%nat, 1%nat, 0%nat | 1%nat, 1%nat, 0%nat, 0%nat => - / (r * r)
    | 1%nat, 2%nat, 2%nat, 1%nat => sn * sn - c * c
    | 2%nat, 0%nat, 2%nat, 0%nat | 2%nat, 2%nat, 0%nat, 0%nat => - / (r * r)
    | 2%nat, 1%nat, 2%nat, 1%nat | 2%nat, 2%nat, 1%nat, 1%nat => - / (sn * sn)
    | _, _, _, _ => 0
    end.

  Variable X : vec.
  Hypothesis HX : good X.
  Hypothesis Hloc : locally (X 0%nat) (fun x => is_derive a x (a' x)).
  Hypothesis Hd2 : is_derive a' (X 0%nat) (a'' (X 0%nat)).

  Lemma good_nearby s : (s < 3)%nat -> locally (X s) (fun h => good (moved X s h)).
  Proof.
    intros Hs. destruct HX as (Hr & Hsn & Ha & Hd).
    assert (C0 : continuous a (X 0%nat)) by (apply (ex_derive_continuous a); eexists; exact Hd).
    assert (Ls : locally (X 1%nat) (fun h => sin h <> 0)).
    { assert (C : continuous sin (X 1%nat)) by (apply (ex_derive_continuous sin); auto_derive; exact I).
      destruct (Rdichotomy _ _ Hsn) as [N|P].
      - apply (filter_imp (fun h => sin h < 0)); [intros h Hh; lra|]. apply (C (fun y => y < 0)). apply open_lt. exact N.
      - apply (filter_imp (fun h => sin h > 0)); [intros h Hh; lra|]. apply (C (fun y => y > 0)). apply open_gt. exact P. }
    assert (La : locally (X 0%nat) (fun h => a h <> 0)).
    { destruct (Rdichotomy _ _ Ha) as [N|P].
      - apply (filter_imp (fun h => a h < 0)); [intros h Hh; lra|]. apply (C0 (fun y => y < 0)). apply open_lt. exact N.
      - apply (filter_imp (fun h => a h > 0)); [intros h Hh; lra|]. apply (C0 (fun y => y > 0)). apply open_gt. exact P. }
    assert (Lr : locally (X 0%nat) (fun h => h > 0)) by (apply open_gt; exact Hr).
    idx; unfold good, moved; cbn [Nat.eqb].
    - generalize (filter_and _ _ Hloc (filter_and _ _ La Lr)). apply filter_imp. intros h (A & B & C). exact (conj C (conj Hsn (conj B A))).
    - revert Ls. apply filter_imp. intros h B. exact (conj Hr (conj B (conj Ha Hd))).
    - apply filter_forall. intros h. exact (conj Hr (conj Hsn (conj Ha Hd))).
  Qed.

  Lemma Gam_partial k i j s : (k < 3)%nat -> (i < 3)%nat -> (j < 3)%nat -> (s < 3)%nat ->
    partial (fun Z => Gam (areal_metric a) (areal_inverse a) Z k i j) s X = dclosedG X k i j s.
  Proof.
    intros Hk Hi Hj Hs.
    rewrite (partial_loc _ (fun Z => closedG Z k i j)).
    2:{ generalize (good_nearby s Hs). apply filter_imp. intros h Hh. apply Gam_closed; auto. }
    destruct HX as (Hr & Hsn & Ha & Hd).
    apply partial_is. unfold is_partial.
    assert (Dx : ex_derive a (X 0%nat)) by (eexists; exact Hd).
    assert (De : Derive (fun x => a x) (X 0%nat) = a' (X 0%nat)) by (apply is_derive_unique; exact Hd).
    assert (Dx2 : ex_derive a' (X 0%nat)) by (eexists; exact Hd2).
    assert (De2 : Derive (fun x => a' x) (X 0%nat) = a'' (X 0%nat)) by (apply is_derive_unique; exact Hd2).
    assert (Haa : a (X 0%nat) * a (X 0%nat) <> 0) by (intros E; apply Rmult_integral in E; tauto).
    assert (SC : cos (X 1%nat) * cos (X 1%nat) = 1 - sin (X 1%nat) * sin (X 1%nat)).
    { pose proof (sin2_cos2 (X 1%nat)) as H. unfold Rsqr in H. lra. }
    idx; cbn [closedG dclosedG]; unfold moved; cbn [Nat.eqb];
      first [ apply (is_derive_const (K := R_AbsRing))
            | auto_derive;
              [ repeat split; auto; lra
              | try rewrite De; try rewrite De2;
                first [ field; repeat split; auto; lra | field [SC]; repeat split; auto; lra ] ] ].
  Qed.

  Lemma Ricci_closed i j : (i < 3)%nat -> (j < 3)%nat ->
    let r := X 0%nat in
    Ricci (areal_metric a) (areal_inverse a) X i j =
    if Nat.eqb i j then
      match i with
      | 0%nat => 2 * a' r / (r * a r)
      | 1%nat => 1 - / (a r * a r) + r * a' r / (a r * a r * a r)
      | _ => (1 - / (a r * a r) + r * a' r / (a r * a r * a r)) * (sin (X 1%nat) * sin (X 1%nat))
      end else 0.
  Proof.
    intros Hi Hj r. unfold Ricci, sum3.
    rewrite !Gam_partial by lia. rewrite !Gam_closed by (auto; lia).
    destruct HX as (Hr & Hsn & Ha & Hd).
    assert (SC : cos (X 1%nat) * cos (X 1%nat) = 1 - sin (X 1%nat) * sin (X 1%nat)).
    { pose proof (sin2_cos2 (X 1%nat)) as H. unfold Rsqr in H. lra. }
    subst r.
    idx; cbn [closedG dclosedG Nat.eqb]; first [field; repeat split; auto; lra | field [SC]; repeat split; auto; lra].
  Qed.
End S.
