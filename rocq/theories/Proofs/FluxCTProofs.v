(** FluxCT and the node-centred divergence of B. *)
From Coq Require Import ZArith Reals List Bool Lia Lra.
From Flocq Require Import Core.
From Verif.Model Require Import Num ParFor FluxFix.
From Verif.Spec Require Import FluxSpec.
From Verif.Proofs Require Import NumR ParForProofs FluxFixProofs.
Import ListNotations.
Local Open Scope R_scope.

Lemma eput_same {T} l (x : T) e : eput l x e l = x.
Proof. unfold eput. destruct (ELoc_dec l l); congruence. Qed.
Lemma eput_other {T} l l' (x : T) e : l' <> l -> eput l x e l' = e l'.
Proof. unfold eput. destruct (ELoc_dec l' l); congruence. Qed.

Section CT.
Variables (ndim : nat) (B : Box) (o1 o2 : list Cell) (e : Emf R) (f : FluxMem R).
Hypothesis Hnd : (ndim = 2 \/ ndim = 3)%nat.
Hypothesis H1 : order_of (ct_box ndim B) o1.
Hypothesis H2 : order_of (ct_box ndim B) o2.
Let e' := par_for o1 (emf_body ndim f) e.
Let f' := par_for o2 (flux_body ndim e') f.
Lemma ct_run : FluxCT ndim o1 o2 e f = (f', e').
Proof. clear H1 H2 B. unfold FluxCT. destruct Hnd as [-> | ->]; reflexivity. Qed.

Definition own_e (l : nat * Cell) : option Cell := Some (snd l).
Lemma emf_val c n : in_box (ct_box ndim B) c -> (n = 2%nat \/ (ndim = 3 /\ (n = 0 \/ n = 1)))%nat ->
  e' (n, c) = match n with O => emf_x f c | 1%nat => emf_y f c | _ => emf_z f c end.
Proof.
  intros I Hn. destruct H1 as [N O]. unfold e'.
  assert (W : forall c m l, In c o1 -> own_e l <> Some c -> emf_body ndim f c m l = m l).
  { intros c0 m [n0 c1] _ K. assert (K' : c1 <> c0) by (intros ->; apply K; reflexivity). unfold emf_body. destruct (Nat.eqb ndim 2); rewrite !eput_other by congruence; reflexivity. }
  assert (Rd : forall c m m' l, In c o1 -> (forall l', own_e l' = Some c -> m l' = m' l') -> own_e l = Some c -> emf_body ndim f c m l = emf_body ndim f c m' l).
  { intros c0 m m' [n0 c1] _ K E. pose proof (K _ E) as Kv. unfold emf_body. destruct (Nat.eqb ndim 2); unfold eput;
    repeat (destruct (ELoc_dec _ _); [reflexivity|]); exact Kv. }
  refine (eq_trans (par_for_own _ own_e o1 W Rd e (n, c) c N eq_refl (proj2 (O c) I)) _).
  unfold emf_body. destruct Hn as [-> | [E [-> | ->]]].
  - destruct (Nat.eqb ndim 2); rewrite eput_same; reflexivity.
  - rewrite E. cbn [Nat.eqb]. rewrite !eput_other by congruence. apply eput_same.
  - rewrite E. cbn [Nat.eqb]. rewrite eput_other by congruence. apply eput_same.
Qed.
Definition own_f (l : FLoc) : option Cell := Some (snd l).
Lemma flux_own c d v : in_box (ct_box ndim B) c -> f' (d, v, c) = flux_body ndim e' c f (d, v, c).
Proof.
  intros I. destruct H2 as [N O]. unfold f'.
  assert (W : forall c m l, In c o2 -> own_f l <> Some c -> flux_body ndim e' c m l = m l).
  { intros [[k j] i] m [[d0 v0] c1] _ K. assert (K' : c1 <> (k, j, i)) by (intros ->; apply K; reflexivity). unfold flux_body.
    destruct (Nat.eqb ndim 2); rewrite !fput_other by congruence; reflexivity. }
  assert (Rd : forall c m m' l, In c o2 -> (forall l', own_f l' = Some c -> m l' = m' l') -> own_f l = Some c -> flux_body ndim e' c m l = flux_body ndim e' c m' l).
  { intros [[k j] i] m m' [[d0 v0] c1] _ K E. pose proof (K _ E) as Kv. unfold flux_body. destruct (Nat.eqb ndim 2); unfold fput;
    repeat (destruct (FLoc_dec _ _); [reflexivity|]); exact Kv. }
  exact (par_for_own _ own_f o2 W Rd f (d, v, c) c N eq_refl (proj2 (O c) I)).
Qed.
Lemma flux_off c d v : ~ in_box (ct_box ndim B) c -> f' (d, v, c) = f (d, v, c).
Proof.
  intros I. destruct H2 as [N O]. unfold f'.
  assert (W : forall c m l, In c o2 -> own_f l <> Some c -> flux_body ndim e' c m l = m l).
  { intros [[k j] i] m [[d0 v0] c1] _ K. assert (K' : c1 <> (k, j, i)) by (intros ->; apply K; reflexivity). unfold flux_body.
    destruct (Nat.eqb ndim 2); rewrite !fput_other by congruence; reflexivity. }
  apply (par_for_other _ own_f o2 W). intros c0 E. cbn in E. inversion E; subst. intros K. apply I, O, K.
Qed.
Lemma flux_nonB c d v : (forall n, v <> CB n) -> f' (d, v, c) = f (d, v, c).
Proof.
  intros K.
  assert (D : {in_box (ct_box ndim B) c} + {~ in_box (ct_box ndim B) c}).
  { destruct c as [[k j] i]. unfold in_box. set (X := ct_box ndim B).
    destruct (Z_le_dec (ks X) k), (Z_le_dec k (ke X)), (Z_le_dec (js X) j), (Z_le_dec j (je X)), (Z_le_dec (is_ X) i), (Z_le_dec i (ie X)); try (left; lia); right; lia. }
  destruct D as [I|I]; [|apply flux_off, I]. rewrite flux_own by exact I. destruct c as [[k j] i]. unfold flux_body.
  destruct (Nat.eqb ndim 2); rewrite !fput_other; try reflexivity; intros E; inversion E; subst; eapply K; reflexivity.
Qed.
End CT.

(** the fluxes of the induction equation made from edge electric fields *)
Definition ct_flux (ndim : nat) (Ex Ey Ez : Cell -> R) (d : Dir) (n : nat) (c : Cell) : R :=
  let avg (E : Cell -> R) (d' : Dir) := (E c + E (next d' c)) / 2 in
  match d, n with
  | D1, 1%nat => avg Ez D2
  | D1, 2%nat => if Nat.eqb ndim 3 then - avg Ey D3 else 0
  | D2, 0%nat => - avg Ez D1
  | D2, 2%nat => if Nat.eqb ndim 3 then avg Ex D3 else 0
  | D3, 0%nat => avg Ey D1
  | D3, 1%nat => - avg Ex D2
  | _, _ => 0
  end.
(** face c of an interior zone *)
Definition zone_face (B : Box) (d : Dir) (c : Cell) : Prop := exists c0, in_box B c0 /\ (c = c0 \/ c = next d c0).
Lemma ct_val ndim B o1 o2 e f d n c : (ndim = 2 \/ ndim = 3)%nat -> order_of (ct_box ndim B) o1 -> order_of (ct_box ndim B) o2 ->
  live ndim d -> zone_face B d c -> (n < ndim)%nat ->
  fst (FluxCT ndim o1 o2 e f) (d, CB n, c) = ct_flux ndim (emf_x f) (emf_y f) (emf_z f) d n c.
Proof.
  intros Hnd H1 H2 L (c0 & I0 & F) Hn. rewrite (ct_run ndim o1 o2 e f Hnd). cbn [fst].
  assert (Ic : in_box (ct_box ndim B) c).
  { destruct c0 as [[k j] i]. destruct Hnd as [-> | ->]; destruct d; destruct F as [-> | ->]; cbn in *; lia. }
  rewrite (flux_own ndim B o1 o2 e f H2 c d (CB n) Ic).
  set (e' := par_for o1 (emf_body ndim f) e).
  assert (EV : forall c n, in_box (ct_box ndim B) c -> (n = 2%nat \/ (ndim = 3 /\ (n = 0 \/ n = 1)))%nat ->
     e' (n, c) = match n with O => emf_x f c | 1%nat => emf_y f c | _ => emf_z f c end) by (intros; apply (emf_val ndim B o1 e f H1); assumption).
  clearbody e'.
  assert (Nx : forall d', d' <> d -> (live ndim d') -> in_box (ct_box ndim B) (next d' c)).
  { intros d' K L'. destruct c0 as [[k j] i]. destruct Hnd as [-> | ->]; destruct d, d'; try congruence; destruct F as [-> | ->]; cbn in *; lia. }
  destruct c as [[k j] i]. unfold flux_body, ct_flux, half_, nhalf. cbv zeta beta.
  destruct Hnd as [-> | ->]; cbn [Nat.eqb].
  - (* 2D *) destruct d; [| |cbn in L; discriminate]; (destruct n as [|[|n]]; [| |lia]).
    + rewrite !fput_other by discriminate. rewrite fput_same. num_R. field.
    + rewrite !fput_other by discriminate. rewrite fput_same. rewrite (EV (k, j, i) 2%nat) by (try exact Ic; lia).
      rewrite (EV (k, (j + 1)%Z, i) 2%nat) by (try (apply (Nx D2); [discriminate|cbn; tauto]); lia). cbn [next]. num_R. field.
    + rewrite fput_other by discriminate. rewrite fput_same. rewrite (EV (k, j, i) 2%nat) by (try exact Ic; lia).
      rewrite (EV (k, j, (i + 1)%Z) 2%nat) by (try (apply (Nx D1); [discriminate|exact I]); lia). cbn [next]. num_R. field.
    + rewrite fput_same. num_R. field.
  - (* 3D *)
    assert (N1 : d <> D1 -> in_box (ct_box 3 B) (k, j, (i + 1)%Z)) by (intros K; apply (Nx D1); [congruence|exact I]).
    assert (N2 : d <> D2 -> in_box (ct_box 3 B) (k, (j + 1)%Z, i)) by (intros K; apply (Nx D2); [congruence|cbn; tauto]).
    assert (N3 : d <> D3 -> in_box (ct_box 3 B) ((k + 1)%Z, j, i)) by (intros K; apply (Nx D3); [congruence|cbn; tauto]).
    destruct d; (destruct n as [|[|[|n]]]; [| | |lia]); rewrite ?fput_other by discriminate; rewrite fput_same;
    rewrite ?(EV (k, j, i)) by (try exact Ic; lia);
    rewrite ?(EV (k, j, (i + 1)%Z)) by (try (apply N1; discriminate); lia);
    rewrite ?(EV (k, (j + 1)%Z, i)) by (try (apply N2; discriminate); lia);
    rewrite ?(EV ((k + 1)%Z, j, i)) by (try (apply N3; discriminate); lia); cbn [next]; num_R; field.
Qed.
(** the discrete divergence of a curl vanishes *)
Lemma div_curl ndim (dx : Dir -> R) (Ex Ey Ez : Cell -> R) (b : BField R) dt c : (ndim = 2 \/ ndim = 3)%nat -> (forall d, dx d <> 0) ->
  divB ndim (fun d _ => dx d) (fun n c => b n c + dt * gain ndim dx (fun d c => ct_flux ndim Ex Ey Ez d n c) c) c = divB ndim (fun d _ => dx d) b c.
Proof.
  intros Hnd Hdx. destruct c as [[k j] i]. pose proof (Hdx D1) as K1. pose proof (Hdx D2) as K2. pose proof (Hdx D3) as K3.
  unfold divB, gain, ct_flux, half_, quarter. cbn [next].
  replace (k - 1 + 1)%Z with k by lia. replace (j - 1 + 1)%Z with j by lia. replace (i - 1 + 1)%Z with i by lia.
  destruct Hnd as [-> | ->]; cbn [Nat.eqb Nat.ltb Nat.leb]; num_R; field; auto.
Qed.
