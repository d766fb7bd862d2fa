(** Finite component axes and array-valued functions.
    Axis 0 of a shenfun vector array (velocity components) is modelled by a
    finite type with an explicit enumeration; loops [for i in range(dim)] are
    folds over that enumeration, [np.sum(..., 0)] is the sum over it. *)
From Coq Require Import Reals List Bool FunctionalExtensionality.
From Verif Require Import Base.Cplx Base.Sums.
Import ListNotations.
Open Scope R_scope.

(** A finite axis: its indices in the order in which Python iterates. *)
Record fin (D : Type) := mkFin {
  elems : list D;
  eqd : D -> D -> bool;
  eqd_spec : forall x y, eqd x y = true <-> x = y;
  elems_nodup : NoDup elems;
  elems_all : forall x, In x elems }.
Arguments elems {D} _.
Arguments eqd {D} _ _ _.

(** Axis of length 2 and 3 (components of 2D and 3D vectors). *)
Inductive ax2 : Type := a0 | a1.
Inductive ax3 : Type := x0 | x1 | x2.

Definition eqb2 (i j : ax2) : bool :=
  match i, j with a0, a0 => true | a1, a1 => true | _, _ => false end.
Definition eqb3 (i j : ax3) : bool :=
  match i, j with x0, x0 => true | x1, x1 => true | x2, x2 => true | _, _ => false end.

Lemma eqb2_spec i j : eqb2 i j = true <-> i = j.
Proof. destruct i, j; simpl; split; congruence. Qed.
Lemma eqb3_spec i j : eqb3 i j = true <-> i = j.
Proof. destruct i, j; simpl; split; congruence. Qed.
Lemma nodup2 : NoDup [a0; a1].
Proof. repeat constructor; simpl; intuition congruence. Qed.
Lemma nodup3 : NoDup [x0; x1; x2].
Proof. repeat constructor; simpl; intuition congruence. Qed.
Lemma all2 (i : ax2) : In i [a0; a1].
Proof. destruct i; simpl; auto. Qed.
Lemma all3 (i : ax3) : In i [x0; x1; x2].
Proof. destruct i; simpl; auto. Qed.

Definition F2 : fin ax2 := mkFin ax2 [a0; a1] eqb2 eqb2_spec nodup2 all2.
Definition F3 : fin ax3 := mkFin ax3 [x0; x1; x2] eqb3 eqb3_spec nodup3 all3.

(** Axis of the six-row MHD arrays (UB_hat[:3], UB_hat[3:]) and of the three-row
    Boussinesq arrays (two velocities, density). *)
Definition ax6 := (ax3 + ax3)%type.
Definition eqb6 (i j : ax6) : bool :=
  match i, j with inl a, inl b => eqb3 a b | inr a, inr b => eqb3 a b | _, _ => false end.
Lemma eqb6_spec i j : eqb6 i j = true <-> i = j.
Proof.
  destruct i as [a|a], j as [b|b]; simpl; try (split; congruence);
  rewrite eqb3_spec; split; congruence.
Qed.
Definition elems6 : list ax6 := map inl [x0; x1; x2] ++ map inr [x0; x1; x2].
Lemma nodup6 : NoDup elems6.
Proof. unfold elems6; simpl. repeat constructor; simpl; intuition congruence. Qed.
Lemma all6 (i : ax6) : In i elems6.
Proof. destruct i as [[]|[]]; unfold elems6; simpl; auto 10. Qed.
Definition F6 : fin ax6 := mkFin ax6 elems6 eqb6 eqb6_spec nodup6 all6.

Definition axb := option ax2.
Definition eqbb (i j : axb) : bool :=
  match i, j with Some a, Some b => eqb2 a b | None, None => true | _, _ => false end.
Lemma eqbb_spec i j : eqbb i j = true <-> i = j.
Proof.
  destruct i as [a|], j as [b|]; simpl; try (split; congruence).
  rewrite eqb2_spec; split; congruence.
Qed.
Definition elemsb : list axb := [Some a0; Some a1; None].
Lemma nodupb : NoDup elemsb.
Proof. unfold elemsb. repeat constructor; simpl; intuition congruence. Qed.
Lemma allb (i : axb) : In i elemsb.
Proof. destruct i as [[]|]; unfold elemsb; simpl; auto. Qed.
Definition Fb : fin axb := mkFin axb elemsb eqbb eqbb_spec nodupb allb.

(** [v[i] = x] on an array with leading axis [D]. *)
Definition upd {D A : Type} (F : fin D) (v : D -> A) (i : D) (x : A) : D -> A :=
  fun j => if eqd F j i then x else v j.

Lemma upd_same {D A} (F : fin D) (v : D -> A) i x : upd F v i x i = x.
Proof. unfold upd. replace (eqd F i i) with true; auto. symmetry; apply eqd_spec; reflexivity. Qed.
Lemma upd_other {D A} (F : fin D) (v : D -> A) i j x : j <> i -> upd F v i x j = v j.
Proof.
  intros H. unfold upd. destruct (eqd F j i) eqn:E; auto.
  exfalso; apply H; apply (eqd_spec D F); exact E.
Qed.

(** A loop [for i in range(dim): v[i] = g(i, v[i])] writes every component once. *)
Lemma fold_upd_all {D A} (F : fin D) (g : D -> A -> A) (v : D -> A) :
  fold_left (fun w i => upd F w i (g i (w i))) (elems F) v = (fun i => g i (v i)).
Proof.
  assert (H : forall l (w : D -> A), NoDup l ->
    (forall i, In i l -> fold_left (fun w i => upd F w i (g i (w i))) l w i = g i (w i)) /\
    (forall i, ~ In i l -> fold_left (fun w i => upd F w i (g i (w i))) l w i = w i)).
  { induction l as [|a l IH]; intros w Hn; simpl.
    - split; [intros i []|reflexivity].
    - inversion Hn as [|? ? Hna Hnl]; subst.
      destruct (IH (upd F w a (g a (w a))) Hnl) as [IH1 IH2].
      split.
      + intros i [->|Hi].
        * rewrite IH2 by assumption. apply upd_same.
        * rewrite IH1 by assumption. rewrite upd_other; [reflexivity|].
          intros ->; contradiction.
      + intros i Hi. rewrite IH2 by (intros Hx; apply Hi; right; assumption).
        apply upd_other. intros ->; apply Hi; left; reflexivity. }
  extensionality i.
  apply (H (elems F) v (elems_nodup D F)). apply elems_all.
Qed.
