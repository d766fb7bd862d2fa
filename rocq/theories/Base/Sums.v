(** Finite sums over [0,n) of reals and complexes. Support file. *)
From Coq Require Import Reals Lra Lia Arith List FunctionalExtensionality.
From Verif Require Import Base.Cplx.
Open Scope R_scope.

(** Sum f(0)+...+f(n-1). *)
Fixpoint Csum (n : nat) (f : nat -> C) : C :=
  match n with O => C0 | S m => (Csum m f + f m)%C end.
Fixpoint Rsum (n : nat) (f : nat -> R) : R :=
  match n with O => 0 | S m => Rsum m f + f m end.

Lemma Csum_ext n f g : (forall i, (i < n)%nat -> f i = g i) -> Csum n f = Csum n g.
Proof.
  induction n as [|n IH]; intros H; simpl; [reflexivity|].
  rewrite IH by (intros; apply H; lia). rewrite H by lia. reflexivity.
Qed.
Lemma Rsum_ext n f g : (forall i, (i < n)%nat -> f i = g i) -> Rsum n f = Rsum n g.
Proof.
  induction n as [|n IH]; intros H; simpl; [reflexivity|].
  rewrite IH by (intros; apply H; lia). rewrite H by lia. reflexivity.
Qed.
Lemma Csum_0 n f : (forall i, (i < n)%nat -> f i = C0) -> Csum n f = C0.
Proof.
  induction n as [|n IH]; intros H; simpl; [reflexivity|].
  rewrite IH by (intros; apply H; lia). rewrite H by lia. ring.
Qed.
Lemma Rsum_0 n f : (forall i, (i < n)%nat -> f i = 0) -> Rsum n f = 0.
Proof.
  induction n as [|n IH]; intros H; simpl; [reflexivity|].
  rewrite IH by (intros; apply H; lia). rewrite H by lia. ring.
Qed.
Lemma Csum_add n f g : Csum n (fun i => (f i + g i)%C) = (Csum n f + Csum n g)%C.
Proof. induction n as [|n IH]; simpl; [ring|rewrite IH; ring]. Qed.
Lemma Csum_sub n f g : Csum n (fun i => (f i - g i)%C) = (Csum n f - Csum n g)%C.
Proof. induction n as [|n IH]; simpl; [ring|rewrite IH; ring]. Qed.
Lemma Csum_scal n c f : Csum n (fun i => (c * f i)%C) = (c * Csum n f)%C.
Proof. induction n as [|n IH]; simpl; [ring|rewrite IH; ring]. Qed.
Lemma Csum_scal_r n c f : Csum n (fun i => (f i * c)%C) = (Csum n f * c)%C.
Proof. induction n as [|n IH]; simpl; [ring|rewrite IH; ring]. Qed.
Lemma Rsum_add n f g : Rsum n (fun i => f i + g i) = Rsum n f + Rsum n g.
Proof. induction n as [|n IH]; simpl; [ring|rewrite IH; ring]. Qed.
Lemma Rsum_sub n f g : Rsum n (fun i => f i - g i) = Rsum n f - Rsum n g.
Proof. induction n as [|n IH]; simpl; [ring|rewrite IH; ring]. Qed.
Lemma Rsum_opp n f : Rsum n (fun i => - f i) = - Rsum n f.
Proof. induction n as [|n IH]; simpl; [ring|rewrite IH; ring]. Qed.
Lemma Rsum_scal n c f : Rsum n (fun i => c * f i) = c * Rsum n f.
Proof. induction n as [|n IH]; simpl; [ring|rewrite IH; ring]. Qed.
Lemma Rsum_scal_r n c f : Rsum n (fun i => f i * c) = Rsum n f * c.
Proof. induction n as [|n IH]; simpl; [ring|rewrite IH; ring]. Qed.
Lemma Rsum_const n c : Rsum n (fun _ => c) = INR n * c.
Proof. induction n as [|n IH]; [simpl; ring|]. rewrite S_INR; simpl; rewrite IH; ring. Qed.
Lemma Re_Csum n f : Re (Csum n f) = Rsum n (fun i => Re (f i)).
Proof. induction n as [|n IH]; simpl; [reflexivity|rewrite Re_add, IH; reflexivity]. Qed.
Lemma RtoC_Rsum n f : RtoC (Rsum n f) = Csum n (fun i => RtoC (f i)).
Proof. induction n as [|n IH]; simpl; [reflexivity|rewrite RtoC_add, IH; reflexivity]. Qed.
Lemma Cconj_Csum n f : Cconj (Csum n f) = Csum n (fun i => Cconj (f i)).
Proof. induction n as [|n IH]; simpl; [apply Cconj_0|rewrite Cconj_add, IH; reflexivity]. Qed.
Lemma Csum_swap n m f :
  Csum n (fun i => Csum m (fun j => f i j)) = Csum m (fun j => Csum n (fun i => f i j)).
Proof.
  induction n as [|n IH]; simpl.
  - rewrite Csum_0; auto.
  - rewrite IH, <- Csum_add. reflexivity.
Qed.
Lemma Rsum_swap n m f :
  Rsum n (fun i => Rsum m (fun j => f i j)) = Rsum m (fun j => Rsum n (fun i => f i j)).
Proof.
  induction n as [|n IH]; simpl.
  - rewrite Rsum_0; auto.
  - rewrite IH, <- Rsum_add. reflexivity.
Qed.
Lemma Rsum_nonneg n f : (forall i, (i < n)%nat -> 0 <= f i) -> 0 <= Rsum n f.
Proof.
  induction n as [|n IH]; intros H; simpl; [lra|].
  assert (0 <= f n) by (apply H; lia).
  assert (0 <= Rsum n f) by (apply IH; intros; apply H; lia). lra.
Qed.
Lemma Rsum_le n f g : (forall i, (i < n)%nat -> f i <= g i) -> Rsum n f <= Rsum n g.
Proof.
  induction n as [|n IH]; intros H; simpl; [lra|].
  assert (f n <= g n) by (apply H; lia).
  assert (Rsum n f <= Rsum n g) by (apply IH; intros; apply H; lia). lra.
Qed.
Lemma Rsum_split n m f : Rsum (n + m) f = Rsum n f + Rsum m (fun i => f (n + i)%nat).
Proof.
  induction m as [|m IH]; simpl; [rewrite Nat.add_0_r; ring|].
  rewrite Nat.add_succ_r; simpl. rewrite IH; ring.
Qed.
Lemma Csum_split n m f : Csum (n + m) f = (Csum n f + Csum m (fun i => f (n + i)%nat))%C.
Proof.
  induction m as [|m IH]; simpl; [rewrite Nat.add_0_r; ring|].
  rewrite Nat.add_succ_r; simpl. rewrite IH; ring.
Qed.
Lemma Rsum_S_l n f : Rsum (S n) f = f 0%nat + Rsum n (fun i => f (S i)).
Proof. change (S n) with (1 + n)%nat. rewrite Rsum_split. simpl. ring. Qed.
Lemma Csum_S_l n f : Csum (S n) f = (f 0%nat + Csum n (fun i => f (S i)))%C.
Proof. change (S n) with (1 + n)%nat. rewrite Csum_split. simpl. ring. Qed.

(** sums over lists (finite index sets) *)
Fixpoint RsumL {A} (l : list A) (f : A -> R) : R :=
  match l with nil => 0 | cons a l' => f a + RsumL l' f end.
Fixpoint CsumL {A} (l : list A) (f : A -> C) : C :=
  match l with nil => C0 | cons a l' => (f a + CsumL l' f)%C end.

Section Lists.
Context {A B : Type}.
Implicit Types (l : list A) (m : list B).
Lemma RsumL_ext l f g : (forall a, In a l -> f a = g a) -> RsumL l f = RsumL l g.
Proof.
  induction l as [|a l IH]; intros H; simpl; [reflexivity|].
  rewrite IH by (intros; apply H; right; assumption).
  rewrite H by (left; reflexivity). reflexivity.
Qed.
Lemma CsumL_ext l f g : (forall a, In a l -> f a = g a) -> CsumL l f = CsumL l g.
Proof.
  induction l as [|a l IH]; intros H; simpl; [reflexivity|].
  rewrite IH by (intros; apply H; right; assumption).
  rewrite H by (left; reflexivity). reflexivity.
Qed.
Lemma RsumL_add l f g : RsumL l (fun i => f i + g i) = RsumL l f + RsumL l g.
Proof. induction l as [|a l IH]; simpl; [ring|rewrite IH; ring]. Qed.
Lemma RsumL_sub l f g : RsumL l (fun i => f i - g i) = RsumL l f - RsumL l g.
Proof. induction l as [|a l IH]; simpl; [ring|rewrite IH; ring]. Qed.
Lemma RsumL_scal l c f : RsumL l (fun i => c * f i) = c * RsumL l f.
Proof. induction l as [|a l IH]; simpl; [ring|rewrite IH; ring]. Qed.
Lemma RsumL_0 l f : (forall a, In a l -> f a = 0) -> RsumL l f = 0.
Proof.
  induction l as [|a l IH]; intros H; simpl; [reflexivity|].
  rewrite IH by (intros; apply H; right; assumption).
  rewrite H by (left; reflexivity). ring.
Qed.
Lemma CsumL_0 l f : (forall a, In a l -> f a = C0) -> CsumL l f = C0.
Proof.
  induction l as [|a l IH]; intros H; simpl; [reflexivity|].
  rewrite IH by (intros; apply H; right; assumption).
  rewrite H by (left; reflexivity). ring.
Qed.
Lemma CsumL_add l f g : CsumL l (fun i => (f i + g i)%C) = (CsumL l f + CsumL l g)%C.
Proof. induction l as [|a l IH]; simpl; [ring|rewrite IH; ring]. Qed.
Lemma CsumL_scal l c f : CsumL l (fun i => (c * f i)%C) = (c * CsumL l f)%C.
Proof. induction l as [|a l IH]; simpl; [ring|rewrite IH; ring]. Qed.
Lemma Re_CsumL l f : Re (CsumL l f) = RsumL l (fun i => Re (f i)).
Proof. induction l as [|a l IH]; simpl; [reflexivity|rewrite Re_add, IH; reflexivity]. Qed.
Lemma Cconj_CsumL l f : Cconj (CsumL l f) = CsumL l (fun i => Cconj (f i)).
Proof. induction l as [|a l IH]; simpl; [apply Cconj_0|rewrite Cconj_add, IH; reflexivity]. Qed.
End Lists.

Lemma RsumL_swap {A B} (l : list A) (m : list B) (f : A -> B -> R) :
  RsumL l (fun a => RsumL m (fun b => f a b)) = RsumL m (fun b => RsumL l (fun a => f a b)).
Proof.
  induction l as [|a l IH]; simpl.
  - symmetry; apply RsumL_0; auto.
  - rewrite IH, <- RsumL_add. reflexivity.
Qed.
Lemma RsumL_nonneg {A} (l : list A) f : (forall a, In a l -> 0 <= f a) -> 0 <= RsumL l f.
Proof.
  induction l as [|a l IH]; intros H; simpl; [lra|].
  assert (0 <= f a) by (apply H; left; reflexivity).
  assert (0 <= RsumL l f) by (apply IH; intros; apply H; right; assumption). lra.
Qed.
Lemma RsumL_app {A} (l m : list A) f : RsumL (l ++ m) f = RsumL l f + RsumL m f.
Proof. induction l as [|a l IH]; simpl; [ring|rewrite IH; ring]. Qed.
