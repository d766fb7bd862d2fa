(** Generic facts on the loop nests of Model/Kernels.v. *)
From Coq Require Import Reals List Arith Bool Lia FunctionalExtensionality.
From Verif Require Import Base.Cplx Model.Kernels.
Import ListNotations.
Open Scope R_scope.

Lemma leqb_spec a b : leqb a b = true <-> a = b.
Proof.
  revert b. induction a as [|x a IH]; destruct b as [|y b]; simpl; split; try congruence; try reflexivity.
  - intros H. apply andb_prop in H. destruct H as (H1 & H2). apply Nat.eqb_eq in H1. apply IH in H2. congruence.
  - intros H. injection H as -> ->. rewrite Nat.eqb_refl. simpl. apply IH. reflexivity.
Qed.
Lemma leqb_refl a : leqb a a = true. Proof. apply leqb_spec. reflexivity. Qed.

Lemma get_some {A} (a : arr A) idx : inb idx (shape a) = true -> get a idx = Some (data a idx).
Proof. intros H. unfold get. rewrite H. reflexivity. Qed.

(** ** Loops that act cell by cell *)
Section Acts.
Context {S X : Type} (Inv : S -> Prop) (cell : S -> list nat -> X) (g : list nat -> X -> X).
(** the command never fails, keeps the invariant, transforms by [g] the cells selected by [m]
    and leaves the others alone *)
Definition acts (body : S -> option S) (m : list nat -> bool) : Prop :=
  forall s, Inv s -> exists s', body s = Some s' /\ Inv s' /\
    forall p, cell s' p = if m p then g p (cell s p) else cell s p.

Lemma acts_ext b b' m m' : acts b m -> (forall s, Inv s -> b' s = b s) -> (forall p, m' p = m p) -> acts b' m'.
Proof.
  intros H E1 E2 s Hs. destruct (H s Hs) as (s' & R1 & R2 & R3). exists s'. rewrite E1 by exact Hs.
  repeat split; auto. intros p. rewrite E2. apply R3.
Qed.

Lemma acts_for n (body : nat -> S -> option S) (m : nat -> list nat -> bool) :
  (forall i, (i < n)%nat -> acts (body i) (m i)) ->
  (forall i i' p, m i p = true -> m i' p = true -> i = i') ->
  acts (for_ n body) (fun p => existsb (fun i => m i p) (seq 0 n)).
Proof.
  intros Hb Hd.
  assert (G : forall k, (k <= n)%nat -> forall s, Inv s ->
     exists s', fold_left (fun o i => bind o (body i)) (seq 0 k) (Some s) = Some s' /\ Inv s' /\
       forall p, cell s' p = if existsb (fun i => m i p) (seq 0 k) then g p (cell s p) else cell s p).
  { induction k as [|k IH]; intros Hk s Hs.
    - exists s. repeat split; auto.
    - destruct (IH ltac:(lia) s Hs) as (s1 & E1 & I1 & C1).
      destruct (Hb k ltac:(lia) s1 I1) as (s2 & E2 & I2 & C2). exists s2.
      rewrite seq_S, fold_left_app, E1. simpl. split; [exact E2 | split; [exact I2|]].
      intros p. rewrite C2, C1, existsb_app. simpl. rewrite orb_false_r.
      destruct (existsb (fun i => m i p) (seq 0 k)) eqn:Ee; simpl.
      + apply existsb_exists in Ee. destruct Ee as (i & Hi & Hm). apply in_seq in Hi.
        destruct (m k p) eqn:Em; [|reflexivity]. exfalso. assert (i = k) by (eapply Hd; eassumption). lia.
      + reflexivity. }
  intros s Hs. apply (G n (le_n n) s Hs).
Qed.

(** prefix of an index tuple fixed by the enclosing loops, remaining extents *)
Fixpoint inbox (pre : list nat) (sh : list nat) (p : list nat) : bool :=
  match pre, p with
  | [], _ => inb p sh
  | i :: pre, x :: p => (x =? i)%nat && inbox pre sh p
  | _, _ => false
  end.

Lemma inbox_cons pre n sh p :
  inbox pre (n :: sh) p = existsb (fun i => inbox (pre ++ [i]) sh p) (seq 0 n).
Proof.
  revert p. induction pre as [|a pre IH]; intros p.
  - simpl. destruct p as [|x p]; simpl.
    + symmetry. apply not_true_is_false. rewrite existsb_exists. intros (i & _ & H). discriminate.
    + destruct (Nat.ltb_spec x n) as [Hx|Hx]; simpl.
      * destruct (inb p sh) eqn:Ei; symmetry.
        -- apply existsb_exists. exists x. split; [apply in_seq; lia | rewrite Nat.eqb_refl; reflexivity].
        -- apply not_true_is_false. rewrite existsb_exists. intros (i & _ & H). rewrite andb_false_r in H. discriminate.
      * symmetry. apply not_true_is_false. rewrite existsb_exists. intros (i & Hi & H). apply in_seq in Hi.
        apply andb_prop in H. destruct H as (H & _). apply Nat.eqb_eq in H. lia.
  - simpl. destruct p as [|x p]; simpl.
    + symmetry. apply not_true_is_false. rewrite existsb_exists. intros (i & _ & H). discriminate.
    + destruct (x =? a)%nat; simpl; [apply IH|].
      symmetry. apply not_true_is_false. rewrite existsb_exists. intros (i & _ & H). discriminate.
Qed.

Lemma inbox_disjoint pre sh i i' p :
  inbox (pre ++ [i]) sh p = true -> inbox (pre ++ [i']) sh p = true -> i = i'.
Proof.
  revert p. induction pre as [|a pre IH]; intros p; simpl; destruct p as [|x p]; simpl; try discriminate.
  - intros H H'. apply andb_prop in H, H'. destruct H as (H & _), H' as (H' & _).
    apply Nat.eqb_eq in H, H'. lia.
  - intros H H'. apply andb_prop in H, H'. apply (IH p); tauto.
Qed.

Lemma acts_loop pre n sh (body : nat -> S -> option S) :
  (forall i, (i < n)%nat -> acts (body i) (inbox (pre ++ [i]) sh)) ->
  acts (for_ n body) (inbox pre (n :: sh)).
Proof.
  intros H. refine (acts_ext _ _ _ _ (acts_for n body (fun i => inbox (pre ++ [i]) sh) H _) _ _).
  - intros i i' p. apply inbox_disjoint.
  - reflexivity.
  - intros p. apply inbox_cons.
Qed.

Lemma inbox_point pre p : inbox pre [] p = leqb p pre.
Proof.
  revert p. induction pre as [|a pre IH]; intros [|x p]; simpl; try reflexivity. rewrite IH. reflexivity.
Qed.

(** body at one cell *)
Lemma acts_point q (body : S -> option S) :
  (forall s, Inv s -> exists s', body s = Some s' /\ Inv s' /\ cell s' q = g q (cell s q) /\
     forall p, p <> q -> cell s' p = cell s p) -> acts body (inbox q []).
Proof.
  intros H s Hs. destruct (H s Hs) as (s' & R1 & R2 & R3 & R4). exists s'. repeat split; auto.
  intros p. rewrite inbox_point. destruct (leqb p q) eqn:E.
  - apply leqb_spec in E. subst. exact R3.
  - apply R4. intros ->. rewrite leqb_refl in E. discriminate.
Qed.

Lemma acts_nest sh (body : list nat -> S -> option S) :
  (forall q, inb q sh = true -> acts (body q) (inbox q [])) -> acts (nest sh body) (inbox [] sh).
Proof.
  assert (G : forall sh pre body, (forall q, inb q sh = true -> acts (body q) (inbox (pre ++ q) [])) ->
     acts (nest sh body) (inbox pre sh)).
  { intros sh0. induction sh0 as [|n sh0 IH]; intros pre body0 H; simpl.
    - specialize (H [] eq_refl). rewrite app_nil_r in H. exact H.
    - apply acts_loop. intros i Hi. apply IH. intros q Hq. rewrite <- app_assoc. simpl. apply H. simpl.
      rewrite Hq. destruct (Nat.ltb_spec i n); [reflexivity | lia]. }
  intros H. apply (G sh [] body H).
Qed.
End Acts.
