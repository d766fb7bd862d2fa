(** Lemmas about HDF5 output. *)
From Coq Require Import Reals ZArith List Bool Lia.
From Verif Require Import Base.Cplx Base.Fin Model.Maths Model.Integrators Model.Integrate Model.Solve Model.Run Model.HDF5 Spec.Env Spec.Files.
Import ListNotations.
Open Scope R_scope.

Lemma divides_spec every n : every <> 0%Z -> divides every n = true <-> multiple every n.
Proof.
  intros H. unfold divides, multiple. rewrite Z.eqb_eq. split.
  - intros E. apply Z.mod_divide; assumption.
  - intros E. apply Z.mod_divide; assumption.
Qed.

Section Ops.
Context {Data RData : Type}.
Implicit Types (f : cfile Data) (l : list (fop Data RData)).
Lemma apply_ops_app f l1 l2 : apply_ops f (l1 ++ l2) = apply_ops (apply_ops f l1) l2.
Proof. apply fold_left_app. Qed.

Definition w_op (o : fop Data RData) : Prop := match o with WCreate _ | WComponents | WWrite _ _ => True | _ => False end.
Lemma w_ops_same f l : Forall w_op l -> apply_ops f l = f.
Proof.
  intros H. revert f. induction H as [|o l Ho H IH]; intros f; [reflexivity|].
  cbn. rewrite <- (IH f) at 2. f_equal. destruct o; try contradiction; reflexivity.
Qed.

(** after the first j keys have been written completely *)
Lemma checkpoint_done keys ck n t : forall f,
  let f' := apply_ops f (checkpoint_ops (RData := RData) keys ck n t) in
  (keys <> [] -> c_tstep f' = Some n /\ c_t f' = Some t) /\
  (forall k, In k keys -> c_data f' k = Some (ck k)) /\ (forall k, ~ In k keys -> c_data f' k = c_data f k) /\
  (keys = [] -> f' = f).
Proof.
  induction keys as [|k0 keys IH]; intros f; cbv zeta.
  - cbn. repeat split; try tauto. 
  - cbn [checkpoint_ops flat_map]. rewrite apply_ops_app. set (f1 := apply_ops f _).
    destruct (IH f1) as (H1 & H2 & H3 & H4). fold (checkpoint_ops (RData := RData) keys ck n t).
    split; [|split; [|split]].
    + intros _. destruct keys as [|k1 keys].
      * rewrite H4 by reflexivity. split; reflexivity.
      * apply H1. discriminate.
    + intros k Hk. destruct (in_dec Nat.eq_dec k keys) as [Hi|Hi]; [apply H2, Hi|].
      destruct Hk as [->|Hk]; [|contradiction]. rewrite H3 by exact Hi. cbn. rewrite Nat.eqb_refl. reflexivity.
    + intros k Hk. rewrite H3 by (intros Hi; apply Hk; right; exact Hi). cbn.
      destruct (Nat.eqb_spec k k0) as [->|_]; [exfalso; apply Hk; left; reflexivity|reflexivity].
    + discriminate.
Qed.

(** a crash after [m] operations of the checkpoint of step (n, t, ck), starting from file f *)
Lemma checkpoint_crash keys ck n t (Hnd : NoDup keys) : forall m f,
  let f' := apply_ops f (firstn m (checkpoint_ops (RData := RData) keys ck n t)) in
  (forall j, (j < length keys)%nat -> (3 * j < m)%nat -> c_data f' (nth j keys 0%nat) = Some (ck (nth j keys 0%nat))) /\
  (forall j, (j < length keys)%nat -> (m <= 3 * j)%nat -> c_data f' (nth j keys 0%nat) = c_data f (nth j keys 0%nat)) /\
  (forall k, ~ In k keys -> c_data f' k = c_data f k) /\
  (c_tstep f' = if andb (Nat.leb 2 m) (negb (Nat.eqb (length keys) 0)) then Some n else c_tstep f) /\
  (c_t f' = if andb (Nat.leb 3 m) (negb (Nat.eqb (length keys) 0)) then Some t else c_t f).
Proof.
  induction Hnd as [|k0 keys Hk0 Hnd IH]; intros m f; cbv zeta.
  - cbn [checkpoint_ops flat_map]. rewrite firstn_nil. cbn. rewrite !andb_false_r.
    split; [intros; lia|]. split; [intros; lia|]. split; [reflexivity|]. split; reflexivity.
  - assert (Hlen : forall m', m = (3 + m')%nat ->
      apply_ops f (firstn m (checkpoint_ops (RData := RData) (k0 :: keys) ck n t)) =
      apply_ops (mkC (fun j => if Nat.eqb j k0 then Some (ck k0) else c_data f j) (Some n) (Some t))
        (firstn m' (checkpoint_ops (RData := RData) keys ck n t))).
    { intros m' ->. reflexivity. }
    destruct m as [|[|[|m]]].
    + cbn. split; [intros; lia|]. split; [reflexivity|]. split; [reflexivity|]. split; reflexivity.
    + cbn. split; [|split; [|split; [|split; reflexivity]]].
      * intros [|j] Hj Hm; [|lia]. rewrite Nat.eqb_refl. reflexivity.
      * intros [|j] Hj Hm; [lia|]. destruct (Nat.eqb_spec (nth j keys 0%nat) k0) as [E|_]; [|reflexivity].
        exfalso. apply Hk0. rewrite <- E. apply nth_In. cbn in Hj. lia.
      * intros k Hk. destruct (Nat.eqb_spec k k0) as [->|_]; [exfalso; apply Hk; left; reflexivity|reflexivity].
    + cbn. split; [|split; [|split; [|split; reflexivity]]].
      * intros [|j] Hj Hm; [|lia]. rewrite Nat.eqb_refl. reflexivity.
      * intros [|j] Hj Hm; [lia|]. destruct (Nat.eqb_spec (nth j keys 0%nat) k0) as [E|_]; [|reflexivity].
        exfalso. apply Hk0. rewrite <- E. apply nth_In. cbn in Hj. lia.
      * intros k Hk. destruct (Nat.eqb_spec k k0) as [->|_]; [exfalso; apply Hk; left; reflexivity|reflexivity].
    + rewrite (Hlen m) by reflexivity. set (f1 := mkC _ _ _). destruct (IH m f1) as (H1 & H2 & H3 & H4 & H5).
      split; [|split; [|split; [|split]]].
      * intros [|j] Hj Hm; cbn [nth].
        -- rewrite H3 by exact Hk0. cbn. rewrite Nat.eqb_refl. reflexivity.
        -- apply H1; cbn in Hj; lia.
      * intros [|j] Hj Hm; cbn [nth]; [lia|]. rewrite H2 by (cbn in Hj; lia). cbn.
        destruct (Nat.eqb_spec (nth j keys 0%nat) k0) as [E|_]; [|reflexivity].
        exfalso. apply Hk0. rewrite <- E. apply nth_In. cbn in Hj. lia.
      * intros k Hk. rewrite H3 by (intros Hi; apply Hk; right; exact Hi). cbn.
        destruct (Nat.eqb_spec k k0) as [->|_]; [exfalso; apply Hk; left; reflexivity|reflexivity].
      * rewrite H4. cbn; destruct m as [|[|[|m]]]; destruct (length keys); reflexivity.
      * rewrite H5. cbn; destruct m as [|[|[|m]]]; destruct (length keys); reflexivity.
Qed.
End Ops.

(** ** Updates in sequence *)
Section Seq.
Context {Data RData : Type}.
Context (mode : filemode) (wr cp : Z) (Hwr : wr <> 0%Z) (Hcp : cp <> 0%Z) (keys : list nat).
(** one call: step number, time, checkpoint data, results, kill file found *)
Record call := mkCall { k_n : nat; k_t : R; k_ck : nat -> Data; k_res : RData; k_kill : bool }.
Definition call_ops (opened : bool) (k : call) : list (fop Data RData) :=
  fst (h5_update mode wr cp keys (k_ck k) (k_res k) opened (k_kill k) (k_n k) (k_t k)).
Fixpoint calls_ops (opened : bool) (l : list call) : list (fop Data RData) :=
  match l with [] => [] | k :: l => call_ops opened k ++ calls_ops true l end.
Definition saves (k : call) : bool := orb (divides cp (k_n k)) (k_kill k).

Lemma call_ops_eq o k : call_ops o k =
  (if o then [] else [CCreate mode; CAttrTstep 0; CAttrT 0; WCreate mode]) ++
  (if divides wr (k_n k) then [WComponents; WWrite (k_n k) (k_res k)] else []) ++
  (if saves k then checkpoint_ops keys (k_ck k) (k_n k) (k_t k) else []).
Proof.
  unfold call_ops, h5_update, saves. apply Z.eqb_neq in Hwr. apply Z.eqb_neq in Hcp. rewrite Hwr, Hcp.
  destruct (orb _ _); cbn [fst]; [reflexivity|]. rewrite app_nil_r. reflexivity.
Qed.
Lemma calls_ops_app o l1 l2 : calls_ops o (l1 ++ l2) = calls_ops o l1 ++ calls_ops (match l1 with [] => o | _ => true end) l2.
Proof.
  revert o. induction l1 as [|k l1 IH]; intros o; [reflexivity|]. cbn [app calls_ops]. rewrite IH, app_assoc.
  destruct l1; reflexivity.
Qed.

Lemma in_write o l n r : In (WWrite n r) (calls_ops o l) <-> exists k, In k l /\ k_n k = n /\ k_res k = r /\ multiple wr n.
Proof.
  revert o. induction l as [|k l IH]; intros o; cbn [calls_ops].
  - split; [intros []|intros (k & [] & _)].
  - rewrite in_app_iff, IH, call_ops_eq, !in_app_iff. split.
    + intros [[H|[H|H]]|H].
      * exfalso. destruct o; cbn in H; [exact H|intuition discriminate].
      * destruct (divides wr (k_n k)) eqn:E; [|destruct H]. cbn in H. destruct H as [H|[H|[]]]; [discriminate|].
        injection H as <- <-. exists k. split; [left; reflexivity|]. repeat split. apply divides_spec; assumption.
      * exfalso. destruct (saves k); [|exact H]. unfold checkpoint_ops in H. apply in_flat_map in H.
        destruct H as (j & _ & H). cbn in H. intuition discriminate.
      * destruct H as (k' & H1 & H2). exists k'. split; [right; exact H1|exact H2].
    + intros (k' & [->|H] & H2).
      * left. right. left. destruct H2 as (<- & <- & H2). apply divides_spec in H2; [|exact Hwr]. rewrite H2. cbn. tauto.
      * right. exists k'. tauto.
Qed.
Lemma in_ckpt o l j d : In (CWrite j d) (calls_ops o l) <->
  exists k, In k l /\ In j keys /\ k_ck k j = d /\ (multiple cp (k_n k) \/ k_kill k = true).
Proof.
  revert o. induction l as [|k l IH]; intros o; cbn [calls_ops].
  - split; [intros []|intros (k & [] & _)].
  - rewrite in_app_iff, IH, call_ops_eq, !in_app_iff. split.
    + intros [[H|[H|H]]|H].
      * exfalso. destruct o; cbn in H; [exact H|intuition discriminate].
      * exfalso. destruct (divides wr (k_n k)); cbn in H; intuition discriminate.
      * destruct (saves k) eqn:E; [|destruct H]. unfold checkpoint_ops in H. apply in_flat_map in H.
        destruct H as (j' & Hj & H). cbn in H. destruct H as [H|[H|[H|[]]]]; try discriminate. injection H as -> <-.
        exists k. split; [left; reflexivity|]. split; [exact Hj|]. split; [reflexivity|].
        unfold saves in E. apply orb_true_iff in E. destruct E as [E|E]; [left|right; exact E]. apply divides_spec; assumption.
      * destruct H as (k' & H1 & H2). exists k'. split; [right; exact H1|exact H2].
    + intros (k' & [->|H] & H2).
      * left. right. right. destruct H2 as (H2 & <- & H3).
        replace (saves k') with true.
        -- unfold checkpoint_ops. apply in_flat_map. exists j. split; [exact H2|left; reflexivity].
        -- symmetry. unfold saves. apply orb_true_iff. destruct H3 as [H3|H3]; [left; apply divides_spec; assumption|right; exact H3].
      * right. exists k'. tauto.
Qed.
(** results are transformed immediately before they are written *)
Lemma write_after_components o l pre n r post : calls_ops o l = pre ++ WWrite n r :: post -> exists pre', pre = pre' ++ [WComponents].
Proof.
  revert o pre. induction l as [|k l IH]; intros o pre H; cbn [calls_ops] in H.
  - destruct pre; discriminate.
  - rewrite call_ops_eq in H.
    assert (Hgen : forall (a : list (fop Data RData)), (forall x, In x a -> ~ (exists n r, x = WWrite n r)) ->
              forall b pre, a ++ b = pre ++ WWrite n r :: post -> exists pre1, pre = a ++ pre1 /\ b = pre1 ++ WWrite n r :: post).
    { clear. intros a. induction a as [|x a IHa]; intros Ha b pre H; [exists pre; auto|].
      destruct pre as [|y pre].
      - cbn in H. injection H as -> _. exfalso. eapply Ha; [left; reflexivity|eauto].
      - cbn in H. injection H as -> H. destruct (IHa (fun z Hz => Ha z (or_intror Hz)) _ _ H) as (p & -> & E). exists p. auto. }
    rewrite <- !app_assoc in H.
    apply Hgen in H.
    2: { intros x Hx (n' & r' & ->). destruct o; cbn in Hx; intuition discriminate. }
    destruct H as (p1 & -> & H). set (o1 := if o then _ else _).
    assert (Htail : forall p, (if saves k then checkpoint_ops keys (k_ck k) (k_n k) (k_t k) else []) ++ calls_ops true l = p ++ WWrite n r :: post ->
              exists p', p = p' ++ [WComponents]).
    { intros p Hp. apply Hgen in Hp.
      - destruct Hp as (p2 & -> & Hp). destruct (IH _ _ Hp) as (p' & ->). rewrite app_assoc. eauto.
      - intros x Hx (n' & r' & ->). destruct (saves k); [|exact Hx]. unfold checkpoint_ops in Hx. apply in_flat_map in Hx.
        destruct Hx as (j & _ & Hx). cbn in Hx. intuition discriminate. }
    destruct (divides wr (k_n k)).
    + destruct p1 as [|x p1]; [discriminate|]. cbn in H. injection H as <- H.
      destruct p1 as [|x p1].
      * exists o1. reflexivity.
      * cbn in H. injection H as <- H. destruct (Htail _ H) as (p' & ->). exists (o1 ++ WComponents :: WWrite (k_n k) (k_res k) :: p').
        rewrite <- app_assoc. reflexivity.
    + cbn [app] in H. destruct (Htail _ H) as (p' & ->). exists (o1 ++ p'). rewrite app_assoc. reflexivity.
Qed.

(** the file between two updates: the last saved call *)
Lemma file_no_save o l f : (forall k, In k l -> saves k = false) -> o = true -> apply_ops f (calls_ops o l) = f.
Proof.
  revert o f. induction l as [|k l IH]; intros o f H ->; [reflexivity|]. cbn [calls_ops].
  rewrite apply_ops_app, IH; [|intros; apply H; right; assumption|reflexivity].
  rewrite call_ops_eq, (H k (or_introl eq_refl)). cbn [app]. rewrite app_nil_r.
  apply w_ops_same. destruct (divides _ _); repeat constructor.
Qed.
Lemma file_last o l1 k l2 f : keys <> [] -> saves k = true -> (forall k', In k' l2 -> saves k' = false) ->
  holds keys (apply_ops f (calls_ops o (l1 ++ k :: l2))) (k_n k) (k_t k) (k_ck k).
Proof.
  intros Hk Hs H2. rewrite calls_ops_app, apply_ops_app. cbn [calls_ops]. rewrite apply_ops_app.
  rewrite file_no_save by auto. set (f1 := apply_ops f _). rewrite call_ops_eq, Hs, !apply_ops_app.
  set (f2 := apply_ops (apply_ops f1 _) _). destruct (checkpoint_done (RData := RData) keys (k_ck k) (k_n k) (k_t k) f2) as (H3 & H4 & _).
  destruct (H3 Hk) as [H5 H6]. split; [exact H5|]. split; [exact H6|exact H4].
Qed.
End Seq.
Arguments call Data RData : clear implicits.
