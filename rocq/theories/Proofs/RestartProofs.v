(** Crash points of one update, and restarted runs. *)
From Coq Require Import Reals ZArith List Bool Lia FunctionalExtensionality.
From Verif Require Import Base.Cplx Base.Fin Model.Maths Model.Integrators Model.Integrate Model.Solve Model.Run Model.HDF5
  Spec.Fourier Spec.RungeKutta Spec.Env Spec.Files Proofs.FileProofs Proofs.FileRunProofs Proofs.IntegratorProofs Proofs.LoopProofs.
Import ListNotations.
Open Scope R_scope.

Section Crash.
Context {Data RData : Type}.
Context (wr cp : Z) (keys : list nat) (Hnd : NoDup keys) (Hk : keys <> []).
Context (kill : bool) (n : nat) (t : R) (d : nat -> Data) (r : RData).
Notation sched := (scheduled wr cp keys kill n t d r).
Definition wpart : list (fop Data RData) := if Z.eqb (Z.of_nat n mod wr) 0 then [WComponents; WWrite n r] else [].
Definition cpart : list (fop Data RData) := if orb (Z.eqb (Z.of_nat n mod cp) 0) kill then checkpoint_ops keys d n t else [].
Lemma sched_eq : sched = wpart ++ cpart. Proof. reflexivity. Qed.
Lemma wpart_w : Forall w_op wpart. Proof. unfold wpart. destruct (Z.eqb _ _); repeat constructor. Qed.
Lemma firstn_Forall {A} (P : A -> Prop) m l : Forall P l -> Forall P (firstn m l).
Proof. intros H. revert m. induction H; intros [|m]; cbn; constructor; auto. Qed.

Lemma nth_ckpt : forall ks (ck : nat -> Data) j, (j < length ks)%nat ->
  nth_error (checkpoint_ops (RData := RData) ks ck n t) (3 * j) = Some (CWrite (nth j ks 0%nat) (ck (nth j ks 0%nat))).
Proof.
  intros ks ck. induction ks as [|k ks IH]; intros j Hj; cbn [length] in Hj; [lia|].
  destruct j as [|j]; [reflexivity|]. replace (3 * S j)%nat with (S (S (S (3 * j)))) by lia.
  change (checkpoint_ops (k :: ks) ck n t) with (CWrite k (ck k) :: CAttrTstep n :: CAttrT t :: checkpoint_ops (RData := RData) ks ck n t).
  cbn [nth_error nth]. apply IH. lia.
Qed.
Lemma nth_ckpt_t : forall (ks : list nat) (ck : nat -> Data) m, nth_error (checkpoint_ops (RData := RData) ks ck n t) m = Some (CAttrT t) -> (2 <= m)%nat.
Proof. intros [|k ks] ck [|[|m]] H; try discriminate; lia. Qed.
Lemma in_firstn_nth {A} (x : A) l : forall m, In x (firstn m l) -> exists j, (j < m)%nat /\ nth_error l j = Some x.
Proof.
  induction l as [|a l IH]; intros [|m] H; cbn in H; try contradiction.
  destruct H as [->|H]; [exists 0%nat; split; [lia|reflexivity]|]. destruct (IH _ H) as (j & Hj & E). exists (S j). split; [lia|exact E].
Qed.
Lemma nth_in_skipn {A} (x : A) l : forall m j, nth_error l j = Some x -> (m <= j)%nat -> In x (skipn m l).
Proof.
  induction l as [|a l IH]; intros [|m] [|j] H Hm; cbn in *; try discriminate; try lia.
  - injection H as ->. left. reflexivity.
  - right. apply nth_error_In in H. exact H.
  - eapply IH; [exact H|lia].
Qed.

Lemma crash_point p q f : sched = p ++ q ->
  let f' := apply_ops f p in
  ((forall k x, ~ In (CWrite k x) p) -> f' = f) /\
  (In (CAttrT t) p -> (forall k x, ~ In (CWrite k x) q) -> holds keys f' n t d) /\
  (c_tstep f' = Some n \/ c_tstep f' = c_tstep f) /\ (c_t f' = Some t \/ c_t f' = c_t f) /\
  (forall k, In k keys -> c_data f' k = Some (d k) \/ c_data f' k = c_data f k).
Proof.
  intros E f'. set (m := (length p - length wpart)%nat).
  assert (Ep : p = firstn (length p) wpart ++ firstn m cpart).
  { rewrite <- firstn_app, <- sched_eq, E, firstn_app, Nat.sub_diag, firstn_all. cbn. rewrite app_nil_r. reflexivity. }
  assert (Eq : q = skipn (length p) wpart ++ skipn m cpart).
  { rewrite <- skipn_app, <- sched_eq, E, skipn_app, Nat.sub_diag, skipn_all. reflexivity. }
  assert (Ef : f' = apply_ops f (firstn m cpart)).
  { unfold f'. rewrite Ep, apply_ops_app. f_equal. apply w_ops_same, firstn_Forall, wpart_w. }
  clearbody m. unfold cpart in *. destruct (orb _ _).
  - destruct (checkpoint_crash (RData := RData) keys d n t Hnd m f) as (H1 & H2 & H3 & H4 & H5).
    rewrite <- Ef in *. replace (Nat.eqb (length keys) 0) with false in * by (destruct keys; [contradiction|reflexivity]).
    rewrite andb_true_r in *.
    assert (Hlen : (0 < length keys)%nat) by (destruct keys; [contradiction|cbn; lia]).
    split; [|split; [|split; [|split]]].
    + intros Hn. assert (m = 0%nat).
      { destruct m as [|m]; [reflexivity|]. exfalso. pose proof (nth_ckpt keys d 0 Hlen) as Hx.
        eapply Hn. rewrite Ep. apply in_or_app. right.
        destruct (checkpoint_ops keys d n t) as [|a l]; [discriminate|]. cbn in Hx. injection Hx as ->. left. reflexivity. }
      subst m. rewrite Ef. reflexivity.
    + intros Ht Hq.
      assert (Hm : (3 <= m)%nat).
      { rewrite Ep in Ht. apply in_app_or in Ht. destruct Ht as [Ht|Ht].
        - exfalso. pose proof (firstn_Forall _ (length p) _ wpart_w) as Hw. rewrite Forall_forall in Hw. apply (Hw _ Ht).
        - apply in_firstn_nth in Ht. destruct Ht as (j & Hj & Ej). apply nth_ckpt_t in Ej. lia. }
      assert (Hall : forall j, (j < length keys)%nat -> (3 * j < m)%nat).
      { intros j Hj. destruct (Nat.ltb_spec (3 * j) m) as [Hl|Hl]; [exact Hl|]. exfalso.
        eapply Hq. rewrite Eq. apply in_or_app. right. eapply nth_in_skipn; [apply (nth_ckpt keys d j Hj)|exact Hl]. }
      split; [|split].
      * rewrite H4. replace (Nat.leb 2 m) with true by (symmetry; apply Nat.leb_le; lia). reflexivity.
      * rewrite H5. replace (Nat.leb 3 m) with true by (symmetry; apply Nat.leb_le; lia). reflexivity.
      * intros k Hin. apply (In_nth _ _ 0%nat) in Hin. destruct Hin as (j & Hj & <-). apply H1; auto.
    + rewrite H4. destruct (Nat.leb 2 m); auto.
    + rewrite H5. destruct (Nat.leb 3 m); auto.
    + intros k Hin. apply (In_nth _ _ 0%nat) in Hin. destruct Hin as (j & Hj & <-).
      destruct (Nat.ltb_spec (3 * j) m) as [Hl|Hl]; [left; apply H1; auto|right; apply H2; auto].
  - rewrite firstn_nil in *. cbn [apply_ops fold_left] in Ef. rewrite Ef. rewrite app_nil_r in Ep.
    split; [reflexivity|]. split; [|split; [|split]]; auto.
    intros Ht _. exfalso. rewrite Ep in Ht. pose proof (firstn_Forall _ (length p) _ wpart_w) as Hw. rewrite Forall_forall in Hw. apply (Hw _ Ht).
Qed.
(** the crash point right after the first array has been written *)
Lemma bad_crash f : multiple cp n \/ kill = true -> cp <> 0%Z -> exists p q k, sched = p ++ q /\ In k keys /\
  c_data (apply_ops f p) k = Some (d k) /\ c_tstep (apply_ops f p) = c_tstep f /\ c_t (apply_ops f p) = c_t f /\
  (forall j, In j keys -> j <> k -> c_data (apply_ops f p) j = c_data f j).
Proof.
  clear Hnd. intros Hc Hcp. rewrite sched_eq. unfold cpart. destruct keys as [|k0 ks]; [contradiction|].
  replace (orb _ _) with true.
  2: { symmetry. apply orb_true_iff. destruct Hc as [Hc|Hc]; [left|right; exact Hc]. apply Z.eqb_eq. apply Z.mod_divide; assumption. }
  exists (wpart ++ [CWrite k0 (d k0)]), ([CAttrTstep n; CAttrT t] ++ checkpoint_ops ks d n t), k0.
  split; [rewrite <- app_assoc; reflexivity|]. split; [left; reflexivity|].
  rewrite apply_ops_app, (w_ops_same _ _ wpart_w). cbn. rewrite Nat.eqb_refl. split; [reflexivity|]. split; [reflexivity|]. split; [reflexivity|].
  intros j _ Hj. destruct (Nat.eqb_spec j k0); [contradiction|reflexivity].
Qed.
Lemma no_ckpt f : ~ multiple cp n -> kill = false -> cp <> 0%Z -> apply_ops f sched = f.
Proof.
  intros Hm Hkill Hcp. rewrite sched_eq, apply_ops_app, (w_ops_same _ _ wpart_w). unfold cpart.
  replace (orb _ _) with false; [reflexivity|]. symmetry. apply orb_false_iff. split; [|exact Hkill].
  apply Z.eqb_neq. intros E. apply Hm. apply Z.mod_divide; assumption.
Qed.
Lemma with_ckpt f : multiple cp n \/ kill = true -> cp <> 0%Z -> holds keys (apply_ops f sched) n t d.
Proof.
  intros Hc Hcp. rewrite sched_eq, apply_ops_app. unfold cpart. replace (orb _ _) with true.
  2: { symmetry. apply orb_true_iff. destruct Hc as [Hc|Hc]; [left|right; exact Hc]. apply Z.eqb_eq. apply Z.mod_divide; assumption. }
  set (f1 := apply_ops f _). destruct (checkpoint_done (RData := RData) keys d n t f1) as (H1 & H2 & _). destruct (H1 Hk) as [H3 H4].
  split; [exact H3|]. split; [exact H4|exact H2].
Qed.
End Crash.

(** the last checkpointed step wins *)
Section Last.
Context {Data RData : Type} (wr cp : Z) (Hcp : cp <> 0%Z) (keys : list nat) (Hk : keys <> []) (kill : nat -> bool).
Context (t : nat -> R) (d : nat -> nat -> Data) (r : nat -> RData).
Notation sched := (fun n => scheduled wr cp keys (kill n) n (t n) (d n) (r n)).
Lemma steps_split lo n hi : (lo < n <= hi)%nat -> steps lo hi = steps lo (n - 1) ++ n :: steps n hi.
Proof.
  intros H. unfold steps. replace (hi - lo)%nat with ((n - 1 - lo) + S (hi - n))%nat by lia.
  rewrite seq_app. f_equal. replace (S lo + (n - 1 - lo))%nat with n by lia. reflexivity.
Qed.
Lemma no_ckpts f lo hi : (forall n, (lo < n <= hi)%nat -> ~ multiple cp n /\ kill n = false) ->
  apply_ops f (flat_map sched (steps lo hi)) = f.
Proof.
  unfold steps. intros H. assert (Hall : forall n, In n (seq (S lo) (hi - lo)) -> ~ multiple cp n /\ kill n = false).
  { intros n Hn. apply in_seq in Hn. apply H. lia. }
  clear H. revert f Hall. generalize (seq (S lo) (hi - lo)) as l. induction l as [|n l IH]; intros f Hall; [reflexivity|].
  cbn [flat_map]. rewrite apply_ops_app. destruct (Hall n (or_introl eq_refl)) as [H1 H2]. rewrite no_ckpt by assumption.
  apply IH. intros m Hm. apply Hall. right. exact Hm.
Qed.
Lemma last_ckpt f n lo hi : (lo < n <= hi)%nat -> (multiple cp n \/ kill n = true) ->
  (forall m, (n < m <= hi)%nat -> ~ multiple cp m /\ kill m = false) ->
  holds keys (apply_ops f (flat_map sched (steps lo hi))) n (t n) (d n).
Proof.
  intros Hn Hc Hl. rewrite (steps_split lo n hi Hn), flat_map_app. cbn [flat_map]. rewrite !apply_ops_app, (no_ckpts _ n hi Hl).
  apply with_ckpt; assumption.
Qed.
End Last.

(** ** Restart *)
Section Restart.
Context {D I c1 c2 E1 E2 : Type}.
Notation V := (svec D I).
Context (R1 : c1 -> V -> V -> V * c1) (R2 : c2 -> V -> V -> V * c2) (f : V -> V) (H1 : computes R1 f) (H2 : computes R2 f).
Context (est1 est2 : V -> V -> V -> R).
Context (upd1 : R -> nat -> V * V * c1 * E1 -> V * V * c1 * E1) (upd2 : R -> nat -> V * V * c2 * E2 -> V * V * c2 * E2).
Context (h : R -> nat -> V -> V) (Hu1 : update_is upd1 h) (Hu2 : update_is upd2 h).
Context (out1 : R -> nat -> V -> c1 * E1 -> c1 * E1 * bool) (out2 : R -> nat -> V -> c2 * E2 -> c2 * E2 * bool).
Context (Hk2 : never_killed out2).
Context (rnd : R -> R) (T : R) (fuel : nat) (g : integ) (Hg : one_step g).

Lemma one_step_solution {c} (Rh : c -> V -> V -> V * c) (Hf : computes Rh f) est dt n st :
  exists st', integrate Rh est fuel g dt n st = Some (st', dt, dt) /\
    s_u0 st' = match g with IRK4 => rk4 f dt (s_u0 st) | _ => euler f dt (s_u0 st) end.
Proof.
  destruct Hg as [-> | ->]; cbn [integrate].
  - pose proof (RK4_is_rk4 Rh f Hf dt st) as E. unfold RK4 in *. eexists. split; [reflexivity|exact E].
  - pose proof (FE_is_euler Rh f Hf dt st) as E.
    exists (fst (fst (ForwardEuler Rh dt st))). split; [unfold ForwardEuler; destruct (Rh _ _ _); reflexivity|exact E].
Qed.
Lemma iter_restart a b a' : same_state a b ->
  run_iter R1 est1 upd1 out1 rnd T fuel g a = Cont a' ->
  exists b', run_iter R2 est2 upd2 out2 rnd T fuel g b = Cont b' /\ same_state a' b'.
Proof.
  intros (Et & Ed & En & Es). unfold run_iter, Solve.iter. rewrite Et, Ed, En. destruct (Rle_dec _ _) as [_|_]; [|discriminate].
  unfold run_integrate.
  destruct (one_step_solution R1 H1 est1 (l_dt b) (l_tstep b) (w_st (l_w a))) as (sa & Ea & Ua). rewrite Ea.
  destruct (one_step_solution R2 H2 est2 (l_dt b) (l_tstep b) (w_st (l_w b))) as (sb & Eb & Ub). rewrite Eb.
  unfold solution in Es. rewrite Es in Ua. rewrite <- Ub in Ua. clear Ea Eb Ub.
  set (t := rnd (l_t b + l_dt b)). set (n := S (l_tstep b)).
  unfold run_update. cbn [w_st w_env].
  pose proof (Hu1 t n (s_u0 sa) (s_rhs sa) (s_ctx sa) (w_env (l_w a))) as Q1.
  pose proof (Hu2 t n (s_u0 sb) (s_rhs sb) (s_ctx sb) (w_env (l_w b))) as Q2.
  destruct (upd1 t n _) as [[[ua ra] ca] ea]. destruct (upd2 t n _) as [[[ub rb] cb] eb]. cbn [fst] in Q1, Q2.
  assert (Hab : ua = ub) by congruence. clear Q1 Q2.
  unfold run_output. cbn [w_st w_env s_u0 s_ctx s_u1 s_u2 s_rhs s_fY s_off].
  pose proof (Hk2 t n ub cb eb) as K2.
  destruct (out1 t n ua (ca, ea)) as [[ca' ea'] ka]. destruct (out2 t n ub (cb, eb)) as [[cb' eb'] kb]. cbn [snd] in K2. subst kb.
  destruct ka; [discriminate|].
  unfold end_of_tstep_NS. destruct (Rlt_dec _ _) as [_|_]; [discriminate|].
  destruct (Rlt_dec _ _) as [_|_]; [|destruct (Rle_dec _ _)]; intros E; injection E as <-; (eexists; split; [reflexivity|]);
    unfold same_state, solution; cbn [l_t l_dt l_tstep l_w w_st s_u0]; auto.
Qed.
Lemma reach_restart a b m a' : same_state a b -> run_reach R1 est1 upd1 out1 rnd T fuel g a m a' ->
  exists b', run_reach R2 est2 upd2 out2 rnd T fuel g b m b' /\ same_state a' b'.
Proof.
  intros Hs Hr. induction Hr as [|m s s' Hr IH Hi].
  - exists b. split; [constructor|exact Hs].
  - destruct IH as (b1 & Hb & Hsb). destruct (iter_restart _ _ _ Hsb Hi) as (b' & Hb' & Hs'). exists b'.
    split; [econstructor; eassumption|exact Hs'].
Qed.
End Restart.
