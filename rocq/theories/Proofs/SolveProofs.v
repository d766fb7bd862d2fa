From Coq Require Import Reals Lra Lia List FunctionalExtensionality.
From Verif Require Import Spec.Calls Model.Solve.
Import ListNotations.
Open Scope R_scope.

Lemma eps12_pos : 0 < eps12.
Proof. unfold eps12. apply Rinv_0_lt_compat. apply pow_lt. lra. Qed.

(** ** Any invariant of the world state *)
Section Inv.
Context {W : Type} (rnd : R -> R) (eps T : R).
Context (integrate : R -> nat -> W -> option (W * R * R)) (update : R -> nat -> W -> W)
        (hdf5 : R -> nat -> W -> W * bool) (eot : R -> R -> W -> bool * R * W).
Context (Q : W -> Prop).
Context (Hi : forall dt n w w' d k, Q w -> integrate dt n w = Some (w', d, k) -> Q w').
Context (Hu : forall t n w, Q w -> Q (update t n w)).
Context (Hh : forall t n w, Q w -> Q (fst (hdf5 t n w))).
Context (He : forall t dt w, Q w -> Q (snd (eot t dt w))).
Notation it := (iter rnd eps T integrate update hdf5 eot).

Lemma iter_inv s : Q (l_w s) ->
  match it s with Stop s' | Break s' | Cont s' | Kill s' | Raise s' => Q (l_w s') end.
Proof.
  intros HQ. unfold iter. destruct (Rle_dec _ _); [|exact HQ].
  destruct (integrate (l_dt s) (l_tstep s) (l_w s)) as [[[w d] k]|] eqn:E; [|exact HQ].
  specialize (Hi _ _ _ _ _ _ HQ E).
  specialize (Hu (rnd (l_t s + k)) (S (l_tstep s)) w Hi).
  specialize (Hh (rnd (l_t s + k)) (S (l_tstep s)) _ Hu).
  destruct (hdf5 _ _ _) as [w2 kill]. cbn [fst] in Hh. destruct kill; [exact Hh|].
  specialize (He (rnd (l_t s + k)) d w2 Hh).
  destruct (eot _ _ _) as [[brk d2] w3]. cbn [snd] in He. destruct brk; exact He.
Qed.
Lemma reach_inv s0 n s : Q (l_w s0) -> reach rnd eps T integrate update hdf5 eot s0 n s -> Q (l_w s).
Proof.
  intros H0 H. induction H as [|n s s' H IH E]; [exact H0|].
  pose proof (iter_inv s IH) as G. rewrite E in G. exact G.
Qed.
Lemma stepped_inv s s' : Q (l_w s) -> stepped rnd eps T integrate update hdf5 eot s s' -> Q (l_w s').
Proof.
  intros H0 H. pose proof (iter_inv s H0) as G. destruct H as [E|[E|E]]; rewrite E in G; exact G.
Qed.
Definition outcome_state (o : outcome W) : lstate W :=
  match o with Returned s | CloseFailed s | Exited s | Raised s => s end.
Lemma loop_inv dt_in fuel : forall s o, Q (l_w s) ->
  loop rnd eps T integrate update hdf5 eot fuel dt_in s = Some o -> Q (l_w (outcome_state o)).
Proof.
  induction fuel as [|n IH]; intros s o H E; [discriminate|].
  cbn [loop] in E. pose proof (iter_inv s H) as G.
  destruct (it s) as [s'|s'|s'|s'|s'].
  - injection E as <-. unfold finish. cbn [l_open]. destruct (l_open s'); exact G.
  - injection E as <-. unfold finish. cbn [l_open]. destruct (l_open s'); exact G.
  - apply (IH s' o G E).
  - injection E as <-. exact G.
  - injection E as <-. exact G.
Qed.
End Inv.

(** ** Bookkeeping in exact arithmetic *)
Section Book.
Context {W : Type} (eps T : R).
Context (integrate : R -> nat -> W -> option (W * R * R)) (update : R -> nat -> W -> W)
        (hdf5 : R -> nat -> W -> W * bool) (eot : R -> R -> W -> bool * R * W).
Notation it := (iter (fun x => x) eps T integrate update hdf5 eot).

(** every recorded step was returned by the integrator *)
Definition from_integrator (h : list (R * R)) : Prop :=
  Forall (fun p => exists n w w' d, integrate (fst p) n w = Some (w', d, snd p)) h.

Definition book (s0 s : lstate W) (h : list (R * R)) : Prop :=
  l_log s = hist_log (l_t s0) (l_tstep s0) h ++ l_log s0 /\
  l_t s = l_t s0 + total h /\ l_tstep s = (l_tstep s0 + length h)%nat /\
  from_integrator h /\ l_open s = orb (negb (Nat.eqb (length h) 0)) (l_open s0).

Lemma iter_book s0 s h : book s0 s h ->
  match it s with
  | Stop s' => s' = s
  | Cont s' | Break s' => exists p, book s0 s' (p :: h)
  | _ => True
  end.
Proof.
  intros (Hl & Ht & Hn & Hf & Ho). unfold iter.
  destruct (Rle_dec _ _); [|reflexivity].
  destruct (integrate (l_dt s) (l_tstep s) (l_w s)) as [[[w d] k]|] eqn:E; [|exact I].
  destruct (hdf5 _ _ _) as [w2 kill]. destruct kill; [exact I|].
  destruct (eot _ _ _) as [[brk d2] w3].
  assert (G : exists p, book s0 (mkL (l_t s + k) d2 (S (l_tstep s)) w3 true
     (EvTimer :: EvHdf5 (l_t s + k) (S (l_tstep s)) :: EvUpdate (l_t s + k) (S (l_tstep s))
        :: EvIntegrate (l_dt s) (l_tstep s) :: l_log s)) (p :: h)).
  { exists (l_dt s, k). repeat split.
    - cbn [l_log hist_log app]. rewrite Hl, Hn. cbn [total fold_right snd].
      replace (l_t s0 + (k + fold_right (fun p a => snd p + a) 0 h)) with (l_t s + k)
        by (rewrite Ht; unfold total; ring). reflexivity.
    - cbn [l_t]. rewrite Ht. unfold total. cbn [fold_right snd]. ring.
    - cbn [l_tstep length]. rewrite Hn. lia.
    - constructor; [|exact Hf]. cbn [fst snd]. eauto.  }
  destruct brk; exact G.
Qed.

Lemma loop_book s0 dt_in fuel : forall s h s', book s0 s h ->
  loop (fun x => x) eps T integrate update hdf5 eot fuel dt_in s = Some (Returned s') ->
  exists h', l_log s' = EvClose :: EvRegression :: hist_log (l_t s0) (l_tstep s0) h' ++ l_log s0 /\
    l_t s' = l_t s0 + total h' /\ l_tstep s' = (l_tstep s0 + length h')%nat /\
    l_dt s' = dt_in /\ from_integrator h' /\ (length h' <> 0%nat \/ l_open s0 = true).
Proof.
  induction fuel as [|n IH]; intros s h s' Hb E; [discriminate|].
  cbn [loop] in E. pose proof (iter_book s0 s h Hb) as G.
  assert (Fin : forall s1 h1, book s0 s1 h1 -> finish dt_in s1 = Returned s' ->
    exists h', l_log s' = EvClose :: EvRegression :: hist_log (l_t s0) (l_tstep s0) h' ++ l_log s0 /\
    l_t s' = l_t s0 + total h' /\ l_tstep s' = (l_tstep s0 + length h')%nat /\
    l_dt s' = dt_in /\ from_integrator h' /\ (length h' <> 0%nat \/ l_open s0 = true)).
  { intros s1 h1 (Hl & Ht & Hn & Hf & Ho) Ef. unfold finish in Ef. cbn [l_open] in Ef.
    destruct (l_open s1) eqn:Eo; [|discriminate]. injection Ef as <-. exists h1.
    cbn. rewrite Hl. repeat split; auto.
    symmetry in Ho. apply Bool.orb_true_iff in Ho. destruct Ho as [Ho|Ho]; [left|right; exact Ho].
    apply Bool.negb_true_iff, Nat.eqb_neq in Ho. exact Ho. }
  destruct (it s) as [s1|s1|s1|s1|s1].
  - subst s1. injection E as E. apply (Fin s h Hb E).
  - destruct G as [p G]. injection E as E. apply (Fin s1 _ G E).
  - destruct G as [p G]. apply (IH s1 _ s' G E).
  - discriminate.
  - discriminate.
Qed.
Lemma solve_book fuel s0 s' :
  solve (fun x => x) eps T integrate update hdf5 eot fuel s0 = Some (Returned s') ->
  exists h', l_log s' = EvClose :: EvRegression :: hist_log (l_t s0) (l_tstep s0) h' ++ l_log s0 /\
    l_t s' = l_t s0 + total h' /\ l_tstep s' = (l_tstep s0 + length h')%nat /\
    l_dt s' = l_dt s0 /\ from_integrator h' /\ (length h' <> 0%nat \/ l_open s0 = true).
Proof.
  intros E. apply (loop_book s0 (l_dt s0) fuel s0 [] s'); [|exact E].
  repeat split; cbn; auto. - unfold total; simpl; ring. - constructor.
Qed.

(** no step fits: nothing is integrated *)
Lemma solve_nostep fuel s0 : T + eps < l_t s0 + l_dt s0 ->
  solve (fun x => x) eps T integrate update hdf5 eot (S fuel) s0 =
  Some (if l_open s0
        then Returned (mkL (l_t s0) (l_dt s0) (l_tstep s0) (l_w s0) true (EvClose :: EvRegression :: l_log s0))
        else CloseFailed (mkL (l_t s0) (l_dt s0) (l_tstep s0) (l_w s0) false (EvRegression :: l_log s0))).
Proof.
  intros H. unfold solve. cbn [loop]. unfold iter.
  destruct (Rle_dec _ _); [lra|]. unfold finish. cbn [l_open l_t l_dt l_tstep l_w l_log].
  destruct (l_open s0); reflexivity.
Qed.
End Book.

(** ** Fixed-step channel solvers *)
Section Channel.
Context {W : Type} (eps T : R) (rotate : W -> W).
Context (integrate : R -> nat -> W -> option (W * R * R)) (update : R -> nat -> W -> W)
        (hdf5 : R -> nat -> W -> W * bool).
Context (Hfix : forall dt n w, exists w', integrate dt n w = Some (w', dt, dt)).
Context (Hnk : forall t n w, snd (hdf5 t n w) = false).
Notation it := (iter (fun x => x) eps T integrate update hdf5 (end_of_tstep_channel rotate)).
Notation lp := (loop (fun x => x) eps T integrate update hdf5 (end_of_tstep_channel rotate)).

Lemma channel_iter s : l_t s + l_dt s <= T + eps ->
  exists s', it s = Cont s' /\ l_t s' = l_t s + l_dt s /\ l_dt s' = l_dt s /\
    l_tstep s' = S (l_tstep s) /\ l_open s' = true.
Proof.
  intros H. unfold iter. destruct (Rle_dec _ _) as [_|N]; [|contradiction].
  destruct (Hfix (l_dt s) (l_tstep s) (l_w s)) as [w E]. rewrite E.
  pose proof (Hnk (l_t s + l_dt s) (S (l_tstep s)) (update (l_t s + l_dt s) (S (l_tstep s)) w)) as Hk.
  destruct (hdf5 _ _ _) as [w2 kill]. cbn [snd] in Hk. subst kill.
  unfold end_of_tstep_channel. eexists; split; [reflexivity|]. auto.
Qed.

Lemma channel_steps n : forall dt_in s, 0 < l_dt s ->
  (n = 0%nat \/ l_t s + INR n * l_dt s <= T + eps) -> T + eps < l_t s + INR (S n) * l_dt s ->
  exists s', lp (S n) dt_in s = Some (finish dt_in s') /\
    l_t s' = l_t s + INR n * l_dt s /\ l_tstep s' = (l_tstep s + n)%nat /\
    l_open s' = orb (negb (Nat.eqb n 0)) (l_open s).
Proof.
  induction n as [|n IH]; intros dt_in s Hdt Hle Hlt.
  - exists s. split.
    + cbn [loop]. unfold iter. destruct (Rle_dec _ _); [simpl in Hlt; lra|reflexivity].
    + simpl. repeat split; [ring|lia].
  - destruct Hle as [Hle|Hle]; [discriminate|].
    assert (Hn : 0 <= INR n) by apply pos_INR.
    rewrite S_INR in Hle. rewrite !S_INR in Hlt.
    destruct (channel_iter s) as (s1 & E & Et & Ed & En & Eo); [nra|].
    destruct (IH dt_in s1) as (s' & E' & Et' & En' & Eo').
    + rewrite Ed; exact Hdt.
    + right. rewrite Et, Ed. lra.
    + rewrite Et, Ed, S_INR. lra.
    + exists s'. split; [|split; [|split]].
      * cbn [loop] in E' |- *. rewrite E. exact E'.
      * rewrite Et', Et, Ed, S_INR. ring.
      * rewrite En', En. lia.
      * rewrite Eo', Eo. cbn. apply Bool.orb_true_r.
Qed.

(** the number of steps *)
Lemma steps_exist t dt : 0 < dt -> exists n, (n = 0%nat \/ t + INR n * dt <= T + eps) /\
  T + eps < t + INR (S n) * dt.
Proof.
  intros Hdt.
  destruct (Rlt_le_dec (T + eps) (t + dt)) as [H|H].
  - exists 0%nat. split; [left; reflexivity|]. simpl. lra.
  - set (q := (T + eps - t) / dt).
    assert (Hq : 1 <= q) by (unfold q; apply Rmult_le_reg_r with dt; [lra|]; unfold Rdiv;
      rewrite Rmult_assoc, Rinv_l by lra; lra).
    destruct (archimed q) as [Ha Hb].
    assert (Hz : (1 < up q)%Z) by (apply lt_IZR; lra).
    exists (Z.to_nat (up q - 1)). split.
    + right. rewrite INR_IZR_INZ, Z2Nat.id by lia. rewrite minus_IZR.
      assert (Hqq : q * dt = T + eps - t) by (unfold q; field; lra). nra.
    + rewrite S_INR, INR_IZR_INZ, Z2Nat.id by lia. rewrite minus_IZR.
      assert (Hqq : q * dt = T + eps - t) by (unfold q; field; lra). nra.
Qed.
End Channel.

(** ** Periodic solvers: the last step hits T *)
Section Periodic.
Context {W : Type} (eps T delta B : R) (Heps : 0 < eps) (Hdelta : 0 < delta).
Context (integrate : R -> nat -> W -> option (W * R * R)) (update : R -> nat -> W -> W)
        (hdf5 : R -> nat -> W -> W * bool).
(** what is required of the integrator, in the states [Q] the run visits and for steps not
    longer than the whole interval [B]: it takes at most the offered step and neither the
    step taken nor the step proposed next collapses below min(offered, delta) *)
Context (Q : nat -> W -> Prop).
Context (Hpos : forall dt n w, Q n w -> 0 < dt <= B -> exists w' d k,
   integrate dt n w = Some (w', d, k) /\ Rmin dt delta <= k <= dt /\ Rmin dt delta <= d /\ Q (S n) w').
Context (Hneg : forall n w, Q n w -> exists w' d k,
   integrate (- eps) n w = Some (w', d, k) /\ - eps <= k < 0).
Context (HQu : forall t n w, Q n w -> Q n (update t n w)).
Context (HQh : forall t n w, Q n w -> Q n (fst (hdf5 t n w))).
Notation eot := (end_of_tstep_NS (fun x => x) eps T).
Notation it := (iter (fun x => x) eps T integrate update hdf5 eot).
Notation lp := (loop (fun x => x) eps T integrate update hdf5 eot).

Definition regular (mu : R) (s : lstate W) : Prop :=
  mu <= l_dt s /\ l_t s + l_dt s <= T + eps /\ T + eps - B <= l_t s.
Definition corner (s : lstate W) : Prop := l_t s = T + eps /\ l_dt s = - eps.
Definition okQ (s : lstate W) : Prop := Q (l_tstep s) (l_w s).
(** some call of hdf5file.update found a kill file *)
Definition can_kill : Prop := exists t n w, snd (hdf5 t n w) = true.

Lemma regular_iter mu s : 0 < mu -> mu <= delta -> mu <= eps -> regular mu s -> okQ s ->
  (can_kill /\ exists s', it s = Kill s' /\ l_t s' <= T + eps) \/
  (exists s', it s = Break s' /\ Rabs (l_t s' - T) < eps /\ l_open s' = true) \/
  (exists s', it s = Cont s' /\ l_t s + mu <= l_t s' <= T + eps /\ (regular mu s' \/ corner s') /\ okQ s').
Proof.
  intros Hmu Hmd Hme [Hd [Hg HB]] HQ. unfold iter.
  destruct (Rle_dec _ _) as [_|N]; [|contradiction].
  destruct (Hpos (l_dt s) (l_tstep s) (l_w s) HQ) as (w & d & k & E & Hk & Hdn & HQ'); [lra|]. rewrite E.
  assert (Hmk : mu <= Rmin (l_dt s) delta) by (apply Rmin_glb; lra).
  set (t := l_t s + k).
  pose proof (HQh t _ _ (HQu t _ _ HQ')) as HQ2.
  destruct (hdf5 _ _ _) as [w2 kill] eqn:Eh. cbn [fst] in HQ2. destruct kill.
  { left. split; [do 3 eexists; rewrite Eh; reflexivity|].
    eexists; split; [reflexivity|]. cbn [l_t]. unfold t. lra. }
  right. unfold end_of_tstep_NS.
  destruct (Rlt_dec (Rabs (t - T)) eps) as [Hb|Hb].
  { left. eexists; split; [reflexivity|]. split; [exact Hb|reflexivity]. }
  right. assert (Hcase : t <= T - eps \/ t = T + eps).
  { unfold Rabs in Hb. destruct (Rcase_abs (t - T)); [left; lra|right; unfold t in *; lra]. }
  assert (Ht : l_t s + mu <= t <= T + eps) by (unfold t; lra).
  destruct (Rlt_dec (Rabs (t + d - T)) eps) as [Hc|Hc].
  - eexists; split; [reflexivity|]. cbn [l_t l_dt]. split; [exact Ht|]. split; [|exact HQ2].
    destruct Hcase as [Hc1|Hc1]; [left; split; cbn [l_t l_dt]; lra|].
    exfalso. rewrite Hc1 in Hc. unfold Rabs in Hc. destruct (Rcase_abs _); lra.
  - destruct (Rle_dec (T + eps) (t + d)) as [Hc2|Hc2].
    + eexists; split; [reflexivity|]. cbn [l_t l_dt]. split; [exact Ht|]. split; [|exact HQ2].
      destruct Hcase as [Hc1|Hc1]; [left; split; cbn [l_t l_dt]; lra|right; split; cbn [l_t l_dt]; lra].
    + eexists; split; [reflexivity|]. cbn [l_t l_dt]. split; [exact Ht|]. split; [|exact HQ2].
      destruct Hcase as [Hc1|Hc1]; [left; split; cbn [l_t l_dt]; lra|exfalso; lra].
Qed.

Lemma corner_iter s : corner s -> okQ s ->
  (can_kill /\ exists s', it s = Kill s' /\ l_t s' <= T + eps) \/
  (exists s', it s = Break s' /\ Rabs (l_t s' - T) < eps /\ l_open s' = true).
Proof.
  intros [Ht Hd] HQ. unfold iter. destruct (Rle_dec _ _) as [_|N]; [|exfalso; apply N; lra].
  rewrite Hd. destruct (Hneg (l_tstep s) (l_w s) HQ) as (w & d & k & E & Hk). rewrite E.
  destruct (hdf5 _ _ _) as [w2 kill] eqn:Eh. destruct kill.
  { left. split; [do 3 eexists; rewrite Eh; reflexivity|]. eexists; split; [reflexivity|]. cbn [l_t]. lra. }
  right. unfold end_of_tstep_NS.
  destruct (Rlt_dec (Rabs (l_t s + k - T)) eps) as [Hb|Hb].
  - eexists; split; [reflexivity|]. split; [exact Hb|reflexivity].
  - exfalso. apply Hb. unfold Rabs. destruct (Rcase_abs _); lra.
Qed.

(** how the loop ends *)
Definition ends (n : nat) (dt_in : R) (s : lstate W) : Prop :=
  (can_kill /\ exists s', lp n dt_in s = Some (Exited s') /\ l_t s' <= T + eps) \/
  (exists s', lp n dt_in s = Some (Returned s') /\ Rabs (l_t s' - T) < eps /\ l_dt s' = dt_in).

Lemma ends_break n dt_in s s' : it s = Break s' -> Rabs (l_t s' - T) < eps -> l_open s' = true ->
  ends (S n) dt_in s.
Proof.
  intros E H Ho. right. cbn [loop]. rewrite E. unfold finish. cbn [l_open]. rewrite Ho.
  eexists. split; [reflexivity|]. cbn. split; [exact H|reflexivity].
Qed.

Lemma periodic_loop mu dt_in : 0 < mu -> mu <= delta -> mu <= eps ->
  forall n s, regular mu s -> okQ s -> T + eps < l_t s + INR n * mu -> ends (S n) dt_in s.
Proof.
  intros Hmu Hmd Hme. induction n as [|n IH]; intros s Hr HQ Hn.
  - exfalso. destruct Hr as [H1 [H2 H3]]. simpl in Hn. lra.
  - destruct (regular_iter mu s Hmu Hmd Hme Hr HQ) as [(Hk & s' & E & Hs)|[(s' & E & Hs & Ho)|(s' & E & Hs & Hc & HQ')]].
    + left. split; [exact Hk|]. exists s'. split; [|exact Hs]. cbn [loop]. rewrite E. reflexivity.
    + apply (ends_break _ _ _ _ E Hs Ho).
    + destruct Hc as [Hc|Hc].
      * rewrite S_INR in Hn. destruct (IH s' Hc HQ' ltac:(lra)) as [(Hk & s2 & E2 & G)|(s2 & E2 & G)].
        -- left. split; [exact Hk|]. exists s2. split; [|exact G]. cbn [loop] in E2 |- *. rewrite E. exact E2.
        -- right. exists s2. split; [|exact G]. cbn [loop] in E2 |- *. rewrite E. exact E2.
      * destruct (corner_iter s' Hc HQ') as [(Hk & s2 & E2 & G)|(s2 & E2 & G & Ho)].
        -- left. split; [exact Hk|]. exists s2. split; [|exact G]. cbn [loop]. rewrite E. cbn [loop]. rewrite E2. reflexivity.
        -- destruct (ends_break n dt_in _ _ E2 G Ho) as [(Hk & s3 & E3 & G3)|(s3 & E3 & G3)].
           ++ left. split; [exact Hk|]. exists s3. split; [|exact G3]. cbn [loop] in E3 |- *. rewrite E. exact E3.
           ++ right. exists s3. split; [|exact G3]. cbn [loop] in E3 |- *. rewrite E. exact E3.
Qed.

Lemma periodic_solve s : okQ s -> 0 < l_dt s -> l_t s + l_dt s <= T + eps -> T + eps - B <= l_t s ->
  forall n, T + eps < l_t s + INR n * Rmin (l_dt s) (Rmin delta eps) -> ends (S n) (l_dt s) s.
Proof.
  intros HQ Hd Hg HB n Hn.
  apply (periodic_loop (Rmin (l_dt s) (Rmin delta eps)) (l_dt s)).
  - repeat apply Rmin_glb_lt; assumption.
  - eapply Rle_trans; [apply Rmin_r|apply Rmin_l].
  - eapply Rle_trans; [apply Rmin_r|apply Rmin_r].
  - split; [apply Rmin_l|split; assumption].
  - exact HQ.
  - exact Hn.
Qed.

(** time never exceeds T + eps at any step *)
Lemma periodic_bound s0 n s : okQ s0 -> 0 < l_dt s0 -> l_t s0 + l_dt s0 <= T + eps -> T + eps - B <= l_t s0 ->
  reach (fun x => x) eps T integrate update hdf5 eot s0 n s ->
  l_t s <= T + eps /\ (regular (Rmin (l_dt s0) (Rmin delta eps)) s \/ corner s) /\ okQ s.
Proof.
  intros HQ Hd Hg HB H.
  assert (Hmu : 0 < Rmin (l_dt s0) (Rmin delta eps)) by (repeat apply Rmin_glb_lt; assumption).
  assert (Hmd : Rmin (l_dt s0) (Rmin delta eps) <= delta) by (eapply Rle_trans; [apply Rmin_r|apply Rmin_l]).
  assert (Hme : Rmin (l_dt s0) (Rmin delta eps) <= eps) by (eapply Rle_trans; [apply Rmin_r|apply Rmin_r]).
  induction H as [|n s s' H IH E].
  - split; [lra|]. split; [|exact HQ]. left. split; [apply Rmin_l|split; assumption].
  - destruct IH as [Hb [[Hr|Hc] HQ1]].
    + destruct (regular_iter _ s Hmu Hmd Hme Hr HQ1) as [(_ & s1 & E1 & G)|[(s1 & E1 & G)|(s1 & E1 & G & Gc & GQ)]];
        rewrite E in E1; try discriminate. injection E1 as <-. split; [lra|]. split; [exact Gc|exact GQ].
    + destruct (corner_iter s Hc HQ1) as [(_ & s1 & E1 & G)|(s1 & E1 & G)]; rewrite E in E1; discriminate.
Qed.
Lemma periodic_stepped s0 n s s' : okQ s0 -> 0 < l_dt s0 -> l_t s0 + l_dt s0 <= T + eps -> T + eps - B <= l_t s0 ->
  reach (fun x => x) eps T integrate update hdf5 eot s0 n s ->
  stepped (fun x => x) eps T integrate update hdf5 eot s s' -> l_t s' <= T + eps.
Proof.
  intros HQ Hd Hg HB H Hs.
  assert (Hmu : 0 < Rmin (l_dt s0) (Rmin delta eps)) by (repeat apply Rmin_glb_lt; assumption).
  assert (Hmd : Rmin (l_dt s0) (Rmin delta eps) <= delta) by (eapply Rle_trans; [apply Rmin_r|apply Rmin_l]).
  assert (Hme : Rmin (l_dt s0) (Rmin delta eps) <= eps) by (eapply Rle_trans; [apply Rmin_r|apply Rmin_r]).
  destruct (periodic_bound s0 n s HQ Hd Hg HB H) as (_ & [Hr|Hc] & HQ1).
  - destruct (regular_iter _ s Hmu Hmd Hme Hr HQ1) as [(_ & s1 & E1 & G)|[(s1 & E1 & G & _)|(s1 & E1 & G & Gc & GQ)]];
      destruct Hs as [Hs|[Hs|Hs]]; rewrite Hs in E1; try discriminate; injection E1 as <-; try lra.
    unfold Rabs in G. destruct (Rcase_abs _); lra.
  - destruct (corner_iter s Hc HQ1) as [(_ & s1 & E1 & G)|(s1 & E1 & G & _)];
      destruct Hs as [Hs|[Hs|Hs]]; rewrite Hs in E1; try discriminate; injection E1 as <-; try lra.
    unfold Rabs in G. destruct (Rcase_abs _); lra.
Qed.
End Periodic.
