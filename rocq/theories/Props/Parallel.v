(** C25, C66, C67: agreement of the MPI ranks. *)
From Coq Require Import Reals Lra List Bool Arith Lia.
From Verif Require Import Base.Sums Spec.Mpi Model.Integrators Model.Parallel Proofs.MpiProofs Proofs.ParallelProofs.
Import ListNotations.
Open Scope R_scope.

Section Claims.
Context {S M : Type} (net : nat -> (nat -> M) -> nat -> M) (n : nat).
Hypothesis Hn : (0 < n)%nat.
Hypothesis net_local : forall tag f f' i, (forall j, (j < n)%nat -> f j = f' j) -> net tag f i = net tag f' i.

(** C25: whatever the ranks hold and however they are scheduled, solve() does not deadlock or
    crash; all ranks stop in the same way, at the same t and tstep, with the same dt, having tried
    the same step sizes with the same error estimates (hence the same rejections) in every step.
    With make_profile the ranks must have called equally many of the profiled methods (C67). *)
Theorem C25_solve (rhs_ph : list (phase S M)) (c : solve_code S M) rnd eps T fuel afuel t dt tstep (s : nat -> S) :
  (forall f, sc_profile c = Some f -> exists m, forall i s, length (f i s) = m) ->
  exists dec a, always_returns net n (fun i => solve_prog rhs_ph c rnd eps T fuel afuel t dt tstep i (s i)) a /\
    forall i, (i < n)%nat -> fst (a i) = dec.
Proof.
  intros Hp. destruct (wp_always net n Hn net_local (same n) (fun i => solve_prog rhs_ph c rnd eps T fuel afuel t dt tstep i (s i)))
    as (a & (dec & Hd) & Ha).
  - apply wp_loop; auto.
  - exists dec, a. auto.
Qed.
(** the same for one call of an integrator *)
Theorem C25_integrate (rhs_ph : list (phase S M)) g fuel tstep dt (s : nat -> S) :
  exists tr res a, always_returns net n (fun i => integrate_prog rhs_ph g fuel i tstep dt (s i)) a /\
    forall i, (i < n)%nat -> fst (a i) = (tr, res).
Proof.
  destruct (wp_always net n Hn net_local (same n) (fun i => integrate_prog rhs_ph g fuel i tstep dt (s i))) as (a & ([tr res] & Hd) & Ha).
  - apply wp_integrate; auto.
  - exists tr, res, a. auto.
Qed.
(** the estimate every rank ends up with: the sums over the data of all ranks, scaled by the
    number of points of rank 0 *)
Definition est_of_ranks (n : nat) (comps : nat) (nsq : nat -> nat -> R) (size0 : R) : R :=
  fold_right Rmax 0 (map (fun k => sqrt (RsumL (seq 0 n) (fun i => nsq i k))) (seq 0 comps)) / sqrt size0.
Theorem C25_estimate (d : adaptive_code S) (s : nat -> S) :
  exists a, always_returns net n (fun i => est_prog d i (s i)) a /\
    forall i, (i < n)%nat -> a i = est_of_ranks n (ad_comps d) (fun i k => ad_nsq d i k (s i)) (ad_size d 0).
Proof.
  destruct (wp_always net n Hn net_local _ _ (wp_est net n d s)) as (a & Hd & Ha). exists a. split; [exact Ha|].
  intros i Hi. rewrite (Hd i Hi). unfold est_global, est_value, totals, est_of_ranks. rewrite map_map. reflexivity.
Qed.
(** all ranks see the kill file or none does *)
Theorem C25_kill (f : file_code S M) tstep (s : nat -> S) :
  exists b a, always_returns net n (fun i => kill_prog f i tstep (s i)) a /\ (forall i, (i < n)%nat -> a i = b) /\
    (b = true <-> exists i, (i < n)%nat /\ fc_seen f i tstep (s i) = true).
Proof.
  set (b := Nat.ltb 0 (fold_right (fun j x => (if fc_seen f j tstep (s j) then 1 else 0) + x)%nat 0%nat (seq 0 n))).
  assert (W : wp net n (fun k => forall i, (i < n)%nat -> k i = b) (fun i => kill_prog f i tstep (s i))).
  { unfold kill_prog. eapply (wp_coll _ _ _ _ (fun i => RAllreduce (if fc_seen f i tstep (s i) then 1 else 0)%nat) _ (fun i => Ret b)).
    - intros; reflexivity.
    - intros i Hi. eexists. split; [apply (ans_allreduce net n _ i (fun i => if fc_seen f i tstep (s i) then 1 else 0)%nat); reflexivity|reflexivity].
    - apply wp_return. auto. }
  destruct (wp_always net n Hn net_local _ _ W) as (a & Hd & Ha). exists b, a. split; [exact Ha|]. split; [exact Hd|].
  unfold b. rewrite Nat.ltb_lt.
  assert (G : forall l, (0 < fold_right (fun j x => (if fc_seen f j tstep (s j) then 1 else 0) + x)%nat 0%nat l)%nat <->
      exists i, In i l /\ fc_seen f i tstep (s i) = true).
  { induction l as [|j l IH]; simpl; [split; [lia|intros (i & [] & _)]|].
    destruct (fc_seen f j tstep (s j)) eqn:E.
    - split; [intros _; exists j; auto|intros; lia].
    - simpl. rewrite IH. split; intros (i & H1 & H2); exists i; split; auto. destruct H1 as [->|]; [congruence|auto]. }
  rewrite G. split; intros (i & H1 & H2); exists i; split; auto; [apply in_seq in H1; lia|apply in_seq; lia].
Qed.
End Claims.

(** C66: the estimate is divided by the root of the number of points of rank 0, not of the whole
    mesh: the same data dealt out evenly over n ranks gives an estimate sqrt(n) times larger *)
Theorem C66_estimate_scales n comps nsq nsq1 size : (0 < n)%nat -> 0 < size ->
  (forall k, RsumL (seq 0 n) (fun i => nsq i k) = nsq1 k) ->
  est_of_ranks n comps nsq (size / INR n) = sqrt (INR n) * est_of_ranks 1 comps (fun _ k => nsq1 k) size.
Proof.
  intros Hn Hs Hk. unfold est_of_ranks.
  assert (0 < INR n) by (apply lt_0_INR; auto).
  rewrite sqrt_div by lra.
  replace (map (fun k => sqrt (RsumL (seq 0 1) (fun _ => nsq1 k))) (seq 0 comps)) with (map (fun k => sqrt (RsumL (seq 0 n) (fun i => nsq i k))) (seq 0 comps)).
  - field. split; apply Rgt_not_eq, sqrt_lt_R0; auto.
  - apply map_ext. intros k. rewrite Hk. simpl. f_equal. ring.
Qed.
(** so the accept decision depends on the number of ranks: est = 3/4 with one, 3/2 with four *)
Theorem C66_decision_refuted : exists nsq nsq1 size, (forall k, RsumL (seq 0 4) (fun i => nsq i k) = nsq1 k) /\
  ~ 1 < est_of_ranks 1 1 (fun _ k => nsq1 k) size /\ 1 < est_of_ranks 4 1 nsq (size / INR 4).
Proof.
  exists (fun _ _ => 9 / 4), (fun _ => 9), 16. split; [intros; simpl; lra|].
  assert (E : est_of_ranks 1 1 (fun _ _ => 9) 16 = 3 / 4).
  { unfold est_of_ranks. simpl. replace (9 + 0) with (3 * 3) by ring. replace 16 with (4 * 4) by ring.
    rewrite !sqrt_square by lra. rewrite Rmax_left by lra. field. }
  split; [lra|]. rewrite (C66_estimate_scales 4 1 _ (fun _ => 9)) by (try lia; try lra; intros; simpl; lra).
  rewrite E. replace (INR 4) with (2 * 2) by (simpl; ring). rewrite sqrt_square by lra. lra.
Qed.

(** C67: create_profile() reduces once per listed method that a rank has called: if a rank has
    called one more than another, the ranks wait for each other for ever *)
Theorem C67_profile_refuted : can_deadlock (fun (_ : nat) (f : nat -> unit) => f) 2
  (fun i => profile_prog (match i with O => [(1, 1)] | _ => [] end) (Ret tt)).
Proof.
  set (p := fun i => profile_prog (match i with O => [(1, 1)] | _ => [] end) (@Ret unit unit tt)).
  eexists; eexists. split.
  - eapply as_S; [apply as_0|]. eapply (enter _ 2 (astart p) 0); [lia|reflexivity|reflexivity].
  - split.
    + intros c' H. inversion H as [i q k Hi Hp Hl|i q k qs r Hi Hp Hl Ha|i op x k Hi H0 Hp Hl|i x k v Hi Hp Hl Hv]; clear H; simpl in *.
      * destruct i as [|[|i]]; [|discriminate Hp|lia]. unfold set in Hl; simpl in Hl. discriminate.
      * destruct i as [|[|i]]; [|discriminate Hp|lia]. specialize (Hl 1%nat). unfold set in Hl; simpl in Hl. specialize (Hl ltac:(lia)). discriminate.
      * destruct i as [|[|i]]; [congruence|discriminate Hp|lia].
      * destruct i as [|[|i]]; [discriminate Hp|discriminate Hp|lia].
    + exists 0%nat. split; [lia|]. intros a E. discriminate.
Qed.

(** The hypotheses can be met and a rejection occurs: three ranks with different data *)
Definition exD : adaptive_code R :=
  mkAd 8 true true (fun _ s => s) (fun _ _ _ s => s) (fun _ _ s => s) (fun _ _ s => s) 1 (fun _ _ s => s) (fun _ => 4) (fun _ s => s / 100) (fun _ s => s).
Definition exF : file_code R R := mkFile [] (fun _ => []) 1 1 (fun rank tstep _ => andb (Nat.eqb rank 2) (Nat.eqb tstep 5)) (fun _ _ => []) [].
Definition ring_net (tag : nat) (f : nat -> R) (i : nat) : R := f ((i + 1) mod 3)%nat.
Definition exC : solve_code R R :=
  mkCode (Adaptive exD) exF (fun _ _ => [mkPhase 7 (fun _ s => s) (fun _ s m => s + m)]) (fun _ s => s) (fun _ dt => (false, dt)) (fun _ s => s)
    (fun _ s => (s, s)) (Some (fun _ s => [(s, s)])) [].
Example C25_example : exists dec a, always_returns ring_net 3
    (fun i => solve_prog [mkPhase 3 (fun _ s => s) (fun _ _ m => m)] exC (fun x => x) 0 1 10 10 0 (1/10) 0 i (INR (9 * (i + 1)))) a /\
    (forall i, (i < 3)%nat -> fst (a i) = dec) /\
    1 < est_of_ranks 3 1 (fun i k => ad_nsq exD i k (INR (9 * (i + 1)))) (ad_size exD 0).
Proof.
  destruct (@C25_solve R R ring_net 3 ltac:(lia) ltac:(intros tag f f' i H; apply H; apply Nat.mod_upper_bound; lia)
    [mkPhase 3 (fun (_ : nat) (s : R) => s) (fun _ _ m => m)] exC (fun x : R => x) 0 1 10%nat 10%nat 0 (1/10) 0%nat
    (fun i => INR (9 * (i + 1)))) as (dec & a & H1 & H2).
  - intros f Hf. exists 1%nat. injection Hf as <-. reflexivity.
  - exists dec, a. split; [exact H1|]. split; [exact H2|].
    unfold est_of_ranks. cbn [seq map fold_right RsumL exD ad_nsq ad_size Nat.add Nat.mul].
    assert (E : INR 9 + (INR 18 + (INR 27 + 0)) = 54) by (simpl; ring).
    rewrite E. replace 4 with (2 * 2) by ring. rewrite sqrt_square by lra.
    assert (7 < sqrt 54). { replace 7 with (sqrt (7 * 7)) by (apply sqrt_square; lra). apply sqrt_lt_1; lra. }
    rewrite Rmax_left by lra. lra.
Qed.

Print Assumptions C25_solve.
Print Assumptions C25_integrate.
Print Assumptions C25_estimate.
Print Assumptions C25_kill.
Print Assumptions C66_estimate_scales.
Print Assumptions C66_decision_refuted.
Print Assumptions C67_profile_refuted.
