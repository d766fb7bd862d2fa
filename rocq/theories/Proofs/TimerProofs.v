From Coq Require Import Reals List Lra.
From Verif Require Import Model.Timer Spec.Stats.
Import ListNotations.
Open Scope R_scope.

Lemma run_fold cs : forall tm,
  let tm' := fold_left (fun tm c => timer_call c tm) cs tm in
  fastest_timestep tm' = fold_left Rmin (durations (tm_t0 tm) cs) (fastest_timestep tm) /\
  slowest_timestep tm' = fold_left Rmax (durations (tm_t0 tm) cs) (slowest_timestep tm) /\
  tm_tic tm' = tm_tic tm.
Proof.
  induction cs as [|c cs IH]; intros tm; simpl; [auto|].
  specialize (IH (timer_call c tm)). simpl in IH. destruct IH as (H1 & H2 & H3).
  rewrite H1, H2, H3. rewrite (Rmin_comm (c - _)), (Rmax_comm (c - _)). auto.
Qed.

Lemma fold_min_is l : forall a, is_min (fold_left Rmin l a) (a :: l).
Proof.
  induction l as [|b l IH]; intros a; simpl.
  - split; [left; reflexivity|]. intros y [->|[]]; lra.
  - destruct (IH (Rmin a b)) as [H1 H2]. split.
    + destruct H1 as [H1|H1]; [|right; right; exact H1].
      rewrite <- H1. unfold Rmin. destruct (Rle_dec a b); [left|right; left]; reflexivity.
    + assert (Hab := H2 (Rmin a b) (or_introl eq_refl)).
      intros y [->|[->|H]].
      * eapply Rle_trans; [exact Hab|apply Rmin_l].
      * eapply Rle_trans; [exact Hab|apply Rmin_r].
      * apply H2; right; exact H.
Qed.
Lemma fold_max_is l : forall a, is_max (fold_left Rmax l a) (a :: l).
Proof.
  induction l as [|b l IH]; intros a; simpl.
  - split; [left; reflexivity|]. intros y [->|[]]; lra.
  - destruct (IH (Rmax a b)) as [H1 H2]. split.
    + destruct H1 as [H1|H1]; [|right; right; exact H1].
      rewrite <- H1. unfold Rmax. destruct (Rle_dec a b); [right; left|left]; reflexivity.
    + assert (Hab := H2 (Rmax a b) (or_introl eq_refl)).
      intros y [->|[->|H]].
      * eapply Rle_trans; [apply Rmax_l|exact Hab].
      * eapply Rle_trans; [apply Rmax_r|exact Hab].
      * apply H2; right; exact H.
Qed.
Lemma is_min_cons a x l : is_min x (a :: l) -> l <> [] -> (forall y, In y l -> y <= a) -> is_min x l.
Proof.
  intros [H1 H2] Hl Ha. split; [|intros; apply H2; right; assumption].
  destruct H1 as [H1|H1]; [|exact H1]. subst x.
  destruct l as [|b l]; [congruence|].
  assert (a <= b) by (apply H2; right; left; reflexivity).
  assert (b <= a) by (apply Ha; left; reflexivity).
  left; lra.
Qed.
Lemma is_max_cons a x l : is_max x (a :: l) -> l <> [] -> (forall y, In y l -> a <= y) -> is_max x l.
Proof.
  intros [H1 H2] Hl Ha. split; [|intros; apply H2; right; assumption].
  destruct H1 as [H1|H1]; [|exact H1]. subst x.
  destruct l as [|b l]; [congruence|].
  assert (b <= a) by (apply H2; right; left; reflexivity).
  assert (a <= b) by (apply Ha; left; reflexivity).
  left; lra.
Qed.
Lemma durations_nil c0 cs : cs <> [] -> durations c0 cs <> [].
Proof. destruct cs; simpl; congruence. Qed.

Lemma timer_extremes c0 cs :
  cs <> [] -> (forall d, In d (durations c0 cs) -> 0 <= d <= 10^8) ->
  is_min (fastest_timestep (timer_run c0 cs)) (durations c0 cs) /\
  is_max (slowest_timestep (timer_run c0 cs)) (durations c0 cs).
Proof.
  intros Hn Hb. unfold timer_run.
  destruct (run_fold cs (timer_init c0)) as (H1 & H2 & _). cbn [tm_t0 timer_init fastest_timestep slowest_timestep] in *.
  rewrite H1, H2. split.
  - apply is_min_cons with (a := 10^8); [apply fold_min_is|apply durations_nil; exact Hn|].
    intros y Hy; apply Hb; exact Hy.
  - apply is_max_cons with (a := 0); [apply fold_max_is|apply durations_nil; exact Hn|].
    intros y Hy; apply Hb; exact Hy.
Qed.

Lemma timer_bounds c0 cs d :
  In d (durations c0 cs) ->
  fastest_timestep (timer_run c0 cs) <= d <= slowest_timestep (timer_run c0 cs).
Proof.
  intros Hd. unfold timer_run.
  destruct (run_fold cs (timer_init c0)) as (H1 & H2 & _). cbn [tm_t0 timer_init fastest_timestep slowest_timestep] in *.
  rewrite H1, H2. split.
  - apply fold_min_is; right; exact Hd.
  - apply fold_max_is; right; exact Hd.
Qed.

Lemma final_min (f : timer -> R) tm0 tms : is_min (mpi_reduce Rmin (f tm0) (map f tms)) (map f (tm0 :: tms)).
Proof. apply fold_min_is. Qed.
Lemma final_max (f : timer -> R) tm0 tms : is_max (mpi_reduce Rmax (f tm0) (map f tms)) (map f (tm0 :: tms)).
Proof. apply fold_max_is. Qed.

Lemma durations_total : forall cs c0, fold_right Rplus 0 (durations c0 cs) = last cs c0 - c0.
Proof.
  induction cs as [|c cs IH]; intros c0; simpl; [ring|].
  rewrite IH. destruct cs; simpl; [ring|].
  assert (H : forall (l : list R) a b c, last (a :: l) b = last (a :: l) c).
  { induction l as [|x l IHl]; intros; [reflexivity|]. change (last (x :: l) b = last (x :: l) c1). apply IHl. }
  change (match cs with [] => r | _ :: _ => last cs c end) with (last (r :: cs) c).
  change (match cs with [] => r | _ :: _ => last cs c0 end) with (last (r :: cs) c0).
  rewrite (H cs r c c0). ring.
Qed.
