(** Property C49: timing statistics. *)
From Coq Require Import Reals List Lra.
From Verif Require Import Model.Timer Spec.Stats Proofs.TimerProofs.
Import ListNotations.
Open Scope R_scope.

(** The recorded extremes bracket every timed step, whatever the clock does. *)
Theorem C49_bracket : forall c0 cs d, In d (durations c0 cs) ->
  fastest_timestep (timer_run c0 cs) <= d <= slowest_timestep (timer_run c0 cs).
Proof. exact timer_bounds. Qed.

(** If the clock never goes backwards and no step takes more than 1e8 seconds, both are attained:
    they are the minimum and the maximum of the step durations, from the first step on. *)
Theorem C49_attained : forall c0 cs,
  cs <> [] -> (forall d, In d (durations c0 cs) -> 0 <= d <= 10^8) ->
  is_min (fastest_timestep (timer_run c0 cs)) (durations c0 cs) /\
  is_max (slowest_timestep (timer_run c0 cs)) (durations c0 cs).
Proof. exact timer_extremes. Qed.

(** The report printed by rank 0: fast = (minimum of the ranks' fastest, minimum of their
    slowest), slow = (maximum of the fastest, maximum of the slowest). *)
Theorem C49_final : forall tm0 tms,
  let '((ff, fs), (sf, ss)) := timer_final tm0 tms in
  is_min ff (map fastest_timestep (tm0 :: tms)) /\ is_min fs (map slowest_timestep (tm0 :: tms)) /\
  is_max sf (map fastest_timestep (tm0 :: tms)) /\ is_max ss (map slowest_timestep (tm0 :: tms)).
Proof.
  intros. simpl. repeat split; try apply final_min; try apply final_max.
Qed.

(** Every step timed on every rank lies between the first and the last number reported. *)
Theorem C49_report : forall runs r0 c cs d,
  In (c, cs) (r0 :: runs) -> In d (durations c cs) ->
  let tm r := timer_run (fst r) (snd r) in
  let '((ff, fs), (sf, ss)) := timer_final (tm r0) (map tm runs) in
  ff <= d <= ss.
Proof.
  intros runs r0 c cs d Hr Hd tm.
  pose proof (C49_final (tm r0) (map tm runs)) as H.
  destruct (timer_final (tm r0) (map tm runs)) as [[ff fs] [sf ss]].
  destruct H as (H1 & H2 & H3 & H4).
  assert (Hin : In (tm (c, cs)) (tm r0 :: map tm runs)).
  { change (In (tm (c, cs)) (map tm (r0 :: runs))). apply in_map. exact Hr. }
  destruct (timer_bounds c cs d Hd) as [Hb1 Hb2].
  assert (Hf := in_map fastest_timestep _ _ Hin). assert (Hs := in_map slowest_timestep _ _ Hin).
  pose proof (proj2 H1 _ Hf) as A1. pose proof (proj2 H2 _ Hs) as A2.
  pose proof (proj2 H3 _ Hf) as A3. pose proof (proj2 H4 _ Hs) as A4.
  unfold tm in *; cbn [fst snd] in *. split; lra.
Qed.

(** "Time = ..." is the sum of all step durations when final() reads the clock right after the last call. *)
Theorem C49_total : forall c0 cs,
  timer_toc (last cs c0) (timer_run c0 cs) = fold_right Rplus 0 (durations c0 cs).
Proof.
  intros. rewrite durations_total. unfold timer_toc, timer_run.
  destruct (run_fold cs (timer_init c0)) as (_ & _ & H). rewrite H. reflexivity.
Qed.

(** The bound in C49_attained is needed: a run whose only step takes longer than 1e8 s reports 1e8,
    and a clock stepping backwards leaves the slowest step at 0. *)
Theorem C49_attained_needs_range :
  ~ is_min (fastest_timestep (timer_run 0 [2 * 10^8])) (durations 0 [2 * 10^8]) /\
  ~ is_max (slowest_timestep (timer_run 1 [0])) (durations 1 [0]).
Proof.
  unfold timer_run; simpl. split.
  - intros [[H|[]] _]. revert H. unfold Rmin. destruct (Rle_dec _ _); lra.
  - intros [[H|[]] _]. revert H. unfold Rmax. destruct (Rle_dec _ _); lra.
Qed.

Example C49_example :
  let tm := timer_run 10 [11; 13; 13 + 1/2] in
  durations 10 [11; 13; 13 + 1/2] = [11 - 10; 13 - 11; 13 + 1/2 - 13] /\
  fastest_timestep tm = 1/2 /\ slowest_timestep tm = 2.
Proof.
  simpl. split; [reflexivity|]. unfold Rmin, Rmax. split; repeat destruct (Rle_dec _ _); lra.
Qed.

Print Assumptions C49_bracket.
Print Assumptions C49_attained.
Print Assumptions C49_final.
Print Assumptions C49_report.
Print Assumptions C49_total.
Print Assumptions C49_attained_needs_range.
