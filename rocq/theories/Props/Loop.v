(** Properties of the time loop solve() (spectralDNS/__init__.py). *)
From Coq Require Import Reals Lra Lia List FunctionalExtensionality.
From Verif Require Import Base.Cplx Base.Sums Base.Fin Spec.Env Spec.Calls Model.Maths Model.Integrators Model.BS5 Model.Integrate
  Model.Solve Model.Run Spec.RungeKutta Proofs.SolveProofs Proofs.RunProofs Proofs.LoopProofs Proofs.FsalProofs Proofs.FloatTime Props.Demo.
Import ListNotations.
Open Scope R_scope.

(** ** C15: a run of a periodic solver with a fixed step ends at T *)
Theorem C15_fixed {D I ctx E} (ComputeRHS : ctx -> svec D I -> svec D I -> svec D I * ctx) est upd
    (out : R -> nat -> svec D I -> ctx * E -> _) T fuel g s :
  g <> IBS5 true -> never_killed out -> 0 < l_dt s -> l_t s + l_dt s <= T + eps12 ->
  exists n s', run_solve ComputeRHS est upd out (fun x => x) T (S fuel) g n s = Some (Returned s') /\
    Rabs (l_t s' - T) < eps12 /\ l_dt s' = l_dt s.
Proof.
  intros Hg Hk Hd Ht. assert (Hm : 0 < Rmin (l_dt s) eps12) by (apply Rmin_glb_lt; [exact Hd|apply eps12_pos]).
  destruct (archimed_cor1 (Rmin (l_dt s) eps12 / (T + eps12 - l_t s))) as (n & Hn & Hn0).
  { apply Rdiv_lt_0_compat; lra. }
  assert (HN : 0 < INR n) by (apply lt_0_INR; exact Hn0).
  assert (Hlt : T + eps12 < l_t s + INR n * Rmin (l_dt s) eps12).
  { apply (Rmult_lt_compat_r (INR n * (T + eps12 - l_t s))) in Hn; [|apply Rmult_lt_0_compat; lra].
    replace (/ INR n * (INR n * (T + eps12 - l_t s))) with (T + eps12 - l_t s) in Hn by (field; lra).
    replace (Rmin (l_dt s) eps12 / (T + eps12 - l_t s) * (INR n * (T + eps12 - l_t s)))
      with (INR n * Rmin (l_dt s) eps12) in Hn by (field; lra). lra. }
  destruct (fixed_ends ComputeRHS est upd out T fuel g Hg s Hd Ht n Hlt) as [[(t & m & w & H) _]|(s' & H)].
  - exfalso. unfold run_output in H. specialize (Hk t m (s_u0 (w_st w)) (s_ctx (w_st w)) (w_env w)).
    destruct (out _ _ _ _) as [[c e] k]. cbn [snd] in *. congruence.
  - exists (S n), s'. exact H.
Qed.
(** with kill files: the run returns at T or exits at or before T, after at most [S n] passes *)
Theorem C15_fixed_killed {D I ctx E} (ComputeRHS : ctx -> svec D I -> svec D I -> svec D I * ctx) est upd
    (out : R -> nat -> svec D I -> ctx * E -> _) T fuel g s n :
  g <> IBS5 true -> 0 < l_dt s -> l_t s + l_dt s <= T + eps12 ->
  T + eps12 < l_t s + INR n * Rmin (l_dt s) eps12 ->
  exists s', l_t s' <= T + eps12 /\
   (run_solve ComputeRHS est upd out (fun x => x) T (S fuel) g (S n) s = Some (Exited s') \/
    run_solve ComputeRHS est upd out (fun x => x) T (S fuel) g (S n) s = Some (Returned s') /\
     Rabs (l_t s' - T) < eps12 /\ l_dt s' = l_dt s).
Proof.
  intros Hg Hd Ht Hn. destruct (fixed_ends ComputeRHS est upd out T fuel g Hg s Hd Ht n Hn) as [[_ (s' & H & H')]|(s' & H & H' & H'')].
  - exists s'. auto.
  - exists s'. split; [apply Rabs_def2 in H'; lra|right; auto].
Qed.
(** at no time during the run does t exceed T + 1e-12 *)
Theorem C15_never_beyond {D I ctx E} (ComputeRHS : ctx -> svec D I -> svec D I -> svec D I * ctx) est upd
    (out : R -> nat -> svec D I -> ctx * E -> _) T fuel g s0 s :
  g <> IBS5 true -> 0 < l_dt s0 -> l_t s0 + l_dt s0 <= T + eps12 ->
  observed ComputeRHS est upd out (fun x => x) T (S fuel) g s0 s -> l_t s <= T + eps12.
Proof. intros Hg. apply fixed_bound. exact Hg. Qed.

(** The same with BS5_adaptive.  [G]: a set of states kept by every accepted step on which the error
    estimate of steps up to [delta] is at most 0.8^5; [fuel] bounds the retries. *)
Theorem C15_adaptive {D I ctx E} (ComputeRHS : ctx -> svec D I -> svec D I -> svec D I * ctx) f est upd
    (out : R -> nat -> svec D I -> ctx * E -> _) T fuel (G : svec D I -> Prop) delta s :
  let estimate h u := est u (rk_step f bs5_A bs5_b bs5_s h u) (rk_error f bs5_A bs5_b bs5_bhat bs5_s h u) in
  computes ComputeRHS f -> update_readonly upd -> never_killed out -> (forall u v w, 0 <= est u v w) ->
  (forall u h, G u -> 0 < Rabs h <= delta -> estimate h u <= 0.8 ^ 5) ->
  (forall u h, G u -> 0 < h -> estimate h u <= 1 -> G (rk_step f bs5_A bs5_b bs5_s h u)) ->
  l_tstep s = 0%nat -> G (solution (l_w s)) -> 0 < l_dt s -> l_t s + l_dt s <= T + eps12 ->
  (T + eps12 - l_t s) * 0.8 ^ fuel <= delta -> eps12 <= delta ->
  exists n s', run_solve ComputeRHS est upd out (fun x => x) T (S fuel) (IBS5 true) n s = Some (Returned s') /\
    Rabs (l_t s' - T) < eps12 /\ l_dt s' = l_dt s.
Proof.
  cbv beta zeta. intros Hf Hu Hk Hest HG HGs H0 HGu Hd Ht Hfuel Hdel.
  pose proof eps12_pos as He.
  destruct (adaptive_ends ComputeRHS est upd out f Hf Hu T fuel G delta ltac:(lra) Hest HG HGs s H0 HGu Hd Ht Hfuel Hdel) as (mu & Hmu & H).
  destruct (archimed_cor1 (mu / (T + eps12 - l_t s))) as (n & Hn & Hn0).
  { apply Rdiv_lt_0_compat; lra. }
  assert (HN : 0 < INR n) by (apply lt_0_INR; exact Hn0).
  assert (Hlt : T + eps12 < l_t s + INR n * mu).
  { apply (Rmult_lt_compat_r (INR n * (T + eps12 - l_t s))) in Hn; [|apply Rmult_lt_0_compat; lra].
    replace (/ INR n * (INR n * (T + eps12 - l_t s))) with (T + eps12 - l_t s) in Hn by (field; lra).
    replace (mu / (T + eps12 - l_t s) * (INR n * (T + eps12 - l_t s))) with (INR n * mu) in Hn by (field; lra). lra. }
  destruct (H n Hlt) as [[(t & m & w & H1) _]|(s' & H1)].
  - exfalso. unfold run_output in H1. specialize (Hk t m (s_u0 (w_st w)) (s_ctx (w_st w)) (w_env w)).
    destruct (out _ _ _ _) as [[c e] k]. cbn [snd] in *. congruence.
  - exists (S n), s'. exact H1.
Qed.

(** ** C16: the channel solvers (end_of_tstep returns False and keeps dt) *)
Theorem C16_channel {W} (T : R) (rotate : W -> W) (integrate : R -> nat -> W -> option (W * R * R)) update hdf5 s :
  (forall dt n w, exists w', integrate dt n w = Some (w', dt, dt)) ->
  (forall t n w, snd (hdf5 t n w) = false) ->
  0 < l_dt s -> l_t s + l_dt s <= T + eps12 ->
  exists n s', l_t s + INR n * l_dt s <= T + eps12 < l_t s + INR (S n) * l_dt s /\
    solve (fun x => x) eps12 T integrate update hdf5 (end_of_tstep_channel rotate) (S n) s = Some (Returned s') /\
    l_t s' = l_t s + INR n * l_dt s /\ l_tstep s' = (l_tstep s + n)%nat /\ l_dt s' = l_dt s.
Proof.
  intros Hi Hk Hd Ht. destruct (steps_exist eps12 T (l_t s) (l_dt s) Hd) as (n & H1 & H2).
  assert (Hn : l_t s + INR n * l_dt s <= T + eps12 /\ n <> 0%nat).
  { destruct n as [|n].
    - exfalso. cbn [INR] in H2. lra.
    - split; [|discriminate]. destruct H1 as [H1|H1]; [discriminate|exact H1]. }
  destruct Hn as [Hn Hn0].
  destruct (channel_steps eps12 T rotate integrate update hdf5 Hi Hk n (l_dt s) s Hd H1 H2) as (s' & Hs & Ht' & Hts & Ho).
  exists n. unfold solve. rewrite Hs. unfold finish.
  destruct n; [contradiction|]. cbn [Nat.eqb negb orb] in Ho.
  cbn [l_open l_t l_dt l_tstep l_w l_log]. rewrite Ho.
  eexists. split; [split; assumption|]. split; [reflexivity|]. cbn [l_t l_tstep l_dt]. auto.
Qed.

(** the context that solve() leaves behind: n times integrate, update, hdf5file.update and the rotation of
    end_of_tstep, each with the time and step number of that pass *)
Theorem C16_channel_context {W} (T : R) (rotate : W -> W) (integ : nat -> W -> W) update hdf5 fuel s s' :
  let integrate := fun dt n w => Some (integ n w, dt, dt) in
  solve (fun x => x) eps12 T integrate update hdf5 (end_of_tstep_channel rotate) fuel s = Some (Returned s') ->
  exists n (ws : nat -> W), l_tstep s' = (l_tstep s + n)%nat /\ ws 0%nat = l_w s /\ ws n = l_w s' /\
    forall m, (m < n)%nat ->
      let t := l_t s + INR (S m) * l_dt s in let ts := S (l_tstep s + m) in
      ws (S m) = rotate (fst (hdf5 t ts (update t ts (integ (l_tstep s + m)%nat (ws m))))).
Proof.
  intros integrate. unfold solve. generalize (l_dt s) at 1. revert s.
  induction fuel as [|fuel IH]; intros s d H; [discriminate|].
  cbn [loop] in H. unfold iter in H. destruct (Rle_dec _ _) as [Hle|Hle].
  - unfold integrate in H at 1. cbv beta iota zeta in H.
    destruct (hdf5 (l_t s + l_dt s) (S (l_tstep s)) (update (l_t s + l_dt s) (S (l_tstep s)) (integ (l_tstep s) (l_w s)))) as [w2 kill] eqn:Eh.
    destruct kill; [discriminate|]. unfold end_of_tstep_channel in H at 1. cbv beta iota zeta in H.
    apply IH in H. destruct H as (n & ws & H1 & H2 & H3 & H4). cbn [l_t l_dt l_tstep l_w] in *.
    exists (S n), (fun m => match m with O => l_w s | S m => ws m end).
    split; [lia|]. split; [reflexivity|]. split; [exact H3|]. intros [|m] Hm; cbv zeta.
    + rewrite H2. replace (l_t s + INR 1 * l_dt s) with (l_t s + l_dt s) by (cbn [INR]; ring).
      replace (l_tstep s + 0)%nat with (l_tstep s) by lia. rewrite Eh. reflexivity.
    + specialize (H4 m ltac:(lia)). cbv zeta in H4. rewrite H4.
      replace (l_t s + l_dt s + INR (S m) * l_dt s) with (l_t s + INR (S (S m)) * l_dt s) by (rewrite !S_INR; ring).
      replace (l_tstep s + S m)%nat with (S (l_tstep s + m))%nat by lia. reflexivity.
  - unfold finish in H. cbn [l_open l_t l_dt l_tstep l_w l_log] in H. destruct (l_open s); [|discriminate].
    injection H as <-. exists 0%nat, (fun _ => l_w s). cbn [l_tstep l_w]. split; [lia|]. split; [reflexivity|]. split; [reflexivity|].
    intros m Hm. lia.
Qed.

(** ** C17: what a returning solve() has done.  [h]: the steps, newest first, as (params.dt at the
    call of integrate(), step taken); [hist_log] lists the calls made for them. *)
Theorem C17_bookkeeping {W} T (integrate : R -> nat -> W -> option (W * R * R)) update hdf5 eot fuel s0 s' :
  solve (fun x => x) eps12 T integrate update hdf5 eot fuel s0 = Some (Returned s') ->
  exists h, l_log s' = EvClose :: EvRegression :: hist_log (l_t s0) (l_tstep s0) h ++ l_log s0 /\
    l_t s' = l_t s0 + total h /\ l_tstep s' = (l_tstep s0 + length h)%nat /\ l_dt s' = l_dt s0 /\
    Forall (fun p => exists n w w' d, integrate (fst p) n w = Some (w', d, snd p)) h /\
    (length h <> 0%nat \/ l_open s0 = true) /\
    (Forall (fun p => 0 < snd p) h -> h <> [] -> l_t s0 < l_t s').
Proof.
  intros H. destruct (solve_book eps12 T integrate update hdf5 eot fuel s0 s' H) as (h & H1 & H2 & H3 & H4 & H5 & H6).
  exists h. repeat split; try assumption. intros HF Hh. rewrite H2.
  assert (0 < total h); [|lra]. clear -HF Hh. induction HF as [|p h Hp HF IH]; [contradiction|].
  cbn [total fold_right]. destruct h; [cbn; lra|]. specialize (IH ltac:(discriminate)). unfold total in IH. lra.
Qed.
(** no step fits: no call of integrate, update or hdf5file.update.  If no output was ever written by
    this HDF5File the final hdf5file.close() raises AttributeError. *)
Theorem C17_no_step {W} T (integrate : R -> nat -> W -> option (W * R * R)) update hdf5 eot fuel s0 :
  T + eps12 < l_t s0 + l_dt s0 ->
  solve (fun x => x) eps12 T integrate update hdf5 eot (S fuel) s0 =
  Some (if l_open s0
        then Returned (mkL (l_t s0) (l_dt s0) (l_tstep s0) (l_w s0) true (EvClose :: EvRegression :: l_log s0))
        else CloseFailed (mkL (l_t s0) (l_dt s0) (l_tstep s0) (l_w s0) false (EvRegression :: l_log s0))).
Proof. apply solve_nostep. Qed.

(** ** C18: binary64 arithmetic on t, dt and T *)
Theorem C18_last_step t T : is_b64 t -> is_b64 T -> T / 2 <= t <= T -> b64 (t + b64 (T - t)) = T.
Proof. apply last_step_exact. Qed.
(** a run that never ends: t = 2^60, dt = 1, T = 2^61, any right hand side, any fixed-step integrator *)
Theorem C18_stall_refuted {D I ctx E} (ComputeRHS : ctx -> svec D I -> svec D I -> svec D I * ctx) est upd
    (out : R -> nat -> svec D I -> ctx * E -> _) fuel g w :
  g <> IBS5 true -> never_killed out ->
  exists t dt T, is_b64 t /\ is_b64 dt /\ is_b64 T /\ 0 < dt /\ t < T /\
    forall n, run_solve ComputeRHS est upd out b64 T (S fuel) g n (mkL t dt 0 w false []) = None.
Proof.
  intros Hg Hk. exists t_stall, 1, T_stall.
  split; [apply is_b64_bpow; lia|]. split; [change 1 with (Raux.bpow Zaux.radix2 0); apply is_b64_bpow; lia|].
  split; [apply is_b64_bpow; lia|]. split; [lra|]. split; [rewrite T_stall_2; pose proof t_stall_ge; lra|].
  intros n. unfold run_solve, solve.
  eapply (stall_loop b64 eps12 T_stall) with (t := t_stall) (dt := 1); try reflexivity.
  - intros. apply fixed_step. exact Hg.
  - intros t m v. unfold run_output. specialize (Hk t m (s_u0 (w_st v)) (s_ctx (w_st v)) (w_env v)).
    destruct (out _ _ _ _) as [[c e] k]. exact Hk.
  - apply stall_add.
  - apply stall_lt.
  - apply stall_far.
Qed.

(** ** The hypotheses are met *)
Example C15_fixed_nonvacuous : let s := start u3 nsb in
  never_killed (D := ax3) (I := I3) (ctx := Model.NS.nsbuf ax3 I3 I3) out0 /\ 0 < l_dt s /\ l_t s + l_dt s <= 1 + eps12 /\
  exists s1, observed (Model.NS.ComputeRHS_NS demoT K3 Model.NS.Vortex None (/100) z3) est0 upd0 out0 (fun x => x) 1 1 IAB2 s s1 /\ l_t s1 = 0 + /10.
Proof.
  cbv zeta. split; [apply out0_nk|]. split; [cbn; lra|]. split; [cbn; pose proof eps12_pos; lra|].
  edestruct (start_steps (Model.NS.ComputeRHS_NS demoT K3 Model.NS.Vortex None (/100) z3) IAB2 u3 nsb) as (s & Hs & _ & Ht); [discriminate|].
  exists s. split; assumption.
Qed.
(** u' = 1 with the error estimate |u_new - u| = |h|: steps longer than 1 are rejected *)
Section Ex.
Let V := svec unit unit.
Let rhs (c : unit) (r u : V) : V * unit := (fun _ _ => C1, tt).
Let f (u : V) : V := fun _ _ => C1.
Let est (u v w : V) : R := Cabs (v tt tt - u tt tt).
Let s : lstate (world unit unit unit unit) := mkL 0 2 0 (mkWorld (init_istate (fun _ _ => C0) (fun _ _ => C0) tt) tt) false [].
Lemma bs5_b_sum : Csum bs5_s (fun j => (RtoC (bs5_b j) * C1)%C) = C1.
Proof.
  assert (H : bs5_b 0 + bs5_b 1 + bs5_b 2 + bs5_b 3 + bs5_b 4 + bs5_b 5 + bs5_b 6 + bs5_b 7 = 1).
  { unfold bs5_b. rewrite <- !Qreals.Q2R_plus. rewrite <- RMicromega.Q2R_1. apply Qreals.Qeq_eqR. vm_compute. reflexivity. }
  unfold bs5_s. cbn [Csum]. apply C_eq; unfold RtoC, Cadd, Cmul, C1, C0; cbn [fst snd]; lra.
Qed.
Lemma est_is h u : est u (rk_step f bs5_A bs5_b bs5_s h u) (rk_error f bs5_A bs5_b bs5_bhat bs5_s h u) = Rabs h.
Proof.
  unfold est, rk_step, combo.
  assert (Hk : forall j, rk_k f bs5_A h u j = fun _ _ => C1) by (intros j; rewrite rk_k_eq; reflexivity).
  replace (Csum bs5_s (fun j => RtoC (bs5_b j) * rk_k f bs5_A h u j tt tt)%C) with C1.
  - replace (u tt tt + RtoC h * C1 - u tt tt)%C with (RtoC h) by ring. apply Cabs_RtoC.
  - rewrite <- bs5_b_sum. f_equal. extensionality j. rewrite Hk. reflexivity.
Qed.
Example C15_adaptive_nonvacuous :
  exists n s', run_solve rhs est upd0 out0 (fun x => x) 10 17 (IBS5 true) n s = Some (Returned s') /\
    Rabs (l_t s' - 10) < eps12 /\ l_dt s' = 2.
Proof.
  pose proof eps12_pos. pose proof eps12_1.
  apply (C15_adaptive rhs f est upd0 out0 10 16 (fun _ => True) 0.31 s); auto using upd0_ro, out0_nk.
  - intros b r u. reflexivity.
  - intros. apply Cabs_nonneg.
  - intros u h _ Hh. rewrite est_is. lra.
  - cbn. lra.
  - cbn. lra.
  - cbn [s l_t]. apply Rle_trans with (11 * 0.8^16); [|lra]. apply Rmult_le_compat_r; lra.
  - assert (eps12 < /10^2); [|lra]. unfold eps12. apply Rinv_lt_contravar; lra.
Qed.
Example C15_adaptive_rejects : 1 < est (fun _ _ => C0) (rk_step f bs5_A bs5_b bs5_s 2 (fun _ _ => C0)) (rk_error f bs5_A bs5_b bs5_bhat bs5_s 2 (fun _ _ => C0)).
Proof. rewrite est_is, Rabs_right; lra. Qed.
End Ex.
(** a channel run of three steps: t = 0, dt = 1/4, T = 9/10 *)
Example C16_nonvacuous : exists s', solve (fun x => x) eps12 (9/10)
    (fun dt n (w : nat) => Some (S w, dt, dt)) (fun _ _ w => w) (fun _ _ w => (w, false)) (end_of_tstep_channel (fun w => w)) 4
    (mkL 0 (/4) 0 0%nat false []) = Some (Returned s') /\ l_t s' = 0 + INR 3 * (/4) /\ l_tstep s' = 3%nat.
Proof.
  pose proof eps12_pos. pose proof eps12_1.
  destruct (C16_channel (9/10) (fun w => w) (fun dt n (w : nat) => Some (S w, dt, dt)) (fun _ _ w => w) (fun _ _ w => (w, false))
    (mkL 0 (/4) 0 0%nat false [])) as (n & s' & [H1 H2] & H3 & H4 & H5 & _); cbn [l_t l_dt] in *; try lra.
  - intros. eexists. reflexivity.
  - reflexivity.
  - assert (eps12 < /10^2) by (unfold eps12; apply Rinv_lt_contravar; lra).
    assert (n = 3%nat) as ->.
    { assert ((n < 4)%nat) by (apply INR_lt; cbn [INR]; lra). assert ((2 < n)%nat); [|lia].
      rewrite S_INR in H2. apply INR_lt. cbn [INR]. lra. }
    exists s'. repeat split; assumption.
Qed.
Example C17_nonvacuous : exists s', solve (fun x => x) eps12 (9/10)
    (fun dt n (w : nat) => Some (S w, dt, dt)) (fun _ _ w => w) (fun _ _ w => (w, false)) (end_of_tstep_channel (fun w => w)) 4
    (mkL 0 (/4) 0 0%nat false []) = Some (Returned s').
Proof. destruct C16_nonvacuous as (s' & H & _). exists s'. exact H. Qed.
Example C18_nonvacuous : is_b64 1 /\ is_b64 2 /\ 2 / 2 <= 1 <= 2.
Proof.
  split; [change 1 with (Raux.bpow Zaux.radix2 0); apply is_b64_bpow; lia|].
  split; [change 2 with (Raux.bpow Zaux.radix2 1); apply is_b64_bpow; lia|lra].
Qed.

Print Assumptions C15_fixed.
Print Assumptions C15_fixed_killed.
Print Assumptions C15_never_beyond.
Print Assumptions C15_adaptive.
Print Assumptions C16_channel.
Print Assumptions C16_channel_context.
Print Assumptions C17_bookkeeping.
Print Assumptions C17_no_step.
Print Assumptions C18_last_step.
Print Assumptions C18_stall_refuted.
