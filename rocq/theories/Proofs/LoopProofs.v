(** Complete runs: termination at T, textbook steps, FSAL over a whole run. *)
From Coq Require Import Reals Lra Lia List FunctionalExtensionality ZArith QArith Qreals.
From Verif Require Import Base.Cplx Base.Sums Spec.Env Base.Fin Spec.RungeKutta Spec.Calls Model.Maths Model.BS5
  Model.Integrators Model.Integrate Model.Solve Model.Run
  Proofs.IntegratorProofs Proofs.FsalProofs Proofs.SolveProofs Proofs.RunProofs Proofs.PeriodicProofs Proofs.MeanProofs.
Import ListNotations.
Open Scope R_scope.

Lemma bs5_fsal : fsal_tableau bs5_A bs5_b bs5_s.
Proof.
  split.
  - intros j Hj. unfold bs5_s in *. cbn [Nat.sub] in *.
    do 7 (destruct j as [|j]; [reflexivity|]). lia.
  - unfold bs5_b, bs5_s. cbn [nth BS5_b Nat.sub]. unfold Q2R. cbn. lra.
Qed.

Section Runs.
Context {D I ctx E : Type}.
Notation V := (svec D I).
Context (ComputeRHS : ctx -> V -> V -> V * ctx) (est_of : V -> V -> V -> R).
Context (upd : R -> nat -> V * V * ctx * E -> V * V * ctx * E).
Context (out : R -> nat -> V -> ctx * E -> ctx * E * bool).
Notation W := (world D I ctx E).

Lemma run_output_keeps t n (w : W) : s_u0 (w_st (fst (run_output out t n w))) = s_u0 (w_st w) /\
  s_u1 (w_st (fst (run_output out t n w))) = s_u1 (w_st w) /\
  s_fY (w_st (fst (run_output out t n w))) = s_fY (w_st w) /\
  s_off (w_st (fst (run_output out t n w))) = s_off (w_st w).
Proof. unfold run_output. destruct (out _ _ _ _) as [[c e] k]. auto. Qed.
Lemma run_update_keeps (Hu : update_readonly upd) t n (w : W) :
  s_u0 (w_st (run_update upd t n w)) = s_u0 (w_st w) /\
  s_u1 (w_st (run_update upd t n w)) = s_u1 (w_st w) /\
  s_fY (w_st (run_update upd t n w)) = s_fY (w_st w) /\
  s_off (w_st (run_update upd t n w)) = s_off (w_st w).
Proof.
  unfold run_update. pose proof (Hu t n (s_u0 (w_st w)) (s_rhs (w_st w)) (s_ctx (w_st w)) (w_env w)) as H.
  destruct (upd _ _ _) as [[[u r] c] e]. cbn [fst] in H. subst u. auto.
Qed.

(** what one step of the loop does to the solution *)
Lemma stepped_solution rnd T fuel g s s' : update_readonly upd ->
  run_stepped ComputeRHS est_of upd out rnd T fuel g s s' ->
  exists st d k, integrate ComputeRHS est_of fuel g (l_dt s) (l_tstep s) (w_st (l_w s)) = Some (st, d, k) /\
    solution (l_w s') = s_u0 st /\ l_t s' = rnd (l_t s + k) /\ l_tstep s' = S (l_tstep s).
Proof.
  intros Hu Hs.
  assert (G : match run_iter ComputeRHS est_of upd out rnd T fuel g s with
    | Cont s' | Break s' | Kill s' => exists st d k, integrate ComputeRHS est_of fuel g (l_dt s) (l_tstep s) (w_st (l_w s)) = Some (st, d, k) /\
       solution (l_w s') = s_u0 st /\ l_t s' = rnd (l_t s + k) /\ l_tstep s' = S (l_tstep s)
    | _ => True end).
  { unfold run_iter, iter. destruct (Rle_dec _ _); [|exact Logic.I].
    unfold run_integrate.
    destruct (integrate ComputeRHS est_of fuel g (l_dt s) (l_tstep s) (w_st (l_w s))) as [[[st d] k]|] eqn:E0; [|exact Logic.I].
    set (w1 := mkWorld st (w_env (l_w s))). set (t := rnd (l_t s + k)).
    destruct (run_update_keeps Hu t (S (l_tstep s)) w1) as (U0 & _).
    set (w2 := run_update upd t (S (l_tstep s)) w1) in *.
    destruct (run_output_keeps t (S (l_tstep s)) w2) as (O0 & _).
    destruct (run_output out t (S (l_tstep s)) w2) as [w3 kill]. cbn [fst] in *.
    assert (Hsol : solution w3 = s_u0 st) by (unfold solution; rewrite O0, U0; reflexivity).
    destruct kill; [exists st, d, k; auto|].
    unfold end_of_tstep_NS. destruct (Rlt_dec _ _); [|destruct (Rlt_dec _ _); [|destruct (Rle_dec _ _)]]; exists st, d, k; auto. }
  unfold run_iter in G. destruct Hs as [E1|[E1|E1]]; rewrite E1 in G; exact G.
Qed.

(** ** Fixed-step integrators *)
Section Fixed.
Context (T : R) (fuel : nat) (g : integ) (Hg : g <> IBS5 true).
Notation go := (solve (fun x => x) eps12 T (run_integrate ComputeRHS est_of (S fuel) g) (run_update upd) (run_output out)
   (end_of_tstep_NS (fun x => x) eps12 T)).
Lemma fixed_step dt n (w : W) : exists w', run_integrate ComputeRHS est_of (S fuel) g dt n w = Some (w', dt, dt).
Proof.
  unfold run_integrate. destruct (integrate_fixed_total ComputeRHS est_of fuel g dt n (w_st w) Hg) as [st ->]. eauto.
Qed.
Lemma fixed_ends s : 0 < l_dt s -> l_t s + l_dt s <= T + eps12 ->
  forall n, T + eps12 < l_t s + INR n * Rmin (l_dt s) eps12 ->
  (can_kill (run_output (D:=D) out) /\ exists s', run_solve ComputeRHS est_of upd out (fun x => x) T (S fuel) g (S n) s = Some (Exited s') /\ l_t s' <= T + eps12) \/
  (exists s', run_solve ComputeRHS est_of upd out (fun x => x) T (S fuel) g (S n) s = Some (Returned s') /\
     Rabs (l_t s' - T) < eps12 /\ l_dt s' = l_dt s).
Proof.
  intros Hd Hle n Hn. pose proof eps12_pos as He.
  apply (periodic_solve eps12 T eps12 (T + eps12 - l_t s) He He
     (run_integrate ComputeRHS est_of (S fuel) g) (run_update upd) (run_output out) (fun _ _ => True)); auto.
  - intros dt m w _ Hdt. destruct (fixed_step dt m w) as [w' E0]. exists w', dt, dt.
    split; [exact E0|]. pose proof (Rmin_l dt eps12). lra.
  - intros m w _. destruct (fixed_step (- eps12) m w) as [w' E0]. exists w', (- eps12), (- eps12).
    split; [exact E0|]. lra.
  - exact Logic.I.
  - lra.
  - rewrite (Rmin_left eps12 eps12) by lra. exact Hn.
Qed.
Lemma fixed_bound s0 s : 0 < l_dt s0 -> l_t s0 + l_dt s0 <= T + eps12 ->
  observed ComputeRHS est_of upd out (fun x => x) T (S fuel) g s0 s -> l_t s <= T + eps12.
Proof.
  intros Hd Hle (n & s1 & Hr & Hs). pose proof eps12_pos as He.
  assert (HP : forall dt n (w : W), True -> 0 < dt <= T + eps12 - l_t s0 -> exists w' d k,
     run_integrate ComputeRHS est_of (S fuel) g dt n w = Some (w', d, k) /\ Rmin dt eps12 <= k <= dt /\ Rmin dt eps12 <= d /\ True).
  { intros dt m w _ Hdt. destruct (fixed_step dt m w) as [w' E0]. exists w', dt, dt.
    split; [exact E0|]. pose proof (Rmin_l dt eps12). lra. }
  assert (HN : forall n (w : W), True -> exists w' d k,
     run_integrate ComputeRHS est_of (S fuel) g (- eps12) n w = Some (w', d, k) /\ - eps12 <= k < 0).
  { intros m w _. destruct (fixed_step (- eps12) m w) as [w' E0]. exists w', (- eps12), (- eps12).
    split; [exact E0|]. lra. }
  destruct Hs as [->|Hs].
  - apply (periodic_bound eps12 T eps12 (T + eps12 - l_t s0) He He _ (run_update upd) (run_output out) (fun _ _ => True) HP HN
      ltac:(auto) ltac:(auto) s0 n s1); auto; [exact Logic.I|lra].
  - apply (periodic_stepped eps12 T eps12 (T + eps12 - l_t s0) He He _ (run_update upd) (run_output out) (fun _ _ => True) HP HN
      ltac:(auto) ltac:(auto) s0 n s1 s); auto; [exact Logic.I|lra].
Qed.
End Fixed.

(** ** BS5: first-same-as-last over a whole run *)
Section Fsal.
Context (f : V -> V) (Hf : computes ComputeRHS f) (Hu : update_readonly upd).
Definition readyW (n : nat) (w : W) : Prop := n <> 0%nat -> fsal_ready f bs5_s (w_st w).
Lemma readyW_update t n w : readyW n w -> readyW n (run_update upd t n w).
Proof.
  intros H Hn. destruct (run_update_keeps Hu t n w) as (E0 & E1 & EY & Eo).
  unfold fsal_ready. rewrite EY, Eo, E0. apply H, Hn.
Qed.
Lemma readyW_output t n w : readyW n w -> readyW n (fst (run_output out t n w)).
Proof.
  intros H Hn. destruct (run_output_keeps t n w) as (E0 & E1 & EY & Eo).
  unfold fsal_ready. rewrite EY, Eo, E0. apply H, Hn.
Qed.

(** a step of the loop *)
Definition textbook (rnd : R -> R) (g : integ) (s s' : lstate W) : Prop :=
  match g with
  | IRK4 => solution (l_w s') = rk4 f (l_dt s) (solution (l_w s)) /\ l_t s' = rnd (l_t s + l_dt s)
  | IForwardEuler => solution (l_w s') = euler f (l_dt s) (solution (l_w s)) /\ l_t s' = rnd (l_t s + l_dt s)
  | IAB2 => (l_tstep s = 0%nat -> solution (l_w s') = euler f (l_dt s) (solution (l_w s))) /\
            l_t s' = rnd (l_t s + l_dt s)
  | IBS5 ad => exists took, solution (l_w s') = rk_step f bs5_A bs5_b bs5_s took (solution (l_w s)) /\
               l_t s' = rnd (l_t s + took) /\ (ad = false -> took = l_dt s)
  end.

Lemma loop_fixed_took fuel ts dt fm st st' d k :
  adaptive_loop ComputeRHS bs5_A bs5_b bs5_bhat bs5_s est_of fuel true false ts dt fm st = Some (st', d, k) -> k = dt.
Proof.
  destruct fuel as [|fuel]; [discriminate|]. cbn [adaptive_loop]. unfold attempt. intros H.
  injection H. auto.
Qed.

Lemma iter_textbook rnd T fuel g s : readyW (l_tstep s) (l_w s) \/ (forall ad, g <> IBS5 ad) ->
  match run_iter ComputeRHS est_of upd out rnd T fuel g s with
  | Cont s' | Break s' | Kill s' => textbook rnd g s s' /\ l_tstep s' = S (l_tstep s) /\
      ((exists ad, g = IBS5 ad) -> readyW (l_tstep s') (l_w s'))
  | _ => True
  end.
Proof.
  intros Hr. unfold run_iter, iter. destruct (Rle_dec _ _); [|exact Logic.I].
  unfold run_integrate.
  destruct (integrate ComputeRHS est_of fuel g (l_dt s) (l_tstep s) (w_st (l_w s))) as [[[st d] k]|] eqn:E0; [|exact Logic.I].
  set (w1 := mkWorld st (w_env (l_w s))). set (t := rnd (l_t s + k)).
  destruct (run_update_keeps Hu t (S (l_tstep s)) w1) as (U0 & U1 & UY & Uo).
  set (w2 := run_update upd t (S (l_tstep s)) w1) in *.
  destruct (run_output_keeps t (S (l_tstep s)) w2) as (O0 & O1 & OY & Oo).
  destruct (run_output out t (S (l_tstep s)) w2) as [w3 kill]. cbn [fst] in *.
  assert (Hsol : solution w3 = s_u0 st) by (unfold solution; rewrite O0, U0; reflexivity).
  assert (G : (match g with
     | IRK4 => s_u0 st = rk4 f (l_dt s) (solution (l_w s)) /\ k = l_dt s
     | IForwardEuler => s_u0 st = euler f (l_dt s) (solution (l_w s)) /\ k = l_dt s
     | IAB2 => (l_tstep s = 0%nat -> s_u0 st = euler f (l_dt s) (solution (l_w s))) /\ k = l_dt s
     | IBS5 ad => s_u0 st = rk_step f bs5_A bs5_b bs5_s k (solution (l_w s)) /\ (ad = false -> k = l_dt s) /\ fsal_ready f bs5_s st
     end)).
  { destruct g as [| | |ad]; cbn [integrate] in E0.
    - pose proof (RK4_is_rk4 ComputeRHS f Hf (l_dt s) (w_st (l_w s))) as H.
      pose proof (RK4_dt ComputeRHS (l_dt s) (w_st (l_w s))) as [_ H2].
      pose proof (f_equal (option_map (fun x => fst (fst x))) E0) as Ea. apply some_inj in Ea. cbn [fst] in Ea.
      pose proof (f_equal (option_map snd) E0) as Eb. apply some_inj in Eb. cbn [snd] in Eb.
      rewrite Ea in H. rewrite Eb in H2. auto.
    - pose proof (FE_is_euler ComputeRHS f Hf (l_dt s) (w_st (l_w s))) as H.
      unfold ForwardEuler in *. destruct (ComputeRHS _ _ _). injection E0 as <- <- <-. auto.
    - pose proof (AB2_fields ComputeRHS f Hf (l_dt s) (l_tstep s) (w_st (l_w s))) as [H _].
      unfold AB2 in *. destruct (ComputeRHS _ _ _). injection E0 as <- <- <-. split; [|reflexivity].
      intros Hz. rewrite Hz in H. rewrite Hz. exact H.
    - destruct Hr as [Hr|Hr]; [|exfalso; apply (Hr ad); reflexivity].
      unfold adaptiveRK in E0.
      destruct (loop_step ComputeRHS f Hf bs5_A bs5_b bs5_bhat bs5_s ltac:(unfold bs5_s; lia) est_of bs5_fsal
         _ _ _ _ _ _ _ _ _ Hr E0) as [G1 G2].
      split; [exact G1|]. split; [|exact G2].
      intros ->. apply (loop_fixed_took _ _ _ _ _ _ _ _ E0). }
  assert (Fin : forall s', l_t s' = t -> l_tstep s' = S (l_tstep s) -> l_w s' = w3 ->
     textbook rnd g s s' /\ l_tstep s' = S (l_tstep s) /\
      ((exists ad, g = IBS5 ad) -> readyW (l_tstep s') (l_w s'))).
  { intros s' Et En Ew. split; [|split; [exact En|]].
    - unfold textbook. rewrite Et, Ew, Hsol. unfold t. destruct g as [| | |ad].
      + destruct G as [-> ->]. auto.
      + destruct G as [-> ->]. auto.
      + destruct G as [G ->]. auto.
      + destruct G as (-> & Gk & _). exists k. auto.
    - intros [ad ->]. destruct G as (_ & _ & G). intros _. rewrite Ew. unfold fsal_ready.
      rewrite OY, UY, Oo, Uo, O0, U0. exact G. }
  destruct kill; [apply Fin; reflexivity|].
  unfold end_of_tstep_NS. destruct (Rlt_dec _ _); [|destruct (Rlt_dec _ _); [|destruct (Rle_dec _ _)]]; apply Fin; reflexivity.
Qed.

(** every step of a run started with tstep = 0 is a textbook step *)
Lemma run_textbook rnd T fuel g s0 n s s' : l_tstep s0 = 0%nat ->
  run_reach ComputeRHS est_of upd out rnd T fuel g s0 n s ->
  run_stepped ComputeRHS est_of upd out rnd T fuel g s s' -> textbook rnd g s s'.
Proof.
  intros H0 Hr Hs.
  assert (G : readyW (l_tstep s) (l_w s) \/ (forall ad, g <> IBS5 ad)).
  { destruct g as [| | |ad]; try (right; discriminate). left.
    clear Hs s'. induction Hr as [|n s s1 Hr IH E1]; [intros Hx; congruence|].
    pose proof (iter_textbook rnd T fuel (IBS5 ad) s (or_introl IH)) as G. unfold run_iter in G. rewrite E1 in G.
    destruct G as (_ & _ & G). apply G. eauto. }
  pose proof (iter_textbook rnd T fuel g s G) as Gi. unfold run_iter in Gi.
  destruct Hs as [E1|[E1|E1]]; rewrite E1 in Gi; apply Gi.
Qed.

(** repeated calls of the BS5 closure keep the FSAL buffer valid *)
Lemma calls_ready est fuel ad dts : forall ts (st st' : istate D I ctx),
  (ts <> 0%nat -> fsal_ready f bs5_s st) ->
  calls ComputeRHS est fuel (IBS5 ad) dts ts st = Some st' ->
  (ts + length dts <> 0)%nat -> fsal_ready f bs5_s st'.
Proof.
  induction dts as [|dt dts IH]; intros ts st st' Hr E0 Hn; cbn [calls] in E0.
  - injection E0 as <-. apply Hr. cbn in Hn. lia.
  - cbn [integrate] in E0. destruct (adaptiveRK _ _ _ _ _ _ _ _ _ _ _ _) as [[[st1 d] k]|] eqn:E1; [|discriminate].
    destruct (loop_step ComputeRHS f Hf bs5_A bs5_b bs5_bhat bs5_s ltac:(unfold bs5_s; lia) est bs5_fsal
         _ _ _ _ _ _ _ _ _ Hr E1) as [_ G2].
    apply (IH (S ts) st1 st' ltac:(intros _; exact G2) E0). lia.
Qed.
Lemma calls_app est fuel g d1 : forall d2 ts (st : istate D I ctx),
  calls ComputeRHS est fuel g (d1 ++ d2) ts st =
  match calls ComputeRHS est fuel g d1 ts st with None => None | Some st' => calls ComputeRHS est fuel g d2 (ts + length d1) st' end.
Proof.
  induction d1 as [|d d1 IH]; intros d2 ts st; cbn [calls app length].
  - rewrite Nat.add_0_r. reflexivity.
  - destruct (integrate _ _ _ _ _ _ _) as [[[st1 dd] k]|]; [|reflexivity]. rewrite IH.
    replace (S ts + length d1)%nat with (ts + S (length d1))%nat by lia. reflexivity.
Qed.

(** ** Termination of an adaptive run *)
Section Adaptive.
Context (T : R) (fuel : nat) (G : V -> Prop) (delta : R).
Notation est_step := (step_est f bs5_A bs5_b bs5_bhat bs5_s est_of).
Context (Hdelta : 0 < delta) (Hest : forall u v w, 0 <= est_of u v w).
(** the states [G] the run stays in: there the error estimate of every step of length at most
    delta, forwards or backwards, is at most 0.8^5 *)
Context (HG : forall u h, G u -> 0 < Rabs h <= delta -> est_step h u <= fac ^ 5).
Context (HGstep : forall u h, G u -> 0 < h -> est_step h u <= 1 -> G (rk_step f bs5_A bs5_b bs5_s h u)).
Definition QG (n : nat) (w : W) : Prop := readyW n w /\ G (solution w).

Lemma adaptive_ends s : l_tstep s = 0%nat -> G (solution (l_w s)) ->
  0 < l_dt s -> l_t s + l_dt s <= T + eps12 -> (T + eps12 - l_t s) * fac ^ fuel <= delta -> eps12 <= delta ->
  exists mu, 0 < mu /\ forall n, T + eps12 < l_t s + INR n * mu ->
  (can_kill (run_output (D:=D) out) /\ exists s', run_solve ComputeRHS est_of upd out (fun x => x) T (S fuel) (IBS5 true) (S n) s = Some (Exited s') /\ l_t s' <= T + eps12) \/
  (exists s', run_solve ComputeRHS est_of upd out (fun x => x) T (S fuel) (IBS5 true) (S n) s = Some (Returned s') /\
     Rabs (l_t s' - T) < eps12 /\ l_dt s' = l_dt s).
Proof.
  intros H0 HGs Hd Hle Hfuel Hed. pose proof eps12_pos as He.
  exists (Rmin (l_dt s) (Rmin (delta / 100) eps12)). split; [repeat apply Rmin_glb_lt; lra|]. intros n Hn.
  apply (periodic_solve eps12 T (delta / 100) (T + eps12 - l_t s) He ltac:(lra)
     (run_integrate ComputeRHS est_of (S fuel) (IBS5 true)) (run_update upd) (run_output out) QG); auto.
  - intros dt m w [Hr Gw] Hdt. unfold run_integrate. cbn [integrate]. unfold adaptiveRK.
    destruct (loop_progress ComputeRHS f Hf bs5_A bs5_b bs5_bhat bs5_s ltac:(unfold bs5_s; lia) est_of bs5_fsal Hest
       m delta 1 Hdelta fuel dt facmax_default (w_st w)) as (st' & d & k & E0 & Hk & Hdd & _ & Hu' & Hr').
    + lra.
    + unfold facmax_default. lra.
    + exact Hr.
    + intros h Hh. apply HG; [exact Gw|]. rewrite Rmult_1_l. rewrite Rabs_right by lra. exact Hh.
    + eapply Rle_trans; [|exact Hfuel]. apply Rmult_le_compat_r; [|lra].
      left. apply pow_lt. unfold fac. lra.
    + rewrite !Rmult_1_l in *. rewrite E0.
      destruct (loop_spec ComputeRHS f Hf bs5_A bs5_b bs5_bhat bs5_s ltac:(unfold bs5_s; lia) est_of bs5_fsal Hest
         (S fuel) true m dt facmax_default (w_st w) st' d k) as (_ & _ & _ & Hsp); auto.
      * lra.
      * unfold facmax_default. lra.
      * exists (mkWorld st' (w_env w)), d, k. split; [reflexivity|]. split; [exact Hk|]. split; [exact Hdd|].
        split; [intros _; exact Hr'|]. unfold solution. cbn [w_st]. rewrite Hu'.
        destruct (Hsp eq_refl) as (Hs1 & Hs2 & _). apply HGstep; [exact Gw|lra|exact Hs1].
  - intros m w [Hr Gw]. unfold run_integrate. cbn [integrate]. unfold adaptiveRK.
    destruct (loop_progress ComputeRHS f Hf bs5_A bs5_b bs5_bhat bs5_s ltac:(unfold bs5_s; lia) est_of bs5_fsal Hest
       m delta (-(1)) Hdelta fuel eps12 facmax_default (w_st w)) as (st' & d & k & E0 & Hk & Hdd & Hkh & _ & _).
    + lra.
    + unfold facmax_default. lra.
    + exact Hr.
    + intros h Hh. apply HG; [exact Gw|]. replace (-(1) * h) with (- h) by ring.
      rewrite Rabs_Ropp, Rabs_right by lra. exact Hh.
    + apply Rle_trans with (eps12 * 1); [|lra]. apply Rmult_le_compat_l; [lra|].
      rewrite <- (pow1 fuel). apply pow_incr. unfold fac. lra.
    + replace (-(1) * eps12) with (- eps12) in E0 by ring. rewrite E0. do 3 eexists. split; [reflexivity|].
      rewrite (Hkh Hed). lra.
  - intros t m w [Hr Gw]. split; [apply readyW_update, Hr|]. unfold solution.
    rewrite (proj1 (run_update_keeps Hu t m w)). exact Gw.
  - intros t m w [Hr Gw]. split; [apply readyW_output, Hr|]. unfold solution.
    rewrite (proj1 (run_output_keeps t m w)). exact Gw.
  - split; [intros Hx; congruence|exact HGs].
  - lra.
Qed.
End Adaptive.
End Fsal.
End Runs.
