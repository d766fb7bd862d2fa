(** Affine invariants: the solution stays in an affine space whose direction contains every
    right hand side (e.g. some coefficients never change). *)
From Coq Require Import Reals Lra Lia ZArith List FunctionalExtensionality.
From Verif Require Import Base.Cplx Base.Sums Spec.Env Base.Fin Model.Maths Model.Integrators Model.BS5
  Model.Integrate Model.Solve Model.Run Proofs.IntegratorProofs Proofs.SolveProofs Proofs.FsalProofs
  Proofs.RunProofs.
Import ListNotations.
Open Scope R_scope.

Section Aff.
Context {D I ctx E : Type}.
Notation V := (svec D I).
Context (ComputeRHS : ctx -> V -> V -> V * ctx).
Context (P Q : V -> Prop) (HP : subspace P).
Context (HQ : forall u c v, Q u -> P v -> Q (axpy u c v)).
Context (Hrhs : forall c r u, Q u -> P (fst (ComputeRHS c r u))).

Definition aff_st (ab2 : bool) (ts : nat) (st : istate D I ctx) : Prop :=
  Q (s_u0 st) /\ (ab2 = true -> ts <> 0%nat -> P (s_u1 st)) /\ (forall n, P (s_fY st n)).

Lemma aff_rk4_stage dt st rk :
  Q (s_u0 st) /\ Q (s_u1 st) /\ Q (s_u2 st) /\ (forall n, P (s_fY st n)) ->
  let st' := rk4_stage ComputeRHS dt st rk in
  Q (s_u0 st') /\ Q (s_u1 st') /\ Q (s_u2 st') /\ (forall n, P (s_fY st' n)).
Proof.
  intros (H0 & H1 & H2 & HY). unfold rk4_stage.
  pose proof (Hrhs (s_ctx st) (s_rhs st) (s_u0 st) H0) as H.
  destruct (ComputeRHS _ _ _) as [r c]; cbn [fst] in H. cbn [s_u0 s_u1 s_u2 s_fY].
  repeat split; auto. destruct (Nat.ltb rk 3); auto.
Qed.
Lemma aff_RK4 dt ts st : aff_st false ts st -> aff_st false (S ts) (fst (fst (RK4 ComputeRHS dt st))).
Proof.
  intros (H0 & _ & HY). unfold RK4. cbn [fst].
  set (s0 := mkIstate (s_u0 st) (s_u0 st) (s_u0 st) (s_rhs st) (s_fY st) (s_off st) (s_ctx st)).
  assert (G : forall l s, Q (s_u0 s) /\ Q (s_u1 s) /\ Q (s_u2 s) /\ (forall n, P (s_fY s n)) ->
     let s' := fold_left (rk4_stage ComputeRHS dt) l s in
     Q (s_u0 s') /\ Q (s_u1 s') /\ Q (s_u2 s') /\ (forall n, P (s_fY s' n))).
  { induction l as [|a l IH]; intros s Hs; cbn [fold_left]; auto. apply IH. apply aff_rk4_stage; auto. }
  destruct (G [0;1;2;3]%nat s0) as (A & B & F & Y); [cbn; auto|].
  repeat split; cbn [s_u0 s_u1 s_fY]; auto; discriminate.
Qed.
Lemma aff_FE dt ts st : aff_st false ts st -> aff_st false (S ts) (fst (fst (ForwardEuler ComputeRHS dt st))).
Proof.
  intros (H0 & _ & HY). unfold ForwardEuler.
  pose proof (Hrhs (s_ctx st) (s_rhs st) (s_u0 st) H0) as H.
  destruct (ComputeRHS _ _ _) as [r c]; cbn [fst] in H. repeat split; cbn [s_u0 s_u1 s_u2 s_fY fst]; auto. discriminate.
Qed.
Lemma aff_AB2 dt ts st : aff_st true ts st -> aff_st true (S ts) (fst (fst (AB2 ComputeRHS dt ts st))).
Proof.
  intros (H0 & H1 & HY). unfold AB2.
  pose proof (Hrhs (s_ctx st) (s_rhs st) (s_u0 st) H0) as H.
  destruct (ComputeRHS _ _ _) as [r c]; cbn [fst] in H. repeat split; cbn [s_u0 s_u1 s_u2 s_fY fst]; auto.
  - destruct (Nat.eqb_spec ts 0) as [->|Hn]; [apply HQ; auto|].
    replace (fun i k => (s_u0 st i k + (RtoC (1.5 * dt) * r i k - RtoC 0.5 * s_u1 st i k))%C)
      with (axpy (axpy (s_u0 st) (1.5*dt) r) (-0.5) (s_u1 st)).
    + apply HQ; auto.
    + extensionality i; extensionality k. unfold axpy, plus. replace (-0.5) with (- (0.5)) by lra. rewrite RtoC_opp. ring.
  - intros _ _. apply (P_scal P HP); auto.
Qed.

Section RK.
Context (A : nat -> nat -> R) (b bhat : nat -> R) (s : nat) (est_of : V -> V -> V -> R).
Lemma aff_stage dt i st : (i < s)%nat -> aff_st false 0 st ->
  aff_st false 0 (rk_stage_eval ComputeRHS A s dt i st).
Proof.
  intros Hi (H0 & _ & HY). unfold rk_stage_eval.
  set (sl := ring s (s_off st) i).
  assert (G : forall n a fY, (a + n <= i)%nat -> (forall m, m <> sl -> P (fY m)) -> Q (fY sl) ->
    let g := fold_left (fun fY j => updn fY sl (axpy (fY sl) (dt * A i j) (fY (ring s (s_off st) j)))) (seq a n) fY in
    (forall m, m <> sl -> P (g m)) /\ Q (g sl)).
  { induction n as [|n IH]; intros a fY Ha Hp Hq; cbn [seq fold_left]; [auto|].
    apply IH; [lia| |].
    - intros m Hm. rewrite updn_other by assumption. auto.
    - rewrite updn_same. apply HQ; [exact Hq|]. apply Hp.
      intros Heq. apply ring_inj in Heq; lia. }
  destruct (G i 0%nat (updn (s_fY st) sl (s_u0 st))) as [Gp Gq]; [lia| | |].
  - intros m Hm. rewrite updn_other by assumption. apply HY.
  - rewrite updn_same. exact H0.
  - set (g := fold_left _ _ _) in *.
    pose proof (Hrhs (s_ctx st) (s_rhs st) (g sl) Gq) as H.
    destruct (ComputeRHS _ _ _) as [r c]; cbn [fst] in H.
    repeat split; cbn [s_u0 s_fY]; auto; [discriminate|].
    intros m. destruct (Nat.eq_dec m sl) as [->|Hm]; [rewrite updn_same|rewrite updn_other by assumption]; auto.
Qed.
Lemma aff_off st off ts : aff_st false ts st ->
  aff_st false 0 (mkIstate (s_u0 st) (s_u1 st) (s_u2 st) (s_rhs st) (s_fY st) off (s_ctx st)).
Proof. intros (A0 & B0 & C0'); repeat split; cbn; auto; discriminate. Qed.
Lemma aff_stages fsal ts dt st : aff_st false 0 st -> aff_st false 0 (rk_stages_loop ComputeRHS A s fsal ts dt st).
Proof.
  intros H. unfold rk_stages_loop.
  assert (G : forall l st, (forall i, In i l -> (i < s)%nat) -> aff_st false 0 st ->
    aff_st false 0 (fold_left (fun st i =>
      if orb (negb fsal) (orb (Nat.eqb ts 0) (negb (Nat.eqb i 0)))
      then rk_stage_eval ComputeRHS A s dt i st else st) l st)).
  { induction l as [|a l IH]; intros x Hl Hx; cbn [fold_left]; auto. apply IH.
    - intros i Hi; apply Hl; right; auto.
    - destruct (orb _ _); auto. apply aff_stage; auto. apply Hl; left; auto. }
  apply G; auto. intros i Hi. apply in_seq in Hi. lia.
Qed.
Lemma aff_new dt st : aff_st false 0 st -> Q (rk_new b s dt st).
Proof.
  intros (H0 & _ & HY). unfold rk_new.
  assert (G : forall l v, Q v ->
     Q (fold_left (fun v j => axpy v (dt * b j) (s_fY st (ring s (s_off st) j))) l v)).
  { induction l as [|a l IH]; intros v Hv; cbn [fold_left]; auto. }
  apply G. apply HQ; auto.
Qed.
Lemma aff_attempt fsal ad ts dt fm st : aff_st false ts st ->
  match attempt ComputeRHS A b bhat s est_of fsal ad ts dt fm st with
  | Retry st' _ _ => aff_st false ts st'
  | Accept st' _ _ => aff_st false ts st' /\ Q (s_u1 st')
  end.
Proof.
  intros H. unfold attempt.
  set (st1 := mkIstate (s_u0 st) (s_u1 st) (s_u2 st) (s_rhs st) (s_fY st)
     (if fsal then ((s_off st - 1) mod Z.of_nat s)%Z else s_off st) (s_ctx st)).
  assert (H1 : aff_st false 0 st1) by (apply (aff_off st _ ts); auto).
  pose proof (aff_stages fsal ts dt st1 H1) as H2.
  set (st2 := rk_stages_loop _ _ _ _ _ _ _) in *.
  pose proof (aff_new dt st2 H2) as Hn. destruct H2 as (A2 & B2 & C2).
  destruct ad; [destruct (Rlt_dec _ _)|]; repeat split; cbn; auto; discriminate.
Qed.
Lemma aff_loop fuel fsal ad ts : forall dt fm st r, aff_st false ts st ->
  adaptive_loop ComputeRHS A b bhat s est_of fuel fsal ad ts dt fm st = Some r -> aff_st false (S ts) (fst (fst r)).
Proof.
  induction fuel as [|n IH]; intros dt fm st r H E0; [discriminate|].
  cbn [adaptive_loop] in E0.
  pose proof (aff_attempt fsal ad ts dt fm st H) as Ha.
  destruct (attempt _ _ _ _ _ _ _ _ _ _ _ _) as [st' dt' fm'|st' dt' dp].
  - apply (IH _ _ _ _ Ha E0).
  - injection E0 as <-. destruct Ha as ((Ha & Hb & Hc) & Hd). repeat split; cbn; auto; discriminate.
Qed.
End RK.

Definition is_ab2 (g : integ) : bool := match g with IAB2 => true | _ => false end.

Lemma aff_integrate est_of fuel g dt ts st st' d k : aff_st (is_ab2 g) ts st ->
  integrate ComputeRHS est_of fuel g dt ts st = Some (st', d, k) -> aff_st (is_ab2 g) (S ts) st'.
Proof.
  intros H E0. destruct g as [| | |ad]; cbn [integrate is_ab2] in *.
  - pose proof (aff_RK4 dt ts st H) as G. apply (f_equal (option_map (fun x => fst (fst x)))) in E0.
    apply some_inj in E0. cbn [fst] in E0. rewrite E0 in G. exact G.
  - pose proof (aff_FE dt ts st H) as G. apply (f_equal (option_map (fun x => fst (fst x)))) in E0.
    apply some_inj in E0. cbn [fst] in E0. rewrite E0 in G. exact G.
  - pose proof (aff_AB2 dt ts st H) as G. apply (f_equal (option_map (fun x => fst (fst x)))) in E0.
    apply some_inj in E0. cbn [fst] in E0. rewrite E0 in G. exact G.
  - apply (aff_loop _ _ _ _ _ _ _ _ _ _ _ _ _ H E0).
Qed.

Context (est_of : V -> V -> V -> R).
Context (user_update : R -> nat -> V * V * ctx * E -> V * V * ctx * E).
Context (output : R -> nat -> V -> ctx * E -> ctx * E * bool).
Context (Hupd : update_keeps user_update Q).
Context (rnd : R -> R) (T : R) (fuel : nat) (g : integ).

Definition affL (s : lstate (world D I ctx E)) : Prop := aff_st (is_ab2 g) (l_tstep s) (w_st (l_w s)).
Lemma aff_iter s : affL s ->
  match run_iter ComputeRHS est_of user_update output rnd T fuel g s with
  | Stop s' | Break s' | Cont s' | Kill s' | Raise s' => affL s' end.
Proof.
  intros H. unfold run_iter, iter. destruct (Rle_dec _ _) as [Hle|Hle]; [|exact H].
  unfold run_integrate. destruct (integrate ComputeRHS est_of fuel g (l_dt s) (l_tstep s) (w_st (l_w s)))
    as [[[st d] k]|] eqn:E0; [|exact H].
  pose proof (aff_integrate _ _ _ _ _ _ _ _ _ H E0) as (G0 & G1 & G2).
  unfold run_update. cbn [w_st w_env].
  pose proof (Hupd (rnd (l_t s + k)) (S (l_tstep s)) (s_u0 st) (s_rhs st) (s_ctx st) (w_env (l_w s)) G0) as G.
  destruct (user_update _ _ _) as [[[u r] c] e']. cbn [fst] in G.
  unfold run_output. cbn [w_st w_env s_u0 s_u1 s_u2 s_rhs s_fY s_off s_ctx].
  destruct (output _ _ _ _) as [[c' e''] kill].
  assert (Z : aff_st (is_ab2 g) (S (l_tstep s)) (mkIstate u (s_u1 st) (s_u2 st) r (s_fY st) (s_off st) c'))
    by (repeat split; cbn; auto).
  destruct kill; [exact Z|]. unfold end_of_tstep_NS.
  repeat (destruct (Rlt_dec _ _) || destruct (Rle_dec _ _)); exact Z.
Qed.

Lemma aff_observed s0 s : affL s0 ->
  observed ComputeRHS est_of user_update output rnd T fuel g s0 s -> affL s.
Proof.
  intros H0 (n & s1 & Hr & Hs).
  assert (H1 : affL s1).
  { clear Hs. induction Hr as [|n a a' Hr IH Ea]; [exact H0|].
    pose proof (aff_iter a IH) as G. unfold run_iter in G. rewrite Ea in G. exact G. }
  destruct Hs as [->|Hs]; [exact H1|].
  pose proof (aff_iter s1 H1) as G. unfold run_iter in G.
  destruct Hs as [E0|[E0|E0]]; rewrite E0 in G; exact G.
Qed.

Lemma aff_run s0 s u0 : at_start s0 u0 -> Q u0 -> (g = IAB2 -> l_tstep s0 = 0%nat) ->
  observed ComputeRHS est_of user_update output rnd T fuel g s0 s -> Q (solution (l_w s)).
Proof.
  intros (rhs & c & e & E0) Hu Hg Ho.
  assert (H0 : affL s0).
  { unfold affL. rewrite E0. repeat split; cbn; auto.
    - intros Ha Hn. exfalso. apply Hn, Hg. destruct g; try discriminate; reflexivity.
    - intros _. apply (P_zero P HP). }
  destruct (aff_observed s0 s H0 Ho) as [A _]. exact A.
Qed.
End Aff.
