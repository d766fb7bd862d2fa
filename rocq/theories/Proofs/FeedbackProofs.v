(** Time steps whose solution or parameters the callback has changed since the last step. *)
From Coq Require Import Reals Lra Lia ZArith List FunctionalExtensionality.
From Verif Require Import Base.Cplx Base.Sums Spec.Env Base.Fin Model.Maths Model.Integrators Model.BS5 Model.Integrate
  Model.Solve Model.Run Spec.RungeKutta Spec.Feedback Proofs.IntegratorProofs Proofs.FsalProofs Proofs.SolveProofs Proofs.RunProofs Proofs.LoopProofs.
Import ListNotations.
Open Scope R_scope.

(** ** Runge-Kutta methods with a given first stage *)
Section From.
Context {D I : Type}.
Notation V := (svec D I).
Context (f : V -> V) (A : nat -> nat -> R) (b bhat : nat -> R) (s : nat).

Lemma rk_stages_from_length k0 dt u n : length (rk_stages_from f A k0 dt u n) = n.
Proof. induction n as [|n IH]; [reflexivity|]. cbn [rk_stages_from]. rewrite app_length, IH. cbn. lia. Qed.
Lemma rk_stages_from_nth k0 dt u n : forall j, (j < n)%nat ->
  nth j (rk_stages_from f A k0 dt u n) (fun _ _ => C0) = rk_k_from f A k0 dt u j.
Proof.
  induction n as [|n IH]; intros j Hj; [lia|].
  destruct (Nat.eq_dec j n) as [->|Hn]; [reflexivity|].
  cbn [rk_stages_from]. rewrite app_nth1 by (rewrite rk_stages_from_length; lia). apply IH; lia.
Qed.
Lemma rk_k_from_0 k0 dt u : rk_k_from f A k0 dt u 0 = k0.
Proof. reflexivity. Qed.
Lemma rk_k_from_S k0 dt u i : rk_k_from f A k0 dt u (S i)
  = f (combo u dt (S i) (A (S i)) (rk_k_from f A k0 dt u)).
Proof.
  unfold rk_k_from at 1. change (rk_stages_from f A k0 dt u (S (S i)))
    with (rk_stages_from f A k0 dt u (S i) ++ [f (combo u dt (S i) (A (S i))
      (fun j => nth j (rk_stages_from f A k0 dt u (S i)) (fun _ _ => C0)))]).
  rewrite app_nth2 by (rewrite rk_stages_from_length; lia).
  rewrite rk_stages_from_length, Nat.sub_diag. cbn [nth]. f_equal.
  unfold combo. extensionality c; extensionality k. f_equal. f_equal.
  apply Csum_ext. intros j Hj. rewrite rk_stages_from_nth by assumption. reflexivity.
Qed.
Lemma rk_k_from_self dt u i : rk_k_from f A (f u) dt u i = rk_k f A dt u i.
Proof.
  induction i as [i IH] using lt_wf_ind. destruct i as [|i].
  - rewrite rk_k_from_0, rk_k_eq. f_equal. unfold combo. extensionality c; extensionality k. cbn [Csum]. ring.
  - rewrite rk_k_from_S, rk_k_eq. f_equal. unfold combo. extensionality c; extensionality k. f_equal. f_equal.
    apply Csum_ext. intros j Hj. rewrite IH by assumption. reflexivity.
Qed.
Lemma rk_step_from_self dt u : rk_step_from f A b s (f u) dt u = rk_step f A b s dt u.
Proof.
  unfold rk_step_from, rk_step, combo. extensionality c; extensionality k. f_equal. f_equal.
  apply Csum_ext. intros j Hj. rewrite rk_k_from_self. reflexivity.
Qed.
End From.

Section Loop.
Context {D I ctx P : Type}.
Notation V := (svec D I).
Notation ist := (istate D I ctx).
Context (ComputeRHS : ctx -> V -> V -> V * ctx) (par : ctx -> P) (F : P -> V -> V) (Hf : computes_with ComputeRHS par F).

Lemma call_fst p c r u : par c = p -> fst (ComputeRHS c r u) = F p u.
Proof. intros <-. apply Hf. Qed.
Lemma call_par p c r u : par c = p -> par (snd (ComputeRHS c r u)) = p.
Proof. intros <-. apply Hf. Qed.

(** ** RK4, ForwardEuler, AB2 *)
Lemma stage_with p dt (st : ist) rk : par (s_ctx st) = p ->
  let st' := rk4_stage ComputeRHS dt st rk in
  s_u0 st' = (if Nat.ltb rk 3 then axpy (s_u1 st) (nth rk rk4_b 0 * dt) (F p (s_u0 st)) else s_u0 st) /\
  s_u1 st' = s_u1 st /\ s_u2 st' = axpy (s_u2 st) (nth rk rk4_a 0 * dt) (F p (s_u0 st)) /\ par (s_ctx st') = p.
Proof.
  intros Hp. unfold rk4_stage. pose proof (call_fst p (s_ctx st) (s_rhs st) (s_u0 st) Hp) as H.
  pose proof (call_par p (s_ctx st) (s_rhs st) (s_u0 st) Hp) as H'.
  destruct (ComputeRHS _ _ _) as [r c]. cbn [fst snd] in *; subst r. cbn. auto.
Qed.
Lemma RK4_with p dt (st : ist) : par (s_ctx st) = p ->
  s_u0 (fst (fst (RK4 ComputeRHS dt st))) = rk4 (F p) dt (s_u0 st) /\ par (s_ctx (fst (fst (RK4 ComputeRHS dt st)))) = p.
Proof.
  intros Hp. unfold RK4. cbn [fst s_u0 s_ctx fold_left].
  set (s0 := mkIstate (s_u0 st) (s_u0 st) (s_u0 st) (s_rhs st) (s_fY st) (s_off st) (s_ctx st)).
  destruct (stage_with p dt s0 0 Hp) as (A0 & B0 & C0' & P0). set (s1 := rk4_stage ComputeRHS dt s0 0) in *.
  destruct (stage_with p dt s1 1 P0) as (A1 & B1 & C1' & P1). set (s2 := rk4_stage ComputeRHS dt s1 1) in *.
  destruct (stage_with p dt s2 2 P1) as (A2 & B2 & C2' & P2). set (s3 := rk4_stage ComputeRHS dt s2 2) in *.
  destruct (stage_with p dt s3 3 P2) as (_ & _ & C3' & P3). set (s4 := rk4_stage ComputeRHS dt s3 3) in *.
  split; [|exact P3].
  cbn [Nat.ltb Nat.leb nth rk4_a rk4_b] in *.
  unfold s0 in A0, B0, C0'; cbn [s_u0 s_u1 s_u2] in A0, B0, C0'.
  assert (E1 : s_u0 s1 = plus (s_u0 st) (dt / 2) (rk4_k1 (F p) (s_u0 st))).
  { rewrite A0, plus_axpy. f_equal. lra. }
  assert (E2 : s_u0 s2 = plus (s_u0 st) (dt / 2) (rk4_k2 (F p) dt (s_u0 st))).
  { rewrite A1, B0, E1, plus_axpy. unfold rk4_k2. f_equal. lra. }
  assert (E3 : s_u0 s3 = plus (s_u0 st) dt (rk4_k3 (F p) dt (s_u0 st))).
  { rewrite A2, B1, B0, E2, plus_axpy. unfold rk4_k3. f_equal. lra. }
  rewrite C3', C2', C1', C0', E1, E2, E3. unfold rk4, rk4_k4, rk4_k3, rk4_k2, rk4_k1.
  extensionality i; extensionality k. unfold axpy.
  replace (1/6*dt) with (dt/6) by lra. replace (1/3*dt) with (dt/6*2) by lra.
  rewrite !RtoC_mul. ring.
Qed.
Lemma FE_with p dt (st : ist) : par (s_ctx st) = p ->
  s_u0 (fst (fst (ForwardEuler ComputeRHS dt st))) = euler (F p) dt (s_u0 st) /\
  par (s_ctx (fst (fst (ForwardEuler ComputeRHS dt st)))) = p.
Proof.
  intros Hp. unfold ForwardEuler. pose proof (call_fst p (s_ctx st) (s_rhs st) (s_u0 st) Hp) as H.
  pose proof (call_par p (s_ctx st) (s_rhs st) (s_u0 st) Hp) as H'.
  destruct (ComputeRHS _ _ _) as [r c]. cbn [fst snd] in *; subst r. split; [reflexivity|exact H'].
Qed.
Lemma AB2_with p dt ts (st : ist) : par (s_ctx st) = p ->
  s_u0 (fst (fst (AB2 ComputeRHS dt ts st))) =
   (if Nat.eqb ts 0 then euler (F p) dt (s_u0 st)
    else fun i k => (s_u0 st i k + (RtoC (1.5 * dt) * F p (s_u0 st) i k - RtoC 0.5 * s_u1 st i k))%C)
  /\ s_u1 (fst (fst (AB2 ComputeRHS dt ts st))) = vscal dt (F p (s_u0 st)) /\
  par (s_ctx (fst (fst (AB2 ComputeRHS dt ts st)))) = p.
Proof.
  intros Hp. unfold AB2. pose proof (call_fst p (s_ctx st) (s_rhs st) (s_u0 st) Hp) as H.
  pose proof (call_par p (s_ctx st) (s_rhs st) (s_u0 st) Hp) as H'.
  destruct (ComputeRHS _ _ _) as [r c]. cbn [fst snd] in *; subst r.
  destruct (Nat.eqb ts 0); repeat split; auto.
Qed.

(** ** adaptiveRK with fsal *)
Context (A : nat -> nat -> R) (b bhat : nat -> R) (s : nat) (Hs : (1 < s)%nat).
Section Stages.
Context (p : P) (dt : R) (u : V) (k0 : V).
Notation K := (rk_k_from (F p) A k0 dt u).

Lemma stage_eval_from i (st : ist) : (i < s)%nat -> s_u0 st = u -> par (s_ctx st) = p ->
  (forall j, (j < i)%nat -> s_fY st (ring s (s_off st) j) = K j) ->
  let st' := rk_stage_eval ComputeRHS A s dt i st in
  s_u0 st' = u /\ s_off st' = s_off st /\ par (s_ctx st') = p /\
  s_fY st' (ring s (s_off st) i) = F p (combo u dt i (A i) K) /\
  (forall m, m <> ring s (s_off st) i -> s_fY st' m = s_fY st m).
Proof.
  intros Hi Hu Hp Hk. unfold rk_stage_eval.
  set (sl := ring s (s_off st) i).
  assert (G : forall n a (fY : nat -> V), (a + n <= i)%nat ->
     fold_left (fun fY j => updn fY sl (axpy (fY sl) (dt * A i j) (fY (ring s (s_off st) j)))) (seq a n) fY
     = updn fY sl (fold_left (fun v j => axpy v (dt * A i j) (fY (ring s (s_off st) j))) (seq a n) (fY sl))).
  { induction n as [|n IH]; intros a fY Ha.
    - simpl. extensionality m. unfold updn. destruct (Nat.eqb_spec m sl); subst; reflexivity.
    - cbn [seq fold_left]. rewrite IH by lia. rewrite updn_updn, !updn_same. f_equal.
      rewrite (fold_axpy dt (A i) (fun j => updn fY sl (axpy (fY sl) (dt * A i a) (fY (ring s (s_off st) a))) (ring s (s_off st) j))).
      rewrite (fold_axpy dt (A i) (fun j => fY (ring s (s_off st) j))).
      extensionality c; extensionality k. f_equal. f_equal. apply Csum_ext. intros j Hj.
      rewrite updn_other; [reflexivity|]. intros E. apply ring_inj in E; lia. }
  rewrite G by lia. set (fY0 := updn (s_fY st) sl (s_u0 st)).
  assert (E : fold_left (fun v j => axpy v (dt * A i j) (fY0 (ring s (s_off st) j))) (seq 0 i) (fY0 sl)
            = combo u dt i (A i) K).
  { rewrite (fold_axpy dt (A i) (fun j => fY0 (ring s (s_off st) j))).
    unfold combo. extensionality c; extensionality k.
    replace (fY0 sl) with u by (unfold fY0, updn; rewrite Nat.eqb_refl; auto).
    f_equal. f_equal. apply Csum_ext. intros j Hj. cbn [Nat.add].
    unfold fY0, updn. destruct (Nat.eqb_spec (ring s (s_off st) j) sl) as [Ex|Ex].
    - apply ring_inj in Ex; lia.
    - rewrite Hk by assumption. reflexivity. }
  rewrite E. rewrite updn_same.
  pose proof (call_fst p (s_ctx st) (s_rhs st) (combo u dt i (A i) K) Hp) as H.
  pose proof (call_par p (s_ctx st) (s_rhs st) (combo u dt i (A i) K) Hp) as H'.
  destruct (ComputeRHS _ _ _) as [r c]; cbn [fst snd] in H, H'. cbn [s_u0 s_off s_u1 s_fY s_ctx].
  subst r. split; [exact Hu|]. split; [reflexivity|]. split; [exact H'|]. split; [apply updn_same|].
  intros m Hm. unfold fY0. rewrite !updn_other by assumption. reflexivity.
Qed.

Lemma stages_from ts (st : ist) : s_u0 st = u -> par (s_ctx st) = p ->
  (ts <> 0%nat -> s_fY st (ring s (s_off st) 0) = k0) -> (ts = 0%nat -> k0 = F p u) ->
  forall n, (n <= s)%nat ->
    let st' := fold_left (stage_body ComputeRHS A s true ts dt) (seq 0 n) st in
    s_u0 st' = u /\ s_off st' = s_off st /\ par (s_ctx st') = p /\
    (forall i, (i < n)%nat -> s_fY st' (ring s (s_off st) i) = K i) /\
    (ts <> 0%nat -> s_fY st' (ring s (s_off st) 0) = k0).
Proof.
  intros Hu Hp H0 Hz. cbn zeta. induction n as [|n IH]; intros Hn.
  - simpl. repeat split; auto. intros i Hi; lia.
  - rewrite seq_S, fold_left_app. cbn [fold_left Nat.add]. cbn zeta.
    destruct (IH ltac:(lia)) as (E0 & Eo & E1 & Ek & Ef).
    set (st1 := fold_left (stage_body ComputeRHS A s true ts dt) (seq 0 n) st) in *.
    unfold stage_body at 1 2 3 4 5. cbn [negb orb].
    destruct (orb (Nat.eqb ts 0) (negb (Nat.eqb n 0))) eqn:Eb.
    + destruct (stage_eval_from n st1) as (F0 & Fo & F1 & Fk & Fm); [lia|exact E0|exact E1| |].
      { intros j Hj. rewrite Eo. apply Ek; assumption. }
      rewrite Eo in Fk, Fm. split; [exact F0|]. split; [congruence|]. split; [exact F1|].
      assert (Kn : F p (combo u dt n (A n) K) = K n).
      { destruct n as [|n]; [|symmetry; apply rk_k_from_S].
        rewrite rk_k_from_0. cbn [Nat.eqb negb] in Eb. rewrite Bool.orb_false_r in Eb. apply Nat.eqb_eq in Eb.
        rewrite (Hz Eb). f_equal. unfold combo. extensionality c; extensionality k. cbn [Csum]. ring. }
      split.
      * intros i Hi. destruct (Nat.eq_dec i n) as [->|Hin]; [rewrite Fk; exact Kn|].
        rewrite Fm by (intros Ex; apply ring_inj in Ex; lia). apply Ek; lia.
      * intros Hts. rewrite Fm; [apply Ef; auto|].
        intros Ex. apply ring_inj in Ex; [|lia|lia]. subst n.
        apply Nat.eqb_neq in Hts. rewrite Hts in Eb. discriminate.
    + apply Bool.orb_false_iff in Eb. destruct Eb as [Eb2 Eb3].
      apply Bool.negb_false_iff in Eb3. apply Nat.eqb_neq in Eb2. apply Nat.eqb_eq in Eb3.
      subst n. repeat split; auto.
      intros i Hi. replace i with 0%nat by lia. rewrite rk_k_from_0. auto.
Qed.
Lemma rk_new_from (st : ist) : s_u0 st = u ->
  (forall i, (i < s)%nat -> s_fY st (ring s (s_off st) i) = K i) ->
  rk_new b s dt st = rk_step_from (F p) A b s k0 dt u.
Proof.
  intros Hu Hk.
  assert (Es : forall g : nat -> C, Csum s g = (g 0%nat + Csum (s - 1) (fun j => g (S j)))%C).
  { intros g. rewrite <- Csum_S_l. f_equal. lia. }
  unfold rk_new. rewrite (fold_axpy dt b (fun j => s_fY st (ring s (s_off st) j))).
  unfold rk_step_from, combo. extensionality i; extensionality k.
  rewrite Es. unfold axpy. rewrite RtoC_mul, Hu, (Hk 0%nat) by lia.
  rewrite (Csum_ext (s-1) (fun j => (RtoC (b (1 + j)%nat) * s_fY st (ring s (s_off st) (1 + j)) i k)%C)
     (fun j => (RtoC (b (S j)) * K (S j) i k)%C)).
  2:{ intros j Hj. cbn [Nat.add]. rewrite Hk by lia. reflexivity. }
  ring.
Qed.
Lemma fsal_last_from (Ht : fsal_tableau A b s) :
  K (s - 1)%nat = F p (rk_step_from (F p) A b s k0 dt u).
Proof.
  replace (s - 1)%nat with (S (s - 2)) by lia. rewrite rk_k_from_S. replace (S (s - 2)) with (s - 1)%nat by lia.
  f_equal. unfold rk_step_from, combo. extensionality i; extensionality k. f_equal. f_equal.
  assert (Es : forall g : nat -> C, Csum s g = (Csum (s - 1) g + g (s - 1)%nat)%C).
  { intros g. replace s with (S (s - 1)) at 1 by lia. reflexivity. }
  rewrite Es, (proj2 Ht), RtoC_0.
  rewrite (Csum_ext (s-1) (fun j => (RtoC (A (s - 1)%nat j) * K j i k)%C) (fun j => (RtoC (b j) * K j i k)%C)).
  - ring.
  - intros j Hj. rewrite (proj1 Ht) by assumption. reflexivity.
Qed.
End Stages.

Context (est_of : V -> V -> V -> R) (Ht : fsal_tableau A b s).
(** the slot read as the first stage of the next step *)
Definition next_k0 (st : ist) : V := s_fY st (ring s ((s_off st - 1) mod Z.of_nat s) 0).

Lemma loop_from fuel ad ts p : forall dt fm (st : ist) st' dt' took,
  par (s_ctx st) = p ->
  adaptive_loop ComputeRHS A b bhat s est_of fuel true ad ts dt fm st = Some (st', dt', took) ->
  let k0 := if Nat.eqb ts 0 then F p (s_u0 st) else next_k0 st in
  s_u0 st' = rk_step_from (F p) A b s k0 took (s_u0 st) /\ par (s_ctx st') = p /\ next_k0 st' = F p (s_u0 st') /\
  (ad = false -> took = dt).
Proof.
  induction fuel as [|n IH]; intros dt fm st st' dt' took Hp E; [discriminate|]. cbn zeta.
  cbn [adaptive_loop] in E. unfold attempt in E.
  set (st1 := mkIstate (s_u0 st) (s_u1 st) (s_u2 st) (s_rhs st) (s_fY st) ((s_off st - 1) mod Z.of_nat s)%Z (s_ctx st)) in E.
  set (k0 := if Nat.eqb ts 0 then F p (s_u0 st) else next_k0 st).
  assert (Hk : (ts <> 0%nat -> s_fY st1 (ring s (s_off st1) 0) = k0) /\ (ts = 0%nat -> k0 = F p (s_u0 st))).
  { unfold k0. destruct (Nat.eqb_spec ts 0); split; intros; try contradiction; reflexivity. }
  destruct Hk as [Hk1 Hk2].
  destruct (stages_from p dt (s_u0 st) k0 ts st1 eq_refl Hp Hk1 Hk2 s (le_n s)) as (E0 & Eo & E1 & Ek & Ef).
  change (fold_left (stage_body ComputeRHS A s true ts dt) (seq 0 s) st1)
    with (rk_stages_loop ComputeRHS A s true ts dt st1) in E0, Eo, E1, Ek, Ef.
  set (st2 := rk_stages_loop ComputeRHS A s true ts dt st1) in *.
  cbn [st1 s_off] in Eo, Ek, Ef.
  pose proof (rk_new_from p dt (s_u0 st) k0 st2 E0 ltac:(intros i Hi; rewrite Eo; apply Ek, Hi)) as En.
  cbn [s_u0 s_u1 s_u2 s_rhs s_fY s_off s_ctx] in E.
  rewrite En in E. set (new := rk_step_from (F p) A b s k0 dt (s_u0 st)) in *.
  assert (Acc : forall d, (mkIstate new new (s_u2 st2) (s_rhs st2) (s_fY st2) (s_off st2) (s_ctx st2), d, dt) = (st', dt', took) ->
    s_u0 st' = rk_step_from (F p) A b s k0 took (s_u0 st) /\ par (s_ctx st') = p /\ next_k0 st' = F p (s_u0 st') /\
    (ad = false -> took = dt)).
  { intros d Ed. injection Ed as <- _ <-. cbn [s_u0 s_ctx]. split; [reflexivity|]. split; [exact E1|]. split; [|auto].
    unfold next_k0. cbn [s_fY s_off]. rewrite ring_shift by lia. rewrite Eo, Ek by lia. apply fsal_last_from, Ht. }
  destruct ad; [destruct (Rlt_dec _ _)|].
  - assert (G := fun h => IH _ _ _ _ _ _ h E). destruct (G E1) as (G1 & G2 & G3 & G4). cbn [s_u0] in G1. rewrite E0 in G1.
    split; [|split; [exact G2|split; [exact G3|discriminate]]].
    rewrite G1. f_equal. unfold k0. destruct (Nat.eqb_spec ts 0) as [Hz|Hz]; [reflexivity|].
    unfold next_k0 at 1. cbn [s_fY s_off].
    replace ((s_off st2 + 1 - 1) mod Z.of_nat s)%Z with (s_off st2).
    + rewrite Eo, Ef by exact Hz. reflexivity.
    + symmetry. apply off_restore; [lia|]. rewrite Eo. apply Z.mod_pos_bound. lia.
  - injection E as E2 E3 E4. apply (Acc _ (f_equal3 (fun x y z => (x, y, z)) E2 E3 E4)).
  - injection E as E2 E3 E4. apply (Acc _ (f_equal3 (fun x y z => (x, y, z)) E2 E3 E4)).
Qed.
End Loop.

(** ** Complete runs *)
Section Runs.
Context {D I ctx P E : Type}.
Notation V := (svec D I).
Notation W := (world D I ctx E).
Context (ComputeRHS : ctx -> V -> V -> V * ctx) (est_of : V -> V -> V -> R) (par : ctx -> P) (F : P -> V -> V)
  (Hf : computes_with ComputeRHS par F).
Context (upd : R -> nat -> V * V * ctx * E -> V * V * ctx * E).
Context (out : R -> nat -> V -> ctx * E -> ctx * E * bool) (Ho : output_keeps out par).

(** what one pass does, in terms of the integrator's buffers *)
Definition pass (g : integ) (s s' : lstate W) (v : V) (took : R) : Prop :=
  let u := solution (l_w s) in let p := param par (l_w s) in let dt := l_dt s in
  match g with
  | IRK4 => took = dt /\ v = rk4 (F p) dt u
  | IForwardEuler => took = dt /\ v = euler (F p) dt u
  | IAB2 => took = dt /\ s_u1 (w_st (l_w s')) = vscal dt (F p u) /\
      v = (if Nat.eqb (l_tstep s) 0 then euler (F p) dt u
           else fun i k => (u i k + (RtoC (1.5 * dt) * F p u i k - RtoC 0.5 * s_u1 (w_st (l_w s)) i k))%C)
  | IBS5 ad => (ad = false -> took = dt) /\ next_k0 bs5_s (w_st (l_w s')) = F p v /\
      v = rk_step_from (F p) bs5_A bs5_b bs5_s
            (if Nat.eqb (l_tstep s) 0 then F p u else next_k0 bs5_s (w_st (l_w s))) took u
  end.

Lemma iter_pass rnd T fuel g s :
  match run_iter ComputeRHS est_of upd out rnd T fuel g s with
  | Cont s' | Break s' | Kill s' => exists v took, pass g s s' v took /\ handed par upd s s' v /\
      l_t s' = rnd (l_t s + took) /\ l_tstep s' = S (l_tstep s)
  | _ => True
  end.
Proof.
  unfold run_iter, iter. destruct (Rle_dec _ _); [|exact Logic.I].
  unfold run_integrate.
  destruct (integrate ComputeRHS est_of fuel g (l_dt s) (l_tstep s) (w_st (l_w s))) as [[[st d] k]|] eqn:E0; [|exact Logic.I].
  set (w1 := mkWorld st (w_env (l_w s))). set (t := rnd (l_t s + k)).
  unfold run_update. cbn [w1 w_st w_env].
  destruct (upd t (S (l_tstep s)) (s_u0 st, s_rhs st, s_ctx st, w_env (l_w s))) as [[[u' r'] c'] e'] eqn:Eu.
  unfold run_output. cbn [w_st w_env s_u0 s_u1 s_u2 s_rhs s_fY s_off s_ctx].
  pose proof (Ho t (S (l_tstep s)) u' c' e') as Hoc.
  destruct (out t (S (l_tstep s)) u' (c', e')) as [[c3 e3] kill]. cbn [fst] in Hoc.
  set (w3 := mkWorld (mkIstate u' (s_u1 st) (s_u2 st) r' (s_fY st) (s_off st) c3) e3).
  set (p := param par (l_w s)). set (u := solution (l_w s)).
  assert (Hp : par (s_ctx (w_st (l_w s))) = p) by reflexivity.
  assert (G : par (s_ctx st) = p /\ forall s', l_w s' = w3 -> pass g s s' (s_u0 st) k).
  { unfold pass. fold u p. destruct g as [| | |ad]; cbn [integrate] in E0.
    - pose proof (RK4_with ComputeRHS par F Hf p (l_dt s) (w_st (l_w s)) Hp) as H.
      pose proof (RK4_dt ComputeRHS (l_dt s) (w_st (l_w s))) as [_ H2].
      pose proof (f_equal (option_map (fun x => fst (fst x))) E0) as Ea. apply some_inj in Ea. cbn [fst] in Ea.
      pose proof (f_equal (option_map snd) E0) as Eb. apply some_inj in Eb. cbn [snd] in Eb.
      rewrite Ea in H. rewrite Eb in H2. split; [apply H|]. intros s' _. split; [exact H2|apply H].
    - pose proof (FE_with ComputeRHS par F Hf p (l_dt s) (w_st (l_w s)) Hp) as [H H'].
      unfold ForwardEuler in *. destruct (ComputeRHS _ _ _). injection E0 as <- <- <-. split; [exact H'|].
      intros s' _. split; [reflexivity|exact H].
    - pose proof (AB2_with ComputeRHS par F Hf p (l_dt s) (l_tstep s) (w_st (l_w s)) Hp) as (H & H1 & H').
      unfold AB2 in *. destruct (ComputeRHS _ _ _). injection E0 as <- <- <-. split; [exact H'|].
      intros s' Ew. split; [reflexivity|]. split; [rewrite Ew; exact H1|exact H].
    - unfold adaptiveRK in E0.
      destruct (loop_from ComputeRHS par F Hf bs5_A bs5_b bs5_bhat bs5_s ltac:(unfold bs5_s; lia) est_of bs5_fsal
         _ _ _ _ _ _ _ _ _ _ Hp E0) as (G1 & G2 & G3 & G4).
      split; [exact G2|]. intros s' Ew. split; [exact G4|]. split; [|exact G1].
      rewrite <- G3. rewrite Ew. reflexivity. }
  destruct G as [Gp Gv].
  assert (Fin : forall s', l_t s' = t -> l_tstep s' = S (l_tstep s) -> l_w s' = w3 ->
     exists v took, pass g s s' v took /\ handed par upd s s' v /\ l_t s' = rnd (l_t s + took) /\ l_tstep s' = S (l_tstep s)).
  { intros s' Et En Ew. exists (s_u0 st), k. split; [apply Gv, Ew|]. split; [|split; [exact Et|exact En]].
    exists (s_rhs st), (s_ctx st), (w_env (l_w s)), r', c', e'. unfold param. rewrite Et, En, Ew. split; [exact Eu|].
    split; [exact Gp|exact Hoc]. }
  destruct kill; [apply Fin; reflexivity|].
  unfold end_of_tstep_NS. destruct (Rlt_dec _ _); [|destruct (Rlt_dec _ _); [|destruct (Rle_dec _ _)]]; apply Fin; reflexivity.
Qed.
Lemma stepped_pass rnd T fuel g s s' : run_stepped ComputeRHS est_of upd out rnd T fuel g s s' ->
  exists v took, pass g s s' v took /\ handed par upd s s' v /\ l_t s' = rnd (l_t s + took) /\ l_tstep s' = S (l_tstep s).
Proof.
  intros H. pose proof (iter_pass rnd T fuel g s) as G. unfold run_iter in G.
  destruct H as [E1|[E1|E1]]; rewrite E1 in G; exact G.
Qed.
End Runs.
