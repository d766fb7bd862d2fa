From Coq Require Import Reals Lra Lia ZArith List FunctionalExtensionality.
From Verif Require Import Base.Cplx Base.Sums Spec.Env Base.Fin Model.Maths Model.Integrators
  Spec.RungeKutta.
Import ListNotations.
Open Scope R_scope.

Section Pure.
Context {D I ctx : Type}.
Notation V := (svec D I).
Context (ComputeRHS : ctx -> V -> V -> V * ctx) (f : V -> V).
(** the right hand side depends on the field only *)
Context (Hf : computes ComputeRHS f).

Lemma plus_axpy (u : V) c v : axpy u c v = plus u c v.
Proof. reflexivity. Qed.

Lemma stage_u0 dt st rk :
  s_u0 (rk4_stage ComputeRHS dt st rk) =
  (if Nat.ltb rk 3 then axpy (s_u1 st) (nth rk rk4_b 0 * dt) (f (s_u0 st)) else s_u0 st)
  /\ s_u1 (rk4_stage ComputeRHS dt st rk) = s_u1 st
  /\ s_u2 (rk4_stage ComputeRHS dt st rk) = axpy (s_u2 st) (nth rk rk4_a 0 * dt) (f (s_u0 st))
  /\ s_fY (rk4_stage ComputeRHS dt st rk) = s_fY st.
Proof.
  unfold rk4_stage. pose proof (Hf (s_ctx st) (s_rhs st) (s_u0 st)) as H.
  destruct (ComputeRHS _ _ _) as [r c]. cbn [fst] in H; subst r. auto.
Qed.

Lemma RK4_is_rk4 dt st :
  s_u0 (fst (fst (RK4 ComputeRHS dt st))) = rk4 f dt (s_u0 st).
Proof.
  unfold RK4. cbn [fst s_u0 fold_left].
  set (s0 := mkIstate (s_u0 st) (s_u0 st) (s_u0 st) (s_rhs st) (s_fY st) (s_off st) (s_ctx st)).
  destruct (stage_u0 dt s0 0) as (A0 & B0 & C0' & _). set (s1 := rk4_stage ComputeRHS dt s0 0) in *.
  destruct (stage_u0 dt s1 1) as (A1 & B1 & C1' & _). set (s2 := rk4_stage ComputeRHS dt s1 1) in *.
  destruct (stage_u0 dt s2 2) as (A2 & B2 & C2' & _). set (s3 := rk4_stage ComputeRHS dt s2 2) in *.
  destruct (stage_u0 dt s3 3) as (_ & _ & C3' & _). set (s4 := rk4_stage ComputeRHS dt s3 3) in *.
  cbn [Nat.ltb Nat.leb nth rk4_a rk4_b] in *.
  unfold s0 in A0, B0, C0'; cbn [s_u0 s_u1 s_u2] in A0, B0, C0'.
  assert (E1 : s_u0 s1 = plus (s_u0 st) (dt / 2) (rk4_k1 f (s_u0 st))).
  { rewrite A0, plus_axpy. f_equal. lra. }
  assert (E2 : s_u0 s2 = plus (s_u0 st) (dt / 2) (rk4_k2 f dt (s_u0 st))).
  { rewrite A1, B0, E1, plus_axpy. unfold rk4_k2. f_equal. lra. }
  assert (E3 : s_u0 s3 = plus (s_u0 st) dt (rk4_k3 f dt (s_u0 st))).
  { rewrite A2, B1, B0, E2, plus_axpy. unfold rk4_k3. f_equal. lra. }
  rewrite C3', C2', C1', C0', E1, E2, E3. unfold rk4, rk4_k4, rk4_k3, rk4_k2, rk4_k1.
  extensionality i; extensionality k. unfold axpy.
  replace (1/6*dt) with (dt/6) by lra. replace (1/3*dt) with (dt/6*2) by lra.
  rewrite !RtoC_mul. ring.
Qed.

Lemma RK4_dt dt st : snd (fst (RK4 ComputeRHS dt st)) = dt /\ snd (RK4 ComputeRHS dt st) = dt.
Proof. split; reflexivity. Qed.

Lemma FE_is_euler dt st :
  s_u0 (fst (fst (ForwardEuler ComputeRHS dt st))) = euler f dt (s_u0 st).
Proof.
  unfold ForwardEuler. pose proof (Hf (s_ctx st) (s_rhs st) (s_u0 st)) as H.
  destruct (ComputeRHS _ _ _) as [r c]. cbn [fst] in *; subst r. reflexivity.
Qed.

(** n steps of AB2 with constant dt, tstep counting from [ts0] *)
Fixpoint AB2_iter (dt : R) (ts0 n : nat) (st : istate D I ctx) : istate D I ctx :=
  match n with
  | O => st
  | S n => let s := AB2_iter dt ts0 n st in fst (fst (AB2 ComputeRHS dt (ts0 + n) s))
  end.

Lemma AB2_fields dt ts st :
  s_u0 (fst (fst (AB2 ComputeRHS dt ts st))) =
   (if Nat.eqb ts 0 then euler f dt (s_u0 st)
    else fun i k => (s_u0 st i k + (RtoC (1.5 * dt) * f (s_u0 st) i k - RtoC 0.5 * s_u1 st i k))%C)
  /\ s_u1 (fst (fst (AB2 ComputeRHS dt ts st))) = vscal dt (f (s_u0 st)).
Proof.
  unfold AB2. pose proof (Hf (s_ctx st) (s_rhs st) (s_u0 st)) as H.
  destruct (ComputeRHS _ _ _) as [r c]. cbn [fst] in *; subst r.
  destruct (Nat.eqb ts 0); split; reflexivity.
Qed.

Lemma ab2_fst_S dt u n : fst (ab2_seq f dt u (S n)) = snd (ab2_seq f dt u n).
Proof. simpl. destruct (ab2_seq f dt u n); reflexivity. Qed.

Lemma AB2_iter_spec dt n st :
  s_u0 (AB2_iter dt 0 n st) = ab2 f dt (s_u0 st) n /\
  (n <> 0%nat -> s_u1 (AB2_iter dt 0 n st) = vscal dt (f (ab2 f dt (s_u0 st) (pred n)))).
Proof.
  induction n as [|n [IH0 IH1]]; [split; [reflexivity|congruence]|].
  cbn [AB2_iter]. destruct (AB2_fields dt (0 + n) (AB2_iter dt 0 n st)) as [E0 E1].
  split.
  - rewrite E0, IH0. unfold ab2. rewrite ab2_fst_S.
    destruct n as [|n]; [reflexivity|].
    cbn [Nat.add Nat.eqb]. rewrite IH1 by discriminate. cbn [pred].
    unfold ab2. rewrite ab2_fst_S. cbn [ab2_seq].
    destruct (ab2_seq f dt (s_u0 st) n) as [a b]. cbn [fst snd].
    extensionality i; extensionality k. unfold vscal.
    replace (1.5*dt) with (3/2*dt) by lra. replace 0.5 with (1/2) by lra.
    rewrite (RtoC_mul (1/2)). ring.
  - intros _. cbn [pred]. rewrite E1, IH0. reflexivity.
Qed.
End Pure.

(** ** Linear invariants *)
Section Linear.
Context {D I ctx : Type}.
Notation V := (svec D I).

Context (ComputeRHS : ctx -> V -> V -> V * ctx) (P : V -> Prop) (HP : subspace P).
Context (Hrhs : forall c r u, P u -> P (fst (ComputeRHS c r u))).

Definition inv_st (st : istate D I ctx) : Prop :=
  P (s_u0 st) /\ P (s_u1 st) /\ (forall n, P (s_fY st n)).

Lemma P_ext (u v : V) : (forall i k, u i k = v i k) -> P u -> P v.
Proof.
  intros H Hu. replace v with u; auto. extensionality i; extensionality k; apply H.
Qed.
Lemma P_axpy u c v : P u -> P v -> P (axpy u c v).
Proof. apply (proj2 HP). Qed.
Lemma P_zero : P (fun _ _ => C0).
Proof. apply (proj1 HP). Qed.
Lemma P_scal c u : P u -> P (vscal c u).
Proof.
  intros Hu. apply (P_ext (axpy (fun _ _ => C0) c u)).
  - intros; unfold axpy, vscal; ring.
  - apply P_axpy; auto. apply P_zero.
Qed.

Lemma inv_init u r c : P u -> inv_st (init_istate u r c).
Proof.
  intros Hu. repeat split; auto. intros n. cbn. apply P_zero.
Qed.

Lemma rk4_stage_inv dt st rk :
  P (s_u0 st) -> P (s_u1 st) -> P (s_u2 st) -> (forall n, P (s_fY st n)) ->
  let st' := rk4_stage ComputeRHS dt st rk in
  P (s_u0 st') /\ P (s_u1 st') /\ P (s_u2 st') /\ (forall n, P (s_fY st' n)).
Proof.
  intros H0 H1 H2 HY. unfold rk4_stage.
  pose proof (Hrhs (s_ctx st) (s_rhs st) (s_u0 st) H0) as H.
  destruct (ComputeRHS _ _ _) as [r c]; cbn [fst] in H. cbn [s_u0 s_u1 s_u2 s_fY].
  repeat split; auto; [destruct (Nat.ltb rk 3); [apply P_axpy|]; auto|apply P_axpy; auto].
Qed.

Lemma RK4_inv dt st : inv_st st -> inv_st (fst (fst (RK4 ComputeRHS dt st))).
Proof.
  intros (H0 & H1 & HY). unfold RK4. cbn [fst].
  set (s0 := mkIstate (s_u0 st) (s_u0 st) (s_u0 st) (s_rhs st) (s_fY st) (s_off st) (s_ctx st)).
  assert (G : forall l s, P (s_u0 s) /\ P (s_u1 s) /\ P (s_u2 s) /\ (forall n, P (s_fY s n)) ->
     let s' := fold_left (rk4_stage ComputeRHS dt) l s in
     P (s_u0 s') /\ P (s_u1 s') /\ P (s_u2 s') /\ (forall n, P (s_fY s' n))).
  { induction l as [|a l IH]; intros s (A & B & E & G); simpl; auto.
    apply IH. apply rk4_stage_inv; auto. }
  assert (G0 : P (s_u0 s0) /\ P (s_u1 s0) /\ P (s_u2 s0) /\ (forall n, P (s_fY s0 n)))
    by (unfold s0; cbn [s_u0 s_u1 s_u2 s_fY]; auto).
  destruct (G [0;1;2;3]%nat s0 G0) as (A & B & E & Y).
  repeat split; cbn [s_u0 s_u1 s_fY]; auto.
Qed.
Lemma FE_inv dt st : inv_st st -> inv_st (fst (fst (ForwardEuler ComputeRHS dt st))).
Proof.
  intros (H0 & H1 & HY). unfold ForwardEuler.
  pose proof (Hrhs (s_ctx st) (s_rhs st) (s_u0 st) H0) as H.
  destruct (ComputeRHS _ _ _) as [r c]; cbn [fst] in H. repeat split; cbn [s_u0 s_u1 s_u2 s_fY fst]; auto. apply P_axpy; auto.
Qed.
Lemma AB2_inv dt ts st : inv_st st -> inv_st (fst (fst (AB2 ComputeRHS dt ts st))).
Proof.
  intros (H0 & H1 & HY). unfold AB2.
  pose proof (Hrhs (s_ctx st) (s_rhs st) (s_u0 st) H0) as H.
  destruct (ComputeRHS _ _ _) as [r c]; cbn [fst] in H. repeat split; cbn [s_u0 s_u1 s_u2 s_fY fst]; auto.
  - destruct (Nat.eqb ts 0); [apply P_axpy; auto|].
    apply (P_ext (axpy (axpy (s_u0 st) (1.5*dt) r) (-0.5) (s_u1 st))).
    + intros; unfold axpy. replace (-0.5) with (- (0.5)) by lra. rewrite RtoC_opp. ring.
    + apply P_axpy; auto. apply P_axpy; auto.
  - apply P_scal; auto.
Qed.

Section RK.
Context (A : nat -> nat -> R) (b bhat : nat -> R) (s : nat) (est_of : V -> V -> V -> R).

Lemma updn_P (fY : nat -> V) n v : (forall m, P (fY m)) -> P v -> forall m, P (updn fY n v m).
Proof. intros H Hv m. unfold updn. destruct (Nat.eqb m n); auto. Qed.

Lemma stage_eval_inv dt i st : inv_st st -> inv_st (rk_stage_eval ComputeRHS A s dt i st).
Proof.
  intros (H0 & H1 & HY). unfold rk_stage_eval.
  assert (G : forall l fY, (forall m, P (fY m)) ->
    forall m, P (fold_left (fun fY j => updn fY (ring s (s_off st) i)
                (axpy (fY (ring s (s_off st) i)) (dt * A i j) (fY (ring s (s_off st) j)))) l fY m)).
  { induction l as [|a l IH]; intros fY HfY m; simpl; auto. apply IH. apply updn_P; auto.
    apply P_axpy; auto. }
  specialize (G (seq 0 i) (updn (s_fY st) (ring s (s_off st) i) (s_u0 st))).
  set (fY := fold_left _ _ _) in *.
  assert (HfY : forall m, P (fY m)) by (apply G; apply updn_P; auto).
  pose proof (Hrhs (s_ctx st) (s_rhs st) (fY (ring s (s_off st) i)) (HfY _)) as H.
  destruct (ComputeRHS _ _ _) as [r c]; cbn [fst] in H.
  repeat split; cbn [s_u0 s_u1 s_u2 s_fY fst]; auto. apply updn_P; auto.
Qed.

Lemma stages_loop_inv fsal ts dt st : inv_st st -> inv_st (rk_stages_loop ComputeRHS A s fsal ts dt st).
Proof.
  unfold rk_stages_loop. generalize (seq 0 s) as l. intros l; revert st.
  induction l as [|a l IH]; intros st H; simpl; auto. apply IH.
  destruct (orb _ _); auto. apply stage_eval_inv; auto.
Qed.

Lemma rk_new_P dt st : inv_st st -> P (rk_new b s dt st).
Proof.
  intros (H0 & H1 & HY). unfold rk_new.
  assert (G : forall l v, P v ->
     P (fold_left (fun v j => axpy v (dt * b j) (s_fY st (ring s (s_off st) j))) l v)).
  { induction l as [|a l IH]; intros v Hv; simpl; auto. apply IH. apply P_axpy; auto. }
  apply G. apply P_axpy; auto.
Qed.

Lemma inv_st_off (st : istate D I ctx) off : inv_st st ->
  inv_st (mkIstate (s_u0 st) (s_u1 st) (s_u2 st) (s_rhs st) (s_fY st) off (s_ctx st)).
Proof. intros (A0 & B0 & C0'); repeat split; cbn [s_u0 s_u1 s_u2 s_fY fst]; auto. Qed.

Lemma attempt_inv fsal ad ts dt fm st : inv_st st ->
  match attempt ComputeRHS A b bhat s est_of fsal ad ts dt fm st with
  | Retry st' _ _ => inv_st st'
  | Accept st' _ _ => inv_st st'
  end.
Proof.
  intros H. unfold attempt.
  set (st1 := mkIstate (s_u0 st) (s_u1 st) (s_u2 st) (s_rhs st) (s_fY st)
     (if fsal then ((s_off st - 1) mod Z.of_nat s)%Z else s_off st) (s_ctx st)).
  assert (H1 : inv_st st1) by (apply inv_st_off; auto).
  pose proof (stages_loop_inv fsal ts dt st1 H1) as H2.
  set (st2 := rk_stages_loop _ _ _ _ _ _ _) in *.
  pose proof (rk_new_P dt st2 H2) as Hn. destruct H2 as (A2 & B2 & C2).
  destruct ad; [destruct (Rlt_dec _ _)|]; repeat split; cbn [s_u0 s_u1 s_u2 s_fY fst]; auto.
Qed.

Lemma adaptive_loop_inv fuel fsal ad ts : forall dt fm st r, inv_st st ->
  adaptive_loop ComputeRHS A b bhat s est_of fuel fsal ad ts dt fm st = Some r -> inv_st (fst (fst r)).
Proof.
  induction fuel as [|n IH]; intros dt fm st r H E; [discriminate|].
  cbn [adaptive_loop] in E.
  pose proof (attempt_inv fsal ad ts dt fm st H) as Ha.
  destruct (attempt _ _ _ _ _ _ _ _ _ _ _ _) as [st' dt' fm'|st' dt' dp].
  - apply (IH _ _ _ _ Ha E).
  - injection E as <-. cbn. destruct Ha as (Ha & Hb & Hc). repeat split; cbn [s_u0 s_u1 s_u2 s_fY fst]; auto.
Qed.
End RK.
End Linear.
