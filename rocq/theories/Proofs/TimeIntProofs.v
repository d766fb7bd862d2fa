(** Lemmas behind Props/TimeInt.v. *)
From Coq Require Import Reals Lra Lia List QArith Qreals FunctionalExtensionality.
From Verif Require Import Base.Cplx Base.Sums Base.Fin Spec.RungeKutta Spec.Env Spec.Calls Model.Maths Model.Integrators Model.BS5
  Model.Integrate Proofs.IntegratorProofs Proofs.FsalProofs.
Import ListNotations.
Open Scope R_scope.

(** ** RK4 as a tableau *)
Section RK4.
Context {D I : Type}.
Notation V := (D -> I -> C).
Context (f : V -> V).
Ltac q2r := unfold Q2R; cbn [Qnum Qden]; lra.
Lemma rk4_tableau dt u : rk_step f rk4_At rk4_bt 4 dt u = rk4 f dt u.
Proof.
  assert (A10 : rk4_At 1 0 = /2) by (unfold rk4_At, entry, RK4_A; cbn [nth]; q2r).
  assert (A20 : rk4_At 2 0 = 0) by (unfold rk4_At, entry, RK4_A; cbn [nth]; q2r).
  assert (A21 : rk4_At 2 1 = /2) by (unfold rk4_At, entry, RK4_A; cbn [nth]; q2r).
  assert (A30 : rk4_At 3 0 = 0) by (unfold rk4_At, entry, RK4_A; cbn [nth]; q2r).
  assert (A31 : rk4_At 3 1 = 0) by (unfold rk4_At, entry, RK4_A; cbn [nth]; q2r).
  assert (A32 : rk4_At 3 2 = 1) by (unfold rk4_At, entry, RK4_A; cbn [nth]; q2r).
  assert (B0 : rk4_bt 0 = /6) by (unfold rk4_bt, RK4_w; cbn [nth]; q2r).
  assert (B1 : rk4_bt 1 = /3) by (unfold rk4_bt, RK4_w; cbn [nth]; q2r).
  assert (B2 : rk4_bt 2 = /3) by (unfold rk4_bt, RK4_w; cbn [nth]; q2r).
  assert (B3 : rk4_bt 3 = /6) by (unfold rk4_bt, RK4_w; cbn [nth]; q2r).
  assert (K0 : rk_k f rk4_At dt u 0 = rk4_k1 f u).
  { rewrite rk_k_eq. unfold rk4_k1. f_equal. unfold combo. extensionality i; extensionality k. cbn [Csum]. ring. }
  assert (K1 : rk_k f rk4_At dt u 1 = rk4_k2 f dt u).
  { rewrite rk_k_eq. unfold rk4_k2. f_equal. unfold combo, plus. extensionality i; extensionality k. cbn [Csum].
    rewrite A10, K0. replace (dt / 2) with (dt * / 2) by lra. rewrite RtoC_mul. ring. }
  assert (K2 : rk_k f rk4_At dt u 2 = rk4_k3 f dt u).
  { rewrite rk_k_eq. unfold rk4_k3. f_equal. unfold combo, plus. extensionality i; extensionality k. cbn [Csum].
    rewrite A20, A21, K1. replace (dt / 2) with (dt * / 2) by lra. rewrite RtoC_mul, RtoC_0. ring. }
  assert (K3 : rk_k f rk4_At dt u 3 = rk4_k4 f dt u).
  { rewrite rk_k_eq. unfold rk4_k4. f_equal. unfold combo, plus. extensionality i; extensionality k. cbn [Csum].
    rewrite A30, A31, A32, K2, RtoC_0. change (RtoC 1) with C1. ring. }
  unfold rk_step, rk4, combo. extensionality i; extensionality k. cbn [Csum].
  rewrite K0, K1, K2, K3, B0, B1, B2, B3.
  generalize (rk4_k1 f u i k) (rk4_k2 f dt u i k) (rk4_k3 f dt u i k) (rk4_k4 f dt u i k). intros a b c d.
  apply C_eq; unfold RtoC, Cmul, Csub, Cadd, Copp, Ci, C1, C0; cbn [fst snd]; field.
Qed.

Lemma rk4_taylor (Hl : linear_map f) dt u i k :
  rk4 f dt u i k = (u i k + RtoC dt * f u i k + RtoC (dt^2/2) * f (f u) i k
    + RtoC (dt^3/6) * f (f (f u)) i k + RtoC (dt^4/24) * f (f (f (f u))) i k)%C.
Proof.
  unfold rk4, rk4_k4, rk4_k3, rk4_k2, rk4_k1. rewrite !Hl. unfold plus.
  generalize (f u i k) (f (f u) i k) (f (f (f u)) i k) (f (f (f (f u))) i k). intros a b c d.
  apply C_eq; unfold RtoC, Cmul, Csub, Cadd, Copp, Ci, C1, C0; cbn [fst snd]; field.
Qed.
End RK4.

(** ** A right hand side that records the fields it is called with *)
Section Log.
Context {D I : Type}.
Notation V := (D -> I -> C).
Context (f : V -> V).
Lemma logging_computes : computes (logging f) f.
Proof. intros c r u. reflexivity. Qed.
Lemma RK4_calls dt (st : istate D I (list V)) :
  s_ctx (fst (fst (RK4 (logging f) dt st))) =
  s_ctx st ++ [s_u0 st; plus (s_u0 st) (dt/2) (rk4_k1 f (s_u0 st)); plus (s_u0 st) (dt/2) (rk4_k2 f dt (s_u0 st));
               plus (s_u0 st) dt (rk4_k3 f dt (s_u0 st))].
Proof.
  unfold RK4. cbn [fold_left]. unfold rk4_stage, logging. cbn [s_u0 s_u1 s_u2 s_ctx s_fY s_off s_rhs fst snd Nat.ltb Nat.leb nth rk4_b rk4_a].
  rewrite <- !app_assoc. cbn [app]. unfold rk4_k3, rk4_k2, rk4_k1. unfold axpy, plus.
  replace (0.5 * dt) with (dt / 2) by lra. replace (1 * dt) with dt by ring. reflexivity.
Qed.
End Log.

(** ** AB2 with varying steps *)
Section AB2.
Context {D I ctx : Type}.
Notation V := (D -> I -> C).
Context (ComputeRHS : ctx -> V -> V -> V * ctx) (f : V -> V) (Hf : computes ComputeRHS f).

Lemma AB2_calls_S est fuel dts : forall ts (st st' : istate D I ctx),
  calls ComputeRHS est fuel IAB2 dts (S ts) st = Some st' -> s_u0 st' = ab2_next f dts (s_u0 st) (s_u1 st).
Proof.
  induction dts as [|dt dts IH]; intros ts st st'; cbn [calls ab2_next].
  - intros [= <-]. reflexivity.
  - cbn [integrate]. pose proof (AB2_fields ComputeRHS f Hf dt (S ts) st) as [H1 H2].
    destruct (AB2 ComputeRHS dt (S ts) st) as [[st1 d] k]. cbn [fst] in *. intros H. rewrite (IH _ _ _ H), H1, H2.
    cbn [Nat.eqb]. f_equal. extensionality i; extensionality j.
    replace (1.5 * dt) with (3/2*dt) by lra. replace 0.5 with (1/2) by lra. ring.
Qed.
Lemma AB2_calls_0 est fuel dt dts (st st' : istate D I ctx) :
  calls ComputeRHS est fuel IAB2 (dt :: dts) 0 st = Some st' ->
  s_u0 st' = ab2_next f dts (euler f dt (s_u0 st)) (fun i k => (RtoC dt * f (s_u0 st) i k)%C).
Proof.
  cbn [calls]. cbn [integrate]. pose proof (AB2_fields ComputeRHS f Hf dt 0 st) as [H1 H2].
  destruct (AB2 ComputeRHS dt 0 st) as [[st1 d] k]. cbn [fst] in *. intros H. rewrite (AB2_calls_S _ _ _ _ _ _ H), H1, H2.
  reflexivity.
Qed.
Lemma AB2_calls_total est fuel dts : forall ts (st : istate D I ctx), exists st', calls ComputeRHS est fuel IAB2 dts ts st = Some st'.
Proof.
  induction dts as [|dt dts IH]; intros ts st; cbn [calls]; [eauto|]. cbn [integrate].
  destruct (AB2 ComputeRHS dt ts st) as [[st1 d] k]. apply IH.
Qed.
Lemma ab2_rec dt u0 n i k : ab2 f dt u0 (S (S n)) i k =
  (ab2 f dt u0 (S n) i k + RtoC (3/2 * dt) * f (ab2 f dt u0 (S n)) i k - RtoC (1/2 * dt) * f (ab2 f dt u0 n) i k)%C.
Proof.
  unfold ab2. rewrite (ab2_fst_S f dt u0 (S n)). cbn [ab2_seq].
  destruct (ab2_seq f dt u0 n) as [a b]. reflexivity.
Qed.
Lemma ab2_next_const dt n : forall m u0,
  ab2_next f (repeat dt n) (ab2 f dt u0 (S m)) (fun i k => (RtoC dt * f (ab2 f dt u0 m) i k)%C) = ab2 f dt u0 (S m + n).
Proof.
  induction n as [|n IH]; intros m u0; cbn [repeat ab2_next].
  - rewrite Nat.add_0_r. reflexivity.
  - replace (S m + S n)%nat with (S (S m) + n)%nat by lia. rewrite <- IH. f_equal.
    extensionality i; extensionality j. rewrite (ab2_rec dt u0 m i j), (RtoC_mul (1/2) dt). ring.
Qed.
Lemma ab2_0 dt u0 : ab2 f dt u0 0 = u0. Proof. reflexivity. Qed.
Lemma ab2_1 dt u0 : ab2 f dt u0 1 = euler f dt u0. Proof. reflexivity. Qed.
Lemma AB2_calls_const est fuel dt n (st st' : istate D I ctx) :
  calls ComputeRHS est fuel IAB2 (repeat dt n) 0 st = Some st' -> s_u0 st' = ab2 f dt (s_u0 st) n.
Proof.
  destruct n as [|n]; cbn [repeat].
  - intros [= <-]. reflexivity.
  - intros H. rewrite (AB2_calls_0 _ _ _ _ _ _ H). apply (ab2_next_const dt n 0).
Qed.
Lemma ab2_sum dt u0 n i k : ab2 f dt u0 (S n) i k =
  (u0 i k + RtoC dt * Csum (S n) (fun m => f (ab2 f dt u0 m) i k)
   + RtoC (dt / 2) * (f (ab2 f dt u0 n) i k - f u0 i k))%C.
Proof.
  induction n as [|n IH].
  - rewrite ab2_1, ab2_0. unfold euler, plus. cbn [Csum]. rewrite ab2_0. ring.
  - rewrite ab2_rec, IH. set (S' := Csum (S n) _).
    replace (Csum (S (S n)) (fun m => f (ab2 f dt u0 m) i k)) with (S' + f (ab2 f dt u0 (S n)) i k)%C by reflexivity.
    generalize (f (ab2 f dt u0 (S n)) i k) (f (ab2 f dt u0 n) i k) (f u0 i k) S' (u0 i k). intros a b c d e.
    apply C_eq; unfold RtoC, Cmul, Csub, Cadd, Copp, Ci, C1, C0; cbn [fst snd]; field.
Qed.
End AB2.

(** ** The tableau *)
Lemma bs5_lower i j : (i <= j)%nat -> (j < 8)%nat -> Qeq (entry BS5_A i j) 0.
Proof.
  intros H1 H2. assert (Hi : (i < 8)%nat) by lia.
  do 8 (destruct i as [|i]; [do 8 (destruct j as [|j]; [vm_compute; try reflexivity; lia|]); lia|]). lia.
Qed.

(** ** A BS5 step whose first stage is taken from an empty buffer *)
Section Stale.
Context {D I ctx : Type}.
Notation V := (D -> I -> C).
Context (v : V).
Let rhs (c : ctx) (r u : V) : V * ctx := (v, c).
Lemma fold_updn_other (g : nat -> R) (tgt : nat) (src : nat -> nat) l : forall (fY : nat -> V) m, m <> tgt ->
  fold_left (fun fY j => updn fY tgt (axpy (fY tgt) (g j) (fY (src j)))) l fY m = fY m.
Proof.
  induction l as [|j l IH]; intros fY m Hm; [reflexivity|]. cbn [fold_left]. rewrite IH by exact Hm. apply updn_other, Hm.
Qed.
Lemma stage_const dt i (st : istate D I ctx) :
  let st' := rk_stage_eval rhs bs5_A bs5_s dt i st in
  s_u0 st' = s_u0 st /\ s_off st' = s_off st /\ s_fY st' (Integrators.ring bs5_s (s_off st) i) = v /\
  forall m, m <> Integrators.ring bs5_s (s_off st) i -> s_fY st' m = s_fY st m.
Proof.
  cbv zeta. unfold rk_stage_eval, rhs. cbn [s_u0 s_off s_fY]. split; [reflexivity|]. split; [reflexivity|].
  split; [apply updn_same|]. intros m Hm. rewrite updn_other by exact Hm.
  rewrite (fold_updn_other (fun j => dt * bs5_A i j) _ (fun j => Integrators.ring bs5_s (s_off st) j)) by exact Hm.
  apply updn_other, Hm.
Qed.
Lemma stages_const dt (st : istate D I ctx) : forall n, (n <= bs5_s)%nat ->
  let st' := fold_left (fun st i => if orb (negb true) (orb (Nat.eqb 1 0) (negb (Nat.eqb i 0)))
      then rk_stage_eval rhs bs5_A bs5_s dt i st else st) (seq 0 n) st in
  s_u0 st' = s_u0 st /\ s_off st' = s_off st /\
  s_fY st' (Integrators.ring bs5_s (s_off st) 0) = s_fY st (Integrators.ring bs5_s (s_off st) 0) /\
  forall i, (0 < i < n)%nat -> s_fY st' (Integrators.ring bs5_s (s_off st) i) = v.
Proof.
  induction n as [|n IH]; intros Hn; cbv zeta.
  - cbn [seq fold_left]. repeat split; try reflexivity. intros i H; lia.
  - rewrite seq_S, fold_left_app. cbn [fold_left plus]. specialize (IH ltac:(lia)). cbv zeta in IH.
    set (s1 := fold_left _ (seq 0 n) st) in *. destruct IH as (H1 & H2 & H3 & H4).
    destruct n as [|n]; [cbn; repeat split; auto; intros i H; lia|]. cbn [Nat.add Nat.eqb negb orb].
    destruct (stage_const dt (S n) s1) as (G1 & G2 & G3 & G4). rewrite H2 in *.
    split; [congruence|]. split; [congruence|]. split.
    + rewrite G4; [exact H3|]. intros E. apply ring_inj in E; lia.
    + intros i Hi. destruct (Nat.eq_dec i (S n)) as [->|Hne]; [exact G3|]. rewrite G4; [apply H4; lia|].
      intros E. apply ring_inj in E; lia.
Qed.
Lemma bs5_stale est fuel dt u r c : exists st', integrate rhs est (S fuel) (IBS5 false) dt 1 (init_istate u r c) = Some (st', dt, dt) /\
  forall i k, s_u0 st' i k = (u i k + RtoC (dt * (1 - 587/8064)) * v i k)%C.
Proof.
  cbn [integrate]. unfold adaptiveRK. cbn [adaptive_loop]. unfold attempt.
  set (s0 := mkIstate (s_u0 (init_istate u r c)) (s_u1 (init_istate u r c)) (s_u2 (init_istate u r c)) (s_rhs (init_istate u r c))
    (s_fY (init_istate u r c)) ((s_off (init_istate u r c) - 1) mod Z.of_nat bs5_s)%Z (s_ctx (init_istate u r c))).
  set (s1 := rk_stages_loop rhs bs5_A bs5_s true 1 dt s0).
  destruct (stages_const dt s0 bs5_s ltac:(lia)) as (H1 & H2 & H3 & H4). cbv zeta in *.
  change (fold_left _ (seq 0 bs5_s) s0) with s1 in *.
  eexists. split; [reflexivity|]. cbn [s_u0 s_u1]. unfold rk_new.
  rewrite (fold_axpy dt bs5_b (fun j => s_fY s1 (Integrators.ring bs5_s (s_off s1) j)) (bs5_s - 1) 1).
  intros i k. unfold axpy. rewrite H1, H2. cbn [s0 s_u0]. rewrite H3. cbn [s0 s_fY init_istate]. unfold vzero.
  change (bs5_s - 1)%nat with 7%nat. cbn [Csum Nat.add]. rewrite !H4 by (unfold bs5_s; lia).
  assert (B : bs5_b 1 + bs5_b 2 + bs5_b 3 + bs5_b 4 + bs5_b 5 + bs5_b 6 + bs5_b 7 = 1 - 587/8064).
  { unfold bs5_b. rewrite <- !Q2R_plus. replace (1 - 587/8064) with (Q2R (7477#8064)) by (unfold Q2R; cbn [Qnum Qden]; lra).
    apply Qeq_eqR. vm_compute. reflexivity. }
  rewrite <- B. cbn [s0 s_u0 init_istate]. generalize (u i k) (v i k). intros a b.
  apply C_eq; unfold RtoC, Cmul, Csub, Cadd, Copp, Ci, C1, C0; cbn [fst snd]; ring.
Qed.
End Stale.
