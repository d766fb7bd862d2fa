(** Theorems on the compiled integrators: C34. *)
From Coq Require Import Reals List Arith Bool Lia Lra.
From Verif Require Import Base.Cplx Base.Sums Base.Fin Model.Maths Model.Integrators Model.Kernels Proofs.KernelProofs.
Import ListNotations.
Open Scope R_scope.

Section Agree.
(** arrays of shape (d, n0, n1, ...), any number of axes *)
Context (d : nat) (sh : list nat).
Notation V := (svec nat (list nat)).
(** the array holds the values of the field at the index tuples in range *)
Definition holds (a : arr C) (v : V) : Prop :=
  shape a = d :: sh /\ forall c q, inb (c :: q) (d :: sh) = true -> data a (c :: q) = v c q.

Context {ctx : Type} (RHS : ctx -> arr C -> arr C -> arr C * ctx) (rhs : ctx -> V -> V -> V * ctx).
(** the same right hand side on arrays and on fields *)
Definition same_rhs : Prop := forall c r rv u uv, holds r rv -> holds u uv ->
  holds (fst (RHS c r u)) (fst (rhs c rv uv)) /\ snd (RHS c r u) = snd (rhs c rv uv).

Definition agree (k : kst (ctx := ctx)) (s : istate nat (list nat) ctx) : Prop :=
  holds (kU k) (s_u0 s) /\ holds (kU0 k) (s_u1 s) /\ holds (kU1 k) (s_u2 s) /\ holds (kdU k) (s_rhs s) /\
  kctx k = s_ctx s.

Lemma data_app_put (a : arr C) (idx : list nat) (v : C) (l : list nat) :
  inb idx (shape a) = true -> exists a', put a idx v = Some a' /\ shape a' = shape a /\
    data a' idx = v /\ (forall p, p <> idx -> data a' p = data a p).
Proof.
  intros H. unfold put. rewrite H. eexists. split; [reflexivity|]. cbn [shape data]. rewrite leqb_refl.
  repeat split. intros p Hp. destruct (leqb p idx) eqn:E; [|reflexivity].
  apply leqb_spec in E. contradiction.
Qed.

(** a loop nest over one array, new value a function of the index and the old value *)
Lemma nest_map (f : list nat -> C -> C) (body : list nat -> arr C -> option (arr C)) (a : arr C) :
  shape a = d :: sh ->
  (forall q s, inb q (d :: sh) = true -> shape s = d :: sh -> body q s = put s q (f q (data s q))) ->
  exists a', nest (d :: sh) body a = Some a' /\ shape a' = d :: sh /\
    forall q, inb q (d :: sh) = true -> data a' q = f q (data a q).
Proof.
  intros Ha Hb.
  assert (A : acts (fun s => shape s = d :: sh) (@data C) f (nest (d :: sh) body) (inbox [] (d :: sh))).
  { apply acts_nest. intros q Hq. apply acts_point. intros s Hs. rewrite (Hb q s Hq Hs).
    destruct (data_app_put s q (f q (data s q)) q) as (a' & E & S1 & S2 & S3); [rewrite Hs; exact Hq|].
    exists a'. rewrite S1. auto. }
  destruct (A a Ha) as (a' & E & I & W). exists a'. repeat split; auto.
  intros q Hq. specialize (W q). cbn [inbox] in W. rewrite Hq in W. exact W.
Qed.


Lemma holds_intro a v : shape a = d :: sh ->
  (forall c q, inb (c :: q) (d :: sh) = true -> data a (c :: q) = v c q) -> holds a v.
Proof. intros H1 H2. split; assumption. Qed.

Lemma loop1_ok U U0 U1 v v0 v1 : holds U v -> holds U0 v0 -> holds U1 v1 ->
  exists U0' U1', loop1 U (U0, U1) = Some (U0', U1') /\ holds U0' v /\ holds U1' v.
Proof.
  intros (S & H) (S0 & H0) (S1 & H1).
  assert (A : acts (fun s => shape (fst s) = d :: sh /\ shape (snd s) = d :: sh)
     (fun s q => (data (fst s) q, data (snd s) q)) (fun q _ => (data U q, data U q))
     (loop1 U) (inbox [] (d :: sh))).
  { unfold loop1. rewrite S. apply acts_nest. intros q Hq. apply acts_point. intros [s0 s1] (I0 & I1).
    cbn [fst snd] in *. rewrite get_some by (rewrite S; exact Hq). cbn [bind].
    destruct (data_app_put s1 q (data U q) q) as (b1 & E1 & B1 & B2 & B3); [rewrite I1; exact Hq|].
    destruct (data_app_put s0 q (data U q) q) as (b0 & E0 & B4 & B5 & B6); [rewrite I0; exact Hq|].
    rewrite E1. cbn [bind]. rewrite E0. cbn [bind]. exists (b0, b1). cbn [fst snd].
    rewrite B1, B4, B2, B5. repeat split; auto. intros p Hp. rewrite B3, B6 by exact Hp. reflexivity. }
  destruct (A (U0, U1) (conj S0 S1)) as ([U0' U1'] & E & (I0 & I1) & W). cbn [fst snd] in *.
  exists U0', U1'. split; [exact E|].
  split; (split; [assumption|]); intros c q Hq; specialize (W (c :: q)); cbn [inbox] in W; rewrite Hq in W;
  injection W as W0 W1; [rewrite W0 | rewrite W1]; apply H, Hq.
Qed.

Ltac nestm F :=
  match goal with |- exists a', nest _ ?body ?a = _ /\ _ =>
    destruct (nest_map F body a) as (a' & E & S' & W);
    [ assumption | intros q s Hq Hs; rewrite ?get_some by congruence; reflexivity
    | exists a'; split; [exact E | split; [exact S'|]]; intros c q Hq; rewrite W by exact Hq ]
  end.

Lemma loop2_ok dU U U0 vd v v0 b dt : holds dU vd -> holds U v -> holds U0 v0 ->
  exists U', loop2 dU U U0 b dt = Some U' /\ holds U' (axpy v0 (b * dt) vd).
Proof.
  intros (Sd & Hd) (S & H) (S0 & H0). unfold loop2. rewrite Sd.
  nestm (fun q (_ : C) => (data U0 q + RtoC b * RtoC dt * data dU q)%C).
  rewrite H0, Hd by exact Hq. unfold axpy. rewrite RtoC_mul. reflexivity.
Qed.
Lemma loop3_ok dU U1 vd v a dt : holds dU vd -> holds U1 v ->
  exists U', loop3 dU U1 a dt = Some U' /\ holds U' (axpy v (a * dt) vd).
Proof.
  intros (Sd & Hd) (S & H). unfold loop3. rewrite Sd.
  nestm (fun q u => (u + RtoC a * RtoC dt * data dU q)%C).
  rewrite H, Hd by exact Hq. unfold axpy. rewrite RtoC_mul. reflexivity.
Qed.
Lemma loop4_ok U U1 v v1 : holds U v -> holds U1 v1 -> exists U', loop4 U U1 = Some U' /\ holds U' v1.
Proof.
  intros (S & H) (S1 & H1). unfold loop4. rewrite S.
  nestm (fun q (_ : C) => data U1 q). apply H1, Hq.
Qed.
Lemma loop5_ok dU U vd v dt : holds dU vd -> holds U v ->
  exists U', loop5 dU U dt = Some U' /\ holds U' (axpy v dt vd).
Proof.
  intros (Sd & Hd) (S & H). unfold loop5. rewrite Sd.
  nestm (fun q u => (u + data dU q * RtoC dt)%C). rewrite H, Hd by exact Hq. unfold axpy. ring.
Qed.
Lemma loop6_ok dU U U0 vd v v0 dt : holds dU vd -> holds U v -> holds U0 v0 ->
  exists U', loop6 dU U U0 dt = Some U' /\
    holds U' (fun i k => (v i k + (RtoC (1.5 * dt) * vd i k - RtoC 0.5 * v0 i k))%C).
Proof.
  intros (Sd & Hd) (S & H) (S0 & H0). unfold loop6. rewrite Sd.
  nestm (fun q u => (u + RtoC 1.5 * data dU q * RtoC dt - RtoC 0.5 * data U0 q)%C).
  rewrite H, Hd, H0 by exact Hq. rewrite RtoC_mul. ring.
Qed.
Lemma loop7_ok dU U0 vd v dt : holds dU vd -> holds U0 v ->
  exists U', loop7 dU U0 dt = Some U' /\ holds U' (vscal dt vd).
Proof.
  intros (Sd & Hd) (S & H). unfold loop7. rewrite Sd.
  nestm (fun q (_ : C) => (data dU q * RtoC dt)%C). rewrite Hd by exact Hq. unfold vscal. ring.
Qed.

Lemma stage_ok dt rk k s : same_rhs -> (rk < 4)%nat -> agree k s ->
  exists k', k_stage RHS rk4_a rk4_b dt rk k = Some k' /\ agree k' (rk4_stage rhs dt s rk).
Proof.
  intros HR Hrk (A0 & A1 & A2 & A3 & A4). unfold k_stage, rk4_stage.
  destruct (HR (kctx k) (kdU k) (s_rhs s) (kU k) (s_u0 s) A3 A0) as (R1 & R2). rewrite A4 in R1, R2 |- *.
  destruct (RHS (s_ctx s) (kdU k) (kU k)) as [dU c1]. destruct (rhs (s_ctx s) (s_rhs s) (s_u0 s)) as [dv c2].
  cbn [fst snd] in R1, R2. subst c2.
  assert (EU : exists U, (if (rk <? 3)%nat then bb <- nth_error rk4_b rk ;; loop2 dU (kU k) (kU0 k) bb dt else Some (kU k)) = Some U /\
     holds U (if Nat.ltb rk 3 then axpy (s_u1 s) (nth rk rk4_b 0 * dt) dv else s_u0 s)).
  { destruct (Nat.ltb_spec rk 3) as [Hl|Hl]; [|exists (kU k); auto].
    rewrite (nth_error_nth' rk4_b 0 : (rk < length rk4_b)%nat -> _) by (simpl; lia). cbn [bind].
    apply (loop2_ok dU (kU k) (kU0 k) dv (s_u0 s) (s_u1 s)); assumption. }
  destruct EU as (U & EU & HU). rewrite EU. cbn [bind].
  rewrite (nth_error_nth' rk4_a 0 : (rk < length rk4_a)%nat -> _) by (simpl; lia). cbn [bind].
  destruct (loop3_ok dU (kU1 k) dv (s_u2 s) (nth rk rk4_a 0) dt R1 A2) as (U1 & E1 & H1). rewrite E1. cbn [bind].
  eexists. split; [reflexivity|]. repeat split; cbn; try apply HU; try apply A1; try apply H1; try apply R1.
Qed.

(** ** C34 *)
Theorem RK4_kernel_agrees dt k s : same_rhs -> agree k s ->
  exists k', k_RK4 RHS rk4_a rk4_b dt k = Some (k', dt, dt) /\ agree k' (fst (fst (RK4 rhs dt s))).
Proof.
  intros HR A. pose proof A as (A0 & A1 & A2 & A3 & A4). unfold k_RK4.
  destruct (loop1_ok _ _ _ _ _ _ A0 A1 A2) as (U0 & U1 & E1 & H0 & H1). rewrite E1. cbn [bind fst snd].
  unfold RK4, for_. cbn [seq fold_left bind].
  set (k0 := mkKst (kU k) U0 U1 (kdU k) (kctx k)).
  set (s0 := mkIstate (s_u0 s) (s_u0 s) (s_u0 s) (s_rhs s) (s_fY s) (s_off s) (s_ctx s)).
  assert (B0 : agree k0 s0) by (repeat split; cbn; first [apply A0 | apply H0 | apply H1 | apply A3 | exact A4]).
  destruct (stage_ok dt 0 k0 s0 HR ltac:(lia) B0) as (k1 & Q1 & B1). rewrite Q1. cbn [bind].
  destruct (stage_ok dt 1 _ _ HR ltac:(lia) B1) as (k2 & Q2 & B2). rewrite Q2. cbn [bind].
  destruct (stage_ok dt 2 _ _ HR ltac:(lia) B2) as (k3 & Q3 & B3). rewrite Q3. cbn [bind].
  destruct (stage_ok dt 3 _ _ HR ltac:(lia) B3) as (k4 & Q4 & B4). rewrite Q4. cbn [bind].
  set (s4 := rk4_stage rhs dt _ 3) in *. clearbody s4. destruct B4 as (C0' & C1' & C2' & C3' & C4').
  destruct (loop4_ok _ _ _ _ C0' C2') as (U & E4 & H4). rewrite E4. cbn [bind].
  eexists. split; [reflexivity|]. cbn [fst]. repeat split; cbn; first [apply H4 | apply C1' | apply C2' | apply C3' | exact C4'].
Qed.

Theorem ForwardEuler_kernel_agrees dt k s : same_rhs -> agree k s ->
  exists k', k_ForwardEuler RHS dt k = Some (k', dt, dt) /\ agree k' (fst (fst (ForwardEuler rhs dt s))).
Proof.
  intros HR (A0 & A1 & A2 & A3 & A4). unfold k_ForwardEuler, ForwardEuler.
  destruct (HR (kctx k) (kdU k) (s_rhs s) (kU k) (s_u0 s) A3 A0) as (R1 & R2). rewrite A4 in R1, R2 |- *.
  destruct (RHS (s_ctx s) (kdU k) (kU k)) as [dU c1]. destruct (rhs (s_ctx s) (s_rhs s) (s_u0 s)) as [dv c2].
  cbn [fst snd] in *. subst c2.
  destruct (loop5_ok dU (kU k) dv (s_u0 s) dt R1 A0) as (U & E & H). rewrite E. cbn [bind].
  eexists. split; [reflexivity|]. repeat split; cbn; first [apply H | apply A1 | apply A2 | apply R1].
Qed.

(** numba, pythran and the 3D cython AB2 (test tstep == 0) *)
Theorem AB2_kernel_agrees dt tstep k s : same_rhs -> agree k s ->
  exists k', k_AB2 RHS 0 dt tstep k = Some (k', dt, dt) /\ agree k' (fst (fst (AB2 rhs dt tstep s))).
Proof.
  intros HR (A0 & A1 & A2 & A3 & A4). unfold k_AB2, AB2.
  destruct (HR (kctx k) (kdU k) (s_rhs s) (kU k) (s_u0 s) A3 A0) as (R1 & R2). rewrite A4 in R1, R2 |- *.
  destruct (RHS (s_ctx s) (kdU k) (kU k)) as [dU c1]. destruct (rhs (s_ctx s) (s_rhs s) (s_u0 s)) as [dv c2].
  cbn [fst snd] in *. subst c2.
  destruct (loop7_ok dU (kU0 k) dv (s_u1 s) dt R1 A1) as (U0 & E0 & H0).
  destruct (tstep =? 0)%nat.
  - destruct (loop5_ok dU (kU k) dv (s_u0 s) dt R1 A0) as (U & E & H). rewrite E. cbn [bind]. rewrite E0. cbn [bind].
    eexists. split; [reflexivity|]. repeat split; cbn; first [apply H | apply H0 | apply A2 | apply R1].
  - destruct (loop6_ok dU (kU k) (kU0 k) dv (s_u0 s) (s_u1 s) dt R1 A0 A1) as (U & E & H). rewrite E. cbn [bind]. rewrite E0. cbn [bind].
    eexists. split; [reflexivity|]. repeat split; cbn; first [apply H | apply H0 | apply A2 | apply R1].
Qed.

(** any number of steps *)
Definition run_k (kstep : nat -> kst (ctx := ctx) -> option (kst (ctx := ctx) * R * R)) (n : nat) (k : kst) : option kst :=
  for_ n (fun t k => r <- kstep t k ;; Some (fst (fst r))) k.
Definition run_s (sstep : nat -> istate nat (list nat) ctx -> istate nat (list nat) ctx * R * R) (n : nat) (s : istate nat (list nat) ctx) :=
  fold_left (fun s t => fst (fst (sstep t s))) (seq 0 n) s.
Theorem kernel_runs_agree dt n k s : same_rhs -> agree k s ->
  (exists k', run_k (fun _ => k_RK4 RHS rk4_a rk4_b dt) n k = Some k' /\ agree k' (run_s (fun _ => RK4 rhs dt) n s)) /\
  (exists k', run_k (fun _ => k_ForwardEuler RHS dt) n k = Some k' /\ agree k' (run_s (fun _ => ForwardEuler rhs dt) n s)) /\
  (exists k', run_k (k_AB2 RHS 0 dt) n k = Some k' /\ agree k' (run_s (AB2 rhs dt) n s)).
Proof.
  intros HR A.
  assert (G : forall kstep sstep,
    (forall t k s, agree k s -> exists k', kstep t k = Some (k', dt, dt) /\ agree k' (fst (fst (sstep t s)))) ->
    exists k', run_k kstep n k = Some k' /\ agree k' (run_s sstep n s)).
  { intros kstep sstep H. unfold run_k, run_s, for_. induction n as [|m (k' & E & B)].
    - exists k. auto.
    - rewrite !seq_S, !fold_left_app. cbn [fold_left plus]. rewrite E. cbn [bind].
      destruct (H m k' _ B) as (k2 & E2 & B2). rewrite E2. cbn [bind fst]. exists k2. auto. }
  repeat split.
  - apply G. intros t k1 s1 A1. apply RK4_kernel_agrees; assumption.
  - apply G. intros t k1 s1 A1. apply ForwardEuler_kernel_agrees; assumption.
  - apply G. intros t k1 s1 A1. apply AB2_kernel_agrees; assumption.
Qed.
End Agree.

(** ** cython AB2_2D tests tstep == 1 *)
Definition one_arr (z : C) : arr C := mkArr [1; 1; 1]%nat (fun _ => z).
Definition one_fld (z : C) : svec nat (list nat) := fun _ _ => z.
(** right hand side f(u) = u on a single mode *)
Definition RHSid (c : unit) (r u : arr C) : arr C * unit := (mkArr (shape u) (data u), c).
Definition rhsid (c : unit) (r u : svec nat (list nat)) : svec nat (list nat) * unit := (u, c).
Lemma same_rhs_id : same_rhs 1 [1; 1]%nat RHSid rhsid.
Proof. intros c r rv u uv Hr Hu. split; [exact Hu | reflexivity]. Qed.

Definition k0 : kst (ctx := unit) := mkKst (one_arr C1) (one_arr C1) (one_arr C1) (one_arr C0) tt.
Definition s0 : istate nat (list nat) unit := init_istate (one_fld C1) (one_fld C0) tt.
Lemma agree0 : agree 1 [1; 1]%nat k0 s0.
Proof. repeat split. Qed.

Lemma ab2_2d_case dt t k' (z z0 z1 : C) :
  k_AB2 RHSid 1 dt t (mkKst (one_arr z) (one_arr z0) (one_arr z1) (one_arr C0) tt) = Some (k', dt, dt) ->
  data (kU k') [0; 0; 0]%nat =
    if (t =? 1)%nat then (z + z * RtoC dt)%C else (z + RtoC 1.5 * z * RtoC dt - RtoC 0.5 * z0)%C.
Proof.
  unfold k_AB2. cbn [RHSid kctx kdU kU].
  destruct (t =? 1)%nat; intros H; injection H as <-; reflexivity.
Qed.

(** At the first step (tstep = 0) cython's AB2_2D does an Adams-Bashforth step in which the
    initial copy of the solution (getintegrator, integrators.py:181) plays the role of the
    previous dt*rhs: u' = u with u = 1 and dt = 2 gives 7/2 instead of 3. *)
Theorem AB2_2D_first_step_refuted :
  ~ (forall d sh (ctx : Type) (RHS : ctx -> arr C -> arr C -> arr C * ctx) rhs dt k u r c,
      same_rhs d sh RHS rhs -> agree d sh k (init_istate u r c) ->
      exists k', k_AB2 RHS 1 dt 0 k = Some (k', dt, dt) /\ agree d sh k' (fst (fst (AB2 rhs dt 0 (init_istate u r c))))).
Proof.
  intros H.
  destruct (H _ _ _ RHSid rhsid 2 _ _ _ _ same_rhs_id agree0) as (k' & E & ((_ & G) & _)).
  apply ab2_2d_case in E. simpl in E. specialize (G 0%nat [0; 0]%nat eq_refl). rewrite E in G.
  apply (f_equal fst) in G. simpl in G. lra.
Qed.
(** The step with tstep = 1 is a forward Euler step although the history exists. *)
Theorem AB2_2D_second_step_refuted :
  ~ (forall d sh (ctx : Type) (RHS : ctx -> arr C -> arr C -> arr C * ctx) rhs dt k s,
      same_rhs d sh RHS rhs -> agree d sh k s ->
      exists k', k_AB2 RHS 1 dt 1 k = Some (k', dt, dt) /\ agree d sh k' (fst (fst (AB2 rhs dt 1 s)))).
Proof.
  intros H.
  assert (A1 : agree 1 [1; 1]%nat (mkKst (one_arr C1) (one_arr C0) (one_arr C1) (one_arr C0) tt)
     (mkIstate (one_fld C1) (one_fld C0) (one_fld C1) (one_fld C0) (fun _ => one_fld C0) 0%Z tt)) by (repeat split).
  destruct (H _ _ _ RHSid rhsid 1 _ _ same_rhs_id A1) as (k' & E & ((_ & G) & _)).
  apply ab2_2d_case in E. simpl in E. specialize (G 0%nat [0; 0]%nat eq_refl). rewrite E in G.
  apply (f_equal fst) in G. simpl in G. lra.
Qed.
(** From the third step on the two agree. *)
Theorem AB2_2D_kernel_agrees_later d sh (ctx : Type) RHS rhs dt tstep (k : kst (ctx := ctx)) s :
  same_rhs d sh RHS rhs -> agree d sh k s -> (2 <= tstep)%nat ->
  exists k', k_AB2 RHS 1 dt tstep k = Some (k', dt, dt) /\ agree d sh k' (fst (fst (AB2 rhs dt tstep s))).
Proof.
  intros HR A Ht. destruct (AB2_kernel_agrees d sh RHS rhs dt tstep k s HR A) as (k' & E & B).
  exists k'. split; [|exact B]. rewrite <- E. unfold k_AB2.
  replace (tstep =? 1)%nat with false by (symmetry; apply Nat.eqb_neq; lia).
  replace (tstep =? 0)%nat with false by (symmetry; apply Nat.eqb_neq; lia). reflexivity.
Qed.

(** hypotheses are met; three Euler steps of u' = u *)
Example kernel_runs_case :
  exists k', run_k (fun _ => k_ForwardEuler RHSid 1) 3 k0 = Some k' /\ data (kU k') [0; 0; 0]%nat = RtoC 8.
Proof.
  destruct (kernel_runs_agree 1 [1; 1]%nat RHSid rhsid 1 3 k0 s0 same_rhs_id agree0) as (_ & (k' & E & ((_ & H) & _)) & _).
  exists k'. split; [exact E|]. rewrite (H 0%nat [0; 0]%nat eq_refl).
  apply C_eq; simpl; ring.
Qed.

Print Assumptions RK4_kernel_agrees.
Print Assumptions ForwardEuler_kernel_agrees.
Print Assumptions AB2_kernel_agrees.
Print Assumptions kernel_runs_agree.
Print Assumptions AB2_2D_second_step_refuted.
Print Assumptions AB2_2D_kernel_agrees_later.
Print Assumptions AB2_2D_first_step_refuted.
