(** Properties of the time integrators (spectralDNS/maths/integrators.py). *)
From Coq Require Import Reals Lra Lia List QArith Qreals FunctionalExtensionality.
From Verif Require Import Base.Cplx Base.Sums Base.Fin Spec.Env Spec.Calls Spec.RungeKutta Spec.Trees Model.Maths Model.Integrators Model.BS5
  Model.Integrate Model.Solve Model.Run Proofs.SolveProofs Proofs.RunProofs Proofs.LoopProofs Proofs.FsalProofs Proofs.IntegratorProofs
  Proofs.TreeProofs Proofs.TimeIntProofs Props.Demo.
Import ListNotations.
Open Scope R_scope.

Section Props.
Context {D I : Type}.
Notation V := (svec D I).

(** ** C19 RK4 *)
Theorem C19_RK4_step {ctx} (ComputeRHS : ctx -> V -> V -> V * ctx) f dt st : computes ComputeRHS f ->
  s_u0 (fst (fst (RK4 ComputeRHS dt st))) = rk4 f dt (s_u0 st) /\
  snd (fst (RK4 ComputeRHS dt st)) = dt /\ snd (RK4 ComputeRHS dt st) = dt.
Proof. intros Hf. split; [apply RK4_is_rk4, Hf|apply RK4_dt]. Qed.
(** the calls of ComputeRHS: exactly four, in this order *)
Theorem C19_RK4_calls (f : V -> V) dt (st : istate D I (list V)) : let u := s_u0 st in
  s_ctx (fst (fst (RK4 (logging f) dt st))) =
  s_ctx st ++ [u; plus u (dt/2) (rk4_k1 f u); plus u (dt/2) (rk4_k2 f dt u); plus u dt (rk4_k3 f dt u)].
Proof. apply RK4_calls. Qed.
(** it is the tableau method RK4_A, RK4_w, which has order 4 (and not 5); on linear right hand sides
    the step is the Taylor polynomial of degree 4 of exp(dt f) *)
Theorem C19_RK4_order : (forall (f : V -> V) dt u, rk_step f rk4_At rk4_bt 4 dt u = rk4 f dt u) /\
  has_order RK4_A RK4_w 4 /\ ~ has_order RK4_A RK4_w 5.
Proof. split; [intros; apply rk4_tableau|]. split; [exact RK4_order4|exact RK4_not5]. Qed.
Theorem C19_RK4_linear (f : V -> V) dt u i k : linear_map f ->
  rk4 f dt u i k = (u i k + RtoC dt * f u i k + RtoC (dt^2/2) * f (f u) i k
    + RtoC (dt^3/6) * f (f (f u)) i k + RtoC (dt^4/24) * f (f (f (f u))) i k)%C.
Proof. intros H. apply rk4_taylor, H. Qed.

(** ** C20 ForwardEuler and AB2 *)
Theorem C20_ForwardEuler {ctx} (ComputeRHS : ctx -> V -> V -> V * ctx) f dt st : computes ComputeRHS f ->
  s_u0 (fst (fst (ForwardEuler ComputeRHS dt st))) = euler f dt (s_u0 st) /\
  snd (fst (ForwardEuler ComputeRHS dt st)) = dt /\ snd (ForwardEuler ComputeRHS dt st) = dt.
Proof.
  intros Hf. split; [apply FE_is_euler, Hf|]. unfold ForwardEuler. destruct (ComputeRHS _ _ _). split; reflexivity.
Qed.
(** n calls of the AB2 closure from tstep = 0 with constant dt *)
Theorem C20_AB2 {ctx} (ComputeRHS : ctx -> V -> V -> V * ctx) f est fuel dt n (st : istate D I ctx) : computes ComputeRHS f ->
  exists st', calls ComputeRHS est fuel IAB2 (repeat dt n) 0 st = Some st' /\ s_u0 st' = ab2 f dt (s_u0 st) n.
Proof.
  intros Hf. destruct (AB2_calls_total ComputeRHS est fuel (repeat dt n) 0 st) as [st' H].
  exists st'. split; [exact H|]. eapply AB2_calls_const; eassumption.
Qed.
Theorem C20_AB2_recurrence (f : V -> V) dt u0 : ab2 f dt u0 0 = u0 /\ ab2 f dt u0 1 = euler f dt u0 /\
  (forall n i k, ab2 f dt u0 (S (S n)) i k =
    (ab2 f dt u0 (S n) i k + RtoC (3/2 * dt) * f (ab2 f dt u0 (S n)) i k - RtoC (1/2 * dt) * f (ab2 f dt u0 n) i k)%C) /\
  (forall n i k, ab2 f dt u0 (S n) i k =
    (u0 i k + RtoC dt * Csum (S n) (fun m => f (ab2 f dt u0 m) i k)
     + RtoC (dt / 2) * (f (ab2 f dt u0 n) i k - f u0 i k))%C).
Proof. split; [reflexivity|]. split; [reflexivity|]. split; [intros; apply ab2_rec|intros; apply ab2_sum]. Qed.
(** calls with varying dt: the previous increment keeps the previous dt *)
Theorem C20_AB2_varying {ctx} (ComputeRHS : ctx -> V -> V -> V * ctx) f est fuel dt dts (st st' : istate D I ctx) : computes ComputeRHS f ->
  calls ComputeRHS est fuel IAB2 (dt :: dts) 0 st = Some st' ->
  s_u0 st' = ab2_next f dts (euler f dt (s_u0 st)) (fun i k => (RtoC dt * f (s_u0 st) i k)%C).
Proof. intros Hf. apply AB2_calls_0, Hf. Qed.

(** ** C55: AB2 does not integrate even u' = c exactly when dt changes: two steps of sizes dt, dt' *)
Theorem C55_AB2_changed_dt {ctx} (ComputeRHS : ctx -> V -> V -> V * ctx) (c : V) est fuel dt dt' (st st' : istate D I ctx) :
  computes ComputeRHS (fun _ => c) -> calls ComputeRHS est fuel IAB2 [dt; dt'] 0 st = Some st' ->
  forall i k, s_u0 st' i k = (s_u0 st i k + RtoC (dt + dt') * c i k + RtoC ((dt' - dt) / 2) * c i k)%C.
Proof.
  intros Hf H i k. rewrite (AB2_calls_0 ComputeRHS (fun _ => c) Hf _ _ _ _ _ _ H). cbn [ab2_next]. unfold euler, plus.
  generalize (s_u0 st i k) (c i k). intros a b.
  apply C_eq; unfold RtoC, Cmul, Csub, Cadd, Copp, Ci, C1, C0; cbn [fst snd]; field.
Qed.
End Props.

(** and solve() does change dt for its last step: u' = 1, u(0) = 0, dt = 1, T = 3/2 ends with u = 5/4 *)
Section C55.
Let V := svec unit unit.
Let rhs (c : unit) (r u : V) : V * unit := (fun _ _ => C1, tt).
Let z : V := fun _ _ => C0.
Let s : lstate (world unit unit unit unit) := mkL 0 1 0 (mkWorld (init_istate z z tt) tt) false [].
Theorem C55_AB2_last_step_refuted : exists s',
  run_solve rhs est0 upd0 out0 (fun x => x) (3/2) 1 IAB2 3 s = Some (Returned s') /\ l_t s' = 3/2 /\
  solution (l_w s') = (fun _ _ => RtoC (5/4)).
Proof.
  pose proof eps12_pos as He. assert (He1 : eps12 < /10) by (unfold eps12; apply Rinv_lt_contravar; lra).
  assert (I1 : exists st log, run_iter rhs est0 upd0 out0 (fun x => x) (3/2) 1 IAB2 s
                 = Cont (mkL 1 (1/2) 1 (mkWorld st tt) true log)
               /\ s_u0 st = (fun _ _ => RtoC 1) /\ s_u1 st = (fun _ _ => RtoC 1)).
  { unfold run_iter, iter. cbn [s l_t l_dt l_tstep l_w].
    destruct (Rle_dec (0 + 1) (3/2 + eps12)) as [_|N]; [|exfalso; lra].
    unfold run_integrate, integrate, AB2. cbn [w_st rhs Nat.eqb].
    unfold run_update, upd0, run_output, out0. cbn [w_st w_env s_u0 s_u1 s_u2 s_rhs s_fY s_off s_ctx init_istate].
    unfold end_of_tstep_NS.
    destruct (Rlt_dec (Rabs (0 + 1 - 3 / 2)) eps12) as [N|_].
    { exfalso. rewrite Rabs_left in N; lra. }
    destruct (Rlt_dec (Rabs (0 + 1 + 1 - 3 / 2)) eps12) as [N|_].
    { exfalso. rewrite Rabs_right in N; lra. }
    destruct (Rle_dec (3/2 + eps12) (0 + 1 + 1)) as [_|N]; [|exfalso; lra].
    eexists _, _. split; [f_equal; f_equal; lra|]. cbn [s_u0 s_u1].
    split; extensionality i; extensionality k; unfold axpy, vscal, z;
      apply C_eq; unfold RtoC, Cmul, Cadd, C1, C0; cbn [fst snd]; ring. }
  destruct I1 as (st & log & I1 & U0 & U1).
  assert (I2 : exists st' log' d, run_iter rhs est0 upd0 out0 (fun x => x) (3/2) 1 IAB2
                   (mkL 1 (1/2) 1 (mkWorld st tt) true log)
                 = Break (mkL (3/2) d 2 (mkWorld st' tt) true log')
               /\ s_u0 st' = (fun _ _ => RtoC (5/4))).
  { unfold run_iter, iter. cbn [l_t l_dt l_tstep l_w].
    destruct (Rle_dec (1 + 1/2) (3/2 + eps12)) as [_|N]; [|exfalso; lra].
    unfold run_integrate, integrate, AB2. cbn [w_st rhs Nat.eqb].
    unfold run_update, upd0, run_output, out0. cbn [w_st w_env s_u0 s_u1 s_u2 s_rhs s_fY s_off s_ctx].
    unfold end_of_tstep_NS.
    destruct (Rlt_dec (Rabs (1 + 1/2 - 3 / 2)) eps12) as [_|N].
    2: { exfalso. apply N. replace (1 + 1/2 - 3 / 2) with 0 by lra. rewrite Rabs_R0. exact He. }
    eexists _, _, _. split; [f_equal; f_equal; lra|]. cbn [s_u0]. rewrite U0, U1.
    extensionality i; extensionality k.
    apply C_eq; unfold RtoC, Cmul, Csub, Copp, Cadd, C1; cbn [fst snd]; lra. }
  destruct I2 as (st' & log' & d & I2 & V0).
  unfold run_solve, solve. cbn [loop]. unfold run_iter in I1, I2. rewrite I1, I2.
  unfold finish. cbn [l_open l_t l_tstep l_w l_log l_dt]. eexists. split; [reflexivity|].
  cbn [l_t l_w]. split; [reflexivity|]. exact V0.
Qed.
End C55.

(** ** C21 the BS5 coefficients *)
Theorem C21_BS5_order : has_order BS5_A BS5_b 5 /\ has_order BS5_A BS5_bhat 4 /\
  ~ has_order BS5_A BS5_b 6 /\ ~ has_order BS5_A BS5_bhat 5.
Proof. split; [exact BS5_order5|]. split; [exact BS5_hat_order4|]. split; [exact BS5_not6|exact BS5_hat_not5]. Qed.
Theorem C21_BS5_shape :
  (forall i j, (i <= j)%nat -> (j < 8)%nat -> entry BS5_A i j == 0)%Q /\
  nth 7 BS5_A [] = BS5_b /\ (nth 7 BS5_b 1 == 0)%Q /\
  Forall2 Qeq (map (fun row => dot row [1;1;1;1;1;1;1;1]%Q) BS5_A) [0; 1#6; 2#9; 3#7; 2#3; 3#4; 1; 1]%Q.
Proof.
  split; [exact bs5_lower|]. split; [reflexivity|]. split; [reflexivity|].
  repeat constructor; vm_compute; reflexivity.
Qed.

Section Adaptive.
Context {D I ctx : Type}.
Notation V := (svec D I).
Context (ComputeRHS : ctx -> V -> V -> V * ctx) (f : V -> V) (est : V -> V -> V -> R).
Notation step := (rk_step f bs5_A bs5_b bs5_s).
Notation estimate h u := (est u (step h u) (rk_error f bs5_A bs5_b bs5_bhat bs5_s h u)).

(** ** C22, C23: a call of the BS5 closure after any history of calls since tstep = 0 *)
Theorem C22_C23_BS5_call fuel fuel' ad dts dt u r c (st st' : istate D I ctx) dt' took :
  computes ComputeRHS f -> (forall u v w, 0 <= est u v w) -> 0 < dt ->
  calls ComputeRHS est fuel (IBS5 ad) dts 0 (init_istate u r c) = Some st ->
  integrate ComputeRHS est fuel' (IBS5 ad) dt (length dts) st = Some (st', dt', took) ->
  s_u0 st' = step took (s_u0 st) /\
  (ad = false -> took = dt /\ dt' = dt) /\
  (ad = true -> estimate took (s_u0 st) <= 1 /\ 0 < took <= dt /\ 0.8 * took <= dt' <= 2 * took /\
     (took <> dt -> took <= 0.8 * dt /\ dt' <= took)).
Proof.
  intros Hf He Hd Hc Hi.
  assert (Hr : length dts <> 0%nat -> fsal_ready f bs5_s st).
  { intros Hn. eapply (calls_ready ComputeRHS f Hf est fuel ad dts 0); [|exact Hc|exact Hn]. intros H; contradiction. }
  destruct (loop_spec ComputeRHS f Hf bs5_A bs5_b bs5_bhat bs5_s ltac:(unfold bs5_s; lia) est bs5_fsal He fuel' ad (length dts)
    dt facmax_default st st' dt' took Hd ltac:(unfold facmax_default; lra) Hr Hi) as (H1 & H2 & H3 & H4).
  split; [exact H1|]. split; [exact H3|]. unfold facmax_default, fac, step_est in H4. exact H4.
Qed.
(** one attempt from any state: accepted iff the estimate is at most 1; the proposed dt lies between
    0.01 and facmax times the attempted one, at most 0.8 times it when rejected; a rejected attempt
    leaves the solution unchanged and caps the growth of the next proposal at 1 *)
Theorem C22_attempt fsal ts dt fm (st : istate D I ctx) : 0 < dt -> 0.01 <= fm -> (forall u v w, 0 <= est u v w) ->
  match attempt ComputeRHS bs5_A bs5_b bs5_bhat bs5_s est fsal true ts dt fm st with
  | Retry st' dt' fm' => (exists e, 1 < e /\ exists new err, e = est (s_u0 st') new err) /\ 0.01 * dt <= dt' <= 0.8 * dt /\ fm' = 1
  | Accept st' dt' took => (exists err, est (s_u0 st') (s_u1 st') err <= 1) /\ took = dt /\ 0.01 * dt <= dt' <= fm * dt
  end.
Proof.
  intros Hd Hfm He. unfold attempt. set (s1 := rk_stages_loop _ _ _ _ _ _ _). cbn [s_u0 s_u1 s_u2 s_off s_fY s_rhs s_ctx].
  set (e := est _ _ _). assert (H0 : 0 <= e) by apply He.
  pose proof (factor_bounds fm e H0 Hfm) as Hb. unfold facmin in Hb.
  destruct (Rlt_dec 1 e) as [H|H].
  - pose proof (factor_reject fm e H) as Hr. unfold fac in Hr. cbn [s_u0]. split; [exists e; split; [exact H|eexists _, _; reflexivity]|].
    split; [|reflexivity]. split; nra.
  - cbn [s_u0 s_u1]. split; [eexists; apply Rnot_lt_le; exact H|]. split; [reflexivity|]. split; nra.
Qed.
(** ** C23 over complete runs started with tstep = 0 *)
Theorem C23_run {E} upd (out : R -> nat -> V -> ctx * E -> _) rnd T fuel g s0 n s s' :
  computes ComputeRHS f -> update_readonly upd -> l_tstep s0 = 0%nat ->
  run_reach ComputeRHS est upd out rnd T fuel g s0 n s -> run_stepped ComputeRHS est upd out rnd T fuel g s s' ->
  match g with
  | IRK4 => solution (l_w s') = rk4 f (l_dt s) (solution (l_w s)) /\ l_t s' = rnd (l_t s + l_dt s)
  | IForwardEuler => solution (l_w s') = euler f (l_dt s) (solution (l_w s)) /\ l_t s' = rnd (l_t s + l_dt s)
  | IAB2 => (l_tstep s = 0%nat -> solution (l_w s') = euler f (l_dt s) (solution (l_w s))) /\
            l_t s' = rnd (l_t s + l_dt s)
  | IBS5 ad => exists took, solution (l_w s') = step took (solution (l_w s)) /\
               l_t s' = rnd (l_t s + took) /\ (ad = false -> took = l_dt s)
  end.
Proof. intros Hf Hu H0 H1 H2. apply (run_textbook ComputeRHS est upd out f Hf Hu rnd T fuel g s0 n s s' H0 H1 H2). Qed.

(** ** C24 the retry loop ends after at most n rejections when dt*0.8^n <= delta *)
Theorem C24_terminates fuel ad dts dt u r c (st : istate D I ctx) delta n :
  computes ComputeRHS f -> (forall u v w, 0 <= est u v w) -> 0 < dt ->
  calls ComputeRHS est fuel (IBS5 ad) dts 0 (init_istate u r c) = Some st ->
  (forall h, 0 < h <= delta -> estimate h (s_u0 st) <= 1) -> dt * 0.8 ^ n <= delta ->
  exists res, integrate ComputeRHS est (S n) (IBS5 ad) dt (length dts) st = Some res.
Proof.
  intros Hf He Hd Hc Hs Hn.
  assert (Hr : length dts <> 0%nat -> fsal_ready f bs5_s st).
  { intros H. eapply (calls_ready ComputeRHS f Hf est fuel ad dts 0); [|exact Hc|exact H]. intros H'; contradiction. }
  apply (loop_terminates ComputeRHS f Hf bs5_A bs5_b bs5_bhat bs5_s ltac:(unfold bs5_s; lia) est bs5_fsal He ad (length dts) delta); auto.
  unfold facmin, facmax_default. lra.
Qed.

(** ** C26 linear invariants of complete runs *)
Theorem C26_linear_invariants {E} upd (out : R -> nat -> V -> ctx * E -> _) (P : V -> Prop) rnd T fuel g s0 s u0 :
  subspace P -> (forall c r u, P u -> P (fst (ComputeRHS c r u))) -> update_keeps upd P ->
  at_start s0 u0 -> P u0 -> observed ComputeRHS est upd out rnd T fuel g s0 s -> P (solution (l_w s)).
Proof. intros HP HR HU. apply (run_inv_start ComputeRHS est upd out P HP HR HU). Qed.
End Adaptive.

(** ** C22 what the estimate measures, on one rank: it is at most 1 exactly if in every component the
    errors, each relative to aTOL + rTOL max(|u0|, |u0_new|), have a mean square of at most 1 per mesh point *)
Section Estimate.
Context {D I : Type} (F : fin D) (modes : list I) (size aTOL rTOL : R).
Notation V := (svec D I).
Definition within (u new err : V) : Prop := forall i,
  RsumL modes (fun k => (Cabs (err i k) / (aTOL + rTOL * Rmax (Cabs (u i k)) (Cabs (new i k)))) ^ 2) <= size.
Theorem C22_estimate u new err : 0 < size ->
  0 <= est2 F modes size aTOL rTOL u new err /\ (est2 F modes size aTOL rTOL u new err <= 1 <-> within u new err).
Proof.
  intros Hs. unfold est2. pose proof (sqrt_lt_R0 _ Hs) as Hq.
  set (n := fun i => nsquared modes (sc_of aTOL rTOL u new) err i).
  assert (Hn : forall i, n i = RsumL modes (fun k => (Cabs (err i k) / (aTOL + rTOL * Rmax (Cabs (u i k)) (Cabs (new i k)))) ^ 2)).
  { intros i. apply RsumL_ext. intros k _. unfold Rsqr, sc_of. rewrite (Rmult_comm rTOL). ring. }
  assert (H0 : forall i, 0 <= n i).
  { intros i. rewrite Hn. apply RsumL_nonneg. intros k _. apply pow2_ge_0. }
  assert (G : forall l, 0 <= fold_right Rmax 0 (map (fun i => sqrt (n i)) l) /\
    forall b, 0 <= b -> (fold_right Rmax 0 (map (fun i => sqrt (n i)) l) <= b <-> forall i, In i l -> sqrt (n i) <= b)).
  { induction l as [|a l [I1 I2]]; cbn [map fold_right].
    - split; [lra|]. intros b Hb. split; [intros _ i []|intros _; exact Hb].
    - split; [eapply Rle_trans; [exact I1|apply Rmax_r]|]. intros b Hb. split.
      + intros H i [<-|Hi]; [eapply Rle_trans; [apply Rmax_l|exact H]|]. apply (I2 b Hb); [|exact Hi]. eapply Rle_trans; [apply Rmax_r|exact H].
      + intros H. apply Rmax_lub; [apply H; left; reflexivity|]. apply (I2 b Hb). intros i Hi. apply H. right. exact Hi. }
  destruct (G (elems F)) as [G1 G2]. fold n. split.
  - apply Rmult_le_pos; [exact G1|]. left. apply Rinv_0_lt_compat. exact Hq.
  - transitivity (fold_right Rmax 0 (map (fun i => sqrt (n i)) (elems F)) <= sqrt size).
    + split; intros H.
      * apply (Rmult_le_compat_r (sqrt size)) in H; [|lra]. unfold Rdiv in H. rewrite Rmult_assoc, Rinv_l, Rmult_1_r, Rmult_1_l in H by lra. exact H.
      * apply (Rmult_le_reg_r (sqrt size)); [exact Hq|]. unfold Rdiv. rewrite Rmult_assoc, Rinv_l, Rmult_1_r, Rmult_1_l by lra. exact H.
    + rewrite (G2 (sqrt size)) by lra. unfold within. split.
      * intros H i. rewrite <- Hn. apply sqrt_le_0; [apply H0|lra|]. apply H, (elems_all _ F).
      * intros H i _. apply sqrt_le_1_alt. rewrite Hn. apply H.
Qed.
(** so a call of adaptive BS5 only returns a step that meets the tolerance *)
Theorem C22_tolerance {ctx} (ComputeRHS : ctx -> V -> V -> V * ctx) f fuel fuel' dts dt u r c st st' dt' took :
  let est := est2 F modes size aTOL rTOL in
  0 < size -> computes ComputeRHS f -> 0 < dt ->
  calls ComputeRHS est fuel (IBS5 true) dts 0 (init_istate u r c) = Some st ->
  integrate ComputeRHS est fuel' (IBS5 true) dt (length dts) st = Some (st', dt', took) ->
  s_u0 st' = rk_step f bs5_A bs5_b bs5_s took (s_u0 st) /\ 0 < took <= dt /\
  within (s_u0 st) (s_u0 st') (rk_error f bs5_A bs5_b bs5_bhat bs5_s took (s_u0 st)).
Proof.
  intros est Hs Hf Hd Hc Hi.
  destruct (C22_C23_BS5_call ComputeRHS f est fuel fuel' true dts dt u r c st st' dt' took Hf
    (fun u v w => proj1 (C22_estimate u v w Hs)) Hd Hc Hi) as (H1 & _ & H2).
  destruct (H2 eq_refl) as (H3 & H4 & _). split; [exact H1|]. split; [exact H4|].
  rewrite H1. apply C22_estimate; assumption.
Qed.
End Estimate.

(** C23 fails for a closure created with tstep > 0 (restart, or a second solve() in one process):
    u' = 1, one BS5 step of size 1 gives 7477/8064 instead of 1 *)
Theorem C23_restart_refuted : exists (rhs : unit -> svec unit unit -> svec unit unit -> svec unit unit * unit) f u st',
  computes rhs f /\ integrate rhs est0 1 (IBS5 false) 1 1 (init_istate u u tt) = Some (st', 1, 1) /\
  s_u0 st' <> rk_step f bs5_A bs5_b bs5_s 1 u.
Proof.
  destruct (bs5_stale (ctx := unit) (fun (_ _ : unit) => C1) est0 0 1 (fun _ _ => C0) (fun _ _ => C0) tt) as (st' & H1 & H2).
  eexists _, (fun _ _ _ => C1), (fun _ _ => C0), st'. split; [|split; [exact H1|]].
  - intros c r u. reflexivity.
  - intros E. apply (f_equal (fun v => v tt tt)) in E. rewrite H2 in E. unfold rk_step, combo in E.
    assert (Hk : forall j, rk_k (fun (_ : svec unit unit) (_ _ : unit) => C1) bs5_A 1 (fun _ _ => C0) j = fun _ _ => C1)
      by (intros j; rewrite rk_k_eq; reflexivity).
    unfold bs5_s in E. cbn [Csum] in E. rewrite !Hk in E.
    assert (B : bs5_b 0 + bs5_b 1 + bs5_b 2 + bs5_b 3 + bs5_b 4 + bs5_b 5 + bs5_b 6 + bs5_b 7 = 1).
    { unfold bs5_b. rewrite <- !Q2R_plus. rewrite <- RMicromega.Q2R_1. apply Qeq_eqR. vm_compute. reflexivity. }
    apply (f_equal fst) in E. unfold RtoC, Cmul, Csub, Cadd, Copp, Ci, C1, C0 in E. cbn [fst snd] in E. lra.
Qed.

(** ** The hypotheses are met *)
(** u' = 2u on one mode *)
Section Ex.
Let V := svec unit unit.
Let f (u : V) : V := fun i k => (RtoC 2 * u i k)%C.
Let rhs (c : unit) (r u : V) : V * unit := (f u, tt).
Example C19_nonvacuous : computes rhs f /\ linear_map f /\ rk4 f 1 (fun _ _ => C1) tt tt = RtoC 7.
Proof.
  split; [intros c r u; reflexivity|]. assert (Hl : linear_map f).
  { intros u c v. extensionality i; extensionality k. unfold f, plus. ring. }
  split; [exact Hl|]. rewrite rk4_taylor by exact Hl. unfold f.
  apply C_eq; unfold RtoC, Cmul, Csub, Cadd, Copp, Ci, C1, C0; cbn [fst snd]; field.
Qed.
Example C20_nonvacuous : ab2 f 1 (fun _ _ => C1) 3 tt tt = RtoC 41.
Proof.
  assert (S : forall n a b, ab2_seq f 1 (fun _ _ => C1) n = (fun _ _ => RtoC a, fun _ _ => RtoC b) ->
    ab2_seq f 1 (fun _ _ => C1) (S n) = (fun _ _ => RtoC b, fun _ _ => RtoC (4 * b - a))).
  { intros n a b E. cbn [ab2_seq]. rewrite E. f_equal. extensionality i; extensionality k.
    unfold plus, f. apply C_eq; unfold RtoC, Cmul, Csub, Cadd, Copp; cbn [fst snd]; field. }
  assert (E0 : ab2_seq f 1 (fun _ _ => C1) 0 = (fun _ _ => RtoC 1, fun _ _ => RtoC 3)).
  { cbn [ab2_seq]. f_equal; extensionality i; extensionality k. unfold euler, plus, f.
    apply C_eq; unfold RtoC, Cmul, Cadd, C1; cbn [fst snd]; field. }
  apply S in E0. apply S in E0. apply S in E0. unfold ab2. rewrite E0. cbn [fst].
  f_equal. lra.
Qed.
Example C22_nonvacuous : exists st st' dt' took,
  calls rhs est0 1 (IBS5 true) [1] 0 (init_istate (fun _ _ => C1) (fun _ _ => C0) tt) = Some st /\
  integrate rhs est0 1 (IBS5 true) (/2) (length [1]) st = Some (st', dt', took) /\ dt' = /2 * 2.
Proof.
  assert (G : forall dt n st, exists st', integrate rhs est0 1 (IBS5 true) dt n st = Some (st', dt * 2, dt)).
  { intros dt n st. cbn [integrate]. unfold adaptiveRK. cbn [adaptive_loop]. unfold attempt, est0, factor.
    destruct (Rlt_dec 1 0) as [N|_]; [exfalso; lra|]. destruct (Req_EM_T 0 0) as [_|N]; [|contradiction].
    eexists. reflexivity. }
  destruct (G 1 0%nat (init_istate (fun _ _ => C1) (fun _ _ => C0) tt)) as (st & Hst).
  destruct (G (/2) 1%nat st) as (st' & Hst').
  exists st, st', (/2 * 2), (/2). cbn [calls length]. rewrite Hst. split; [reflexivity|].
  split; [exact Hst' | reflexivity].
Qed.
(** an error of 4 on a value of 1 with both tolerances 1 is twice what is allowed for one point, and just allowed for four *)
Example C22_estimate_case : let e := fun (_ _ : unit) => RtoC 4 in let u := fun (_ _ : unit) => C1 in
  ~ within [tt] 1 1 1 u u e /\ within [tt] 4 1 1 u u e.
Proof.
  cbv zeta. assert (E : RsumL [tt] (fun _ : unit => (Cabs (RtoC 4) / (1 + 1 * Rmax (Cabs C1) (Cabs C1))) ^ 2) = 4).
  { cbn [RsumL]. rewrite Rmax_left by lra. unfold Cabs, Cnorm2, C1, RtoC. cbn [fst snd].
    replace (4 * 4 + 0 * 0) with (4 * 4) by ring. replace (1 * 1 + 0 * 0) with (1 * 1) by ring. rewrite !sqrt_square by lra. field. }
  split; [intros H; specialize (H tt); cbv beta in H; rewrite E in H; lra|intros []; rewrite E; lra].
Qed.
Example C26_nonvacuous : subspace (fun v : V => v tt tt = C0) /\ (forall c r u, u tt tt = C0 -> fst (rhs c r u) tt tt = C0).
Proof.
  split; [split; [reflexivity|intros u c v Hu Hv; unfold plus; rewrite Hu, Hv; ring]|].
  intros c r u H. cbn. unfold f. rewrite H. ring.
Qed.
End Ex.

Print Assumptions C19_RK4_step.
Print Assumptions C19_RK4_calls.
Print Assumptions C19_RK4_order.
Print Assumptions C19_RK4_linear.
Print Assumptions C20_ForwardEuler.
Print Assumptions C20_AB2.
Print Assumptions C20_AB2_recurrence.
Print Assumptions C20_AB2_varying.
Print Assumptions C21_BS5_order.
Print Assumptions C21_BS5_shape.
Print Assumptions C22_C23_BS5_call.
Print Assumptions C22_attempt.
Print Assumptions C22_estimate.
Print Assumptions C22_tolerance.
Print Assumptions C23_run.
Print Assumptions C23_restart_refuted.
Print Assumptions C24_terminates.
Print Assumptions C26_linear_invariants.
Print Assumptions C55_AB2_changed_dt.
Print Assumptions C55_AB2_last_step_refuted.
