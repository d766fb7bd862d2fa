(** C76: time steps after a callback has changed the solution or the parameters of the right hand side
    (demo/Isotropic.py rescales the solution in every step, demo/Vortices.py removes the source term). *)
From Coq Require Import Reals Lra Lia List ZArith QArith Qreals FunctionalExtensionality.
From Verif Require Import Base.Cplx Base.Sums Base.Fin Spec.Env Spec.RungeKutta Spec.Feedback Model.Maths Model.Integrators Model.BS5
  Model.Integrate Model.Solve Model.Run Proofs.SolveProofs Proofs.RunProofs Proofs.LoopProofs Proofs.FsalProofs Proofs.IntegratorProofs
  Proofs.FeedbackProofs Spec.Fourier Spec.Energy Model.NS Model.Isotropic Proofs.NSProofs Props.Demo Props.Periodic Props.Isotropic.
Import ListNotations.
Open Scope R_scope.

Section Props.
Context {D I ctx P E : Type}.
Notation V := (svec D I).
Context (ComputeRHS : ctx -> V -> V -> V * ctx) (est : V -> V -> V -> R) (par : ctx -> P) (F : P -> V -> V).
Context (upd : R -> nat -> V * V * ctx * E -> V * V * ctx * E) (out : R -> nat -> V -> ctx * E -> ctx * E * bool).

(** The first step (tstep = 0): what is handed to the callback is the textbook step. *)
Theorem C76_first_step rnd T fuel g s s' : computes_with ComputeRHS par F -> output_keeps out par -> l_tstep s = 0%nat ->
  run_stepped ComputeRHS est upd out rnd T fuel g s s' ->
  exists v took, handed par upd s s' v /\ l_t s' = rnd (l_t s + took) /\
  let f := F (param par (l_w s)) in let u := solution (l_w s) in
  match g with
  | IRK4 => took = l_dt s /\ v = rk4 f (l_dt s) u
  | IForwardEuler | IAB2 => took = l_dt s /\ v = euler f (l_dt s) u
  | IBS5 ad => (ad = false -> took = l_dt s) /\ v = rk_step f bs5_A bs5_b bs5_s took u
  end.
Proof.
  intros Hf Ho Hz Hs. destruct (stepped_pass ComputeRHS est par F Hf upd out Ho rnd T fuel g s s' Hs) as (v & took & Hp & Hh & Ht & _).
  exists v, took. split; [exact Hh|]. split; [exact Ht|]. cbn zeta. unfold pass in Hp. rewrite Hz in Hp. cbn [Nat.eqb] in Hp.
  destruct g as [| | |ad]; try exact Hp.
  - split; apply Hp.
  - destruct Hp as (H1 & _ & H2). rewrite rk_step_from_self in H2. auto.
Qed.

(** Two steps in a row, s to s1 to s2, with any callback.  u1 = the solution the callback left after the first,
    v1 = the solution it was given. RK4 and ForwardEuler step from u1 with the parameters left by the callback.
    AB2 keeps the increment of the previous step.  BS5 takes F(old parameters)(v1) for its first stage. *)
Theorem C76_next_step rnd T fuel g s s1 s2 : computes_with ComputeRHS par F -> output_keeps out par ->
  run_iter ComputeRHS est upd out rnd T fuel g s = Cont s1 -> run_stepped ComputeRHS est upd out rnd T fuel g s1 s2 ->
  exists v1 v2 took, handed par upd s s1 v1 /\ handed par upd s1 s2 v2 /\ l_t s2 = rnd (l_t s1 + took) /\
  let f0 := F (param par (l_w s)) in let f1 := F (param par (l_w s1)) in
  let u0 := solution (l_w s) in let u1 := solution (l_w s1) in
  match g with
  | IRK4 => took = l_dt s1 /\ v2 = rk4 f1 (l_dt s1) u1
  | IForwardEuler => took = l_dt s1 /\ v2 = euler f1 (l_dt s1) u1
  | IAB2 => took = l_dt s1 /\
      forall i k, v2 i k = (u1 i k + RtoC (3/2 * l_dt s1) * f1 u1 i k - RtoC (1/2 * l_dt s) * f0 u0 i k)%C
  | IBS5 ad => (ad = false -> took = l_dt s1) /\ v2 = rk_step_from f1 bs5_A bs5_b bs5_s (f0 v1) took u1
  end.
Proof.
  intros Hf Ho H1 H2.
  destruct (stepped_pass ComputeRHS est par F Hf upd out Ho rnd T fuel g s s1 (or_introl H1)) as (v1 & took1 & P1 & Hh1 & _ & Hn).
  destruct (stepped_pass ComputeRHS est par F Hf upd out Ho rnd T fuel g s1 s2 H2) as (v2 & took & P2 & Hh2 & Ht & _).
  exists v1, v2, took. split; [exact Hh1|]. split; [exact Hh2|]. split; [exact Ht|]. cbn zeta.
  unfold pass in P1, P2. rewrite Hn in P2. cbn [Nat.eqb] in P2.
  destruct g as [| | |ad]; try exact P2.
  - destruct P1 as (_ & P1 & _). destruct P2 as (P2 & _ & P3). split; [exact P2|]. intros i k. rewrite P3, P1. unfold vscal.
    replace (1.5 * l_dt s1) with (3/2 * l_dt s1) by lra. replace 0.5 with (1/2) by lra. rewrite (RtoC_mul (1/2)). ring.
  - destruct P1 as (_ & P1 & _). destruct P2 as (P2 & _ & P3). rewrite P1 in P3. auto.
Qed.

(** So BS5 takes a textbook step if the callback left f0(v1) = f1(u1), in particular if it changed neither
    the solution nor the parameters. *)
Theorem C76_BS5_textbook_if rnd T fuel ad s s1 s2 : computes_with ComputeRHS par F -> output_keeps out par ->
  run_iter ComputeRHS est upd out rnd T fuel (IBS5 ad) s = Cont s1 -> run_stepped ComputeRHS est upd out rnd T fuel (IBS5 ad) s1 s2 ->
  (forall v, handed par upd s s1 v -> F (param par (l_w s)) v = F (param par (l_w s1)) (solution (l_w s1))) ->
  exists v2 took, handed par upd s1 s2 v2 /\ l_t s2 = rnd (l_t s1 + took) /\
    v2 = rk_step (F (param par (l_w s1))) bs5_A bs5_b bs5_s took (solution (l_w s1)).
Proof.
  intros Hf Ho H1 H2 Hk. destruct (C76_next_step rnd T fuel (IBS5 ad) s s1 s2 Hf Ho H1 H2) as (v1 & v2 & took & Hh1 & Hh2 & Ht & _ & Hv).
  exists v2, took. split; [exact Hh2|]. split; [exact Ht|]. rewrite Hv, (Hk v1 Hh1). apply rk_step_from_self.
Qed.
End Props.

(** The forced isotropic demo with the NS solver: every RK4 or ForwardEuler step starts from the forced velocity,
    and the forcing scales the low modes of the new velocity (mean mode removed) by one factor so that the
    energy is the target again. *)
Section Iso.
Context {I X E : Type} (ms : list I) (w : I -> R) (K : ax3 -> I -> R) (is0 : I -> bool).
Notation vec := (svec ax3 I).
Notation E2 u := (2 * energy F3 ms w u).
Theorem C76_isotropic_NS (T : transf I X) c mask nu Source est kf target
    (out : R -> nat -> vec -> nsbuf ax3 I X * E -> _) rnd Tend fuel g s s' b0 r0 :
  let f := fun u => fst (ComputeRHS_NS T K c mask nu Source b0 r0 u) in
  run_stepped (ComputeRHS_NS T K c mask nu Source) est (iso_upd ms w K is0 kf target) out rnd Tend fuel g s s' ->
  exists v, (g = IRK4 -> v = rk4 f (l_dt s) (solution (l_w s))) /\ (g = IForwardEuler -> v = euler f (l_dt s) (solution (l_w s))) /\
  let v0 := fun i k => if is0 k then C0 else v i k in
  (E2 (low K kf v0) > 0 -> E2 (high K kf v0) <= target ->
   E2 (solution (l_w s')) = target /\ exists alpha, 0 <= alpha /\ forall i k,
     solution (l_w s') i k = if Rle_dec (knorm2 F3 K k) (kf ^ 2) then (RtoC alpha * v0 i k)%C else v0 i k).
Proof.
  cbv zeta. intros Hs. set (f := fun u => fst (ComputeRHS_NS T K c mask nu Source b0 r0 u)).
  assert (Hf : computes_with (ComputeRHS_NS T K c mask nu Source) (fun _ => tt) (fun _ => f)).
  { intros b r u. split; [|reflexivity]. unfold f. apply C12_NS. }
  assert (Ho : output_keeps out (fun _ => tt)) by (intros t n u b e; reflexivity).
  destruct (stepped_pass _ est _ _ Hf (iso_upd ms w K is0 kf target) out Ho rnd Tend fuel g s s' Hs) as (v & took & Hp & Hh & _).
  exists v. split; [intros ->; apply Hp|]. split; [intros ->; apply Hp|]. intros Hl Hh'.
  destruct Hh as (r & b & e & r' & b' & e' & Hu & _). unfold iso_upd in Hu.
  destruct (C50_energy ms w K is0 false kf target v (fun _ _ => C0) Hl Hh') as (U' & W' & alpha & Eu & Ee & Ha & Hlow & Hhigh & _).
  rewrite Eu in Hu. injection Hu as Hu _ _ _. rewrite <- Hu. split; [exact Ee|]. exists alpha. split; [exact Ha|].
  intros i k. destruct (Rle_dec _ _) as [H|H]; [apply Hlow, H|]. apply Hhigh. lra.
Qed.
End Iso.

(** The weight of the outdated first stage. *)
Lemma bs5_b_sum : Csum 7 (fun j => RtoC (bs5_b (S j))) = RtoC (1 - 587 / 8064).
Proof.
  assert (B : bs5_b 1 + bs5_b 2 + bs5_b 3 + bs5_b 4 + bs5_b 5 + bs5_b 6 + bs5_b 7 = 1 - 587 / 8064).
  { unfold bs5_b. rewrite <- !Q2R_plus. replace (1 - 587/8064) with (Q2R (7477 # 8064)) by (unfold Q2R; cbn; lra).
    apply Qeq_eqR. vm_compute. reflexivity. }
  cbn [Csum]. rewrite <- B. rewrite !RtoC_add. ring.
Qed.
Lemma bs5_b0 : bs5_b 0 = 587 / 8064.
Proof. unfold bs5_b. cbn [nth BS5_b]. unfold Q2R. cbn. lra. Qed.

Section Weight.
Context {D I : Type}.
Notation V := (svec D I).
Context (f : V -> V) (Q : V -> Prop).
Lemma combo_flat u dt w (K : nat -> V) n : (forall u c k, Q k -> f (plus u c k) = f u) ->
  (forall j, (j < n)%nat -> Q (K j)) -> f (combo u dt n w K) = f u.
Proof.
  intros Hf. induction n as [|n IH]; intros HK.
  - f_equal. unfold combo. extensionality i; extensionality k. cbn [Csum]. ring.
  - replace (combo u dt (S n) w K) with (plus (combo u dt n w K) (dt * w n) (K n)).
    + rewrite Hf by (apply HK; lia). apply IH. intros j Hj. apply HK. lia.
    + unfold combo, plus. extensionality i; extensionality k. cbn [Csum]. rewrite RtoC_mul. ring.
Qed.
(** If moving along the stages does not change f (a source term; a field that grows linearly), a BS5 step with
    first stage k0 is an Euler step with the average of f(u), weight 7477/8064, and k0, weight 587/8064. *)
Theorem C76_weight u dt k0 i k : (forall u c w, Q w -> f (plus u c w) = f u) -> Q k0 -> Q (f u) ->
  rk_step_from f bs5_A bs5_b bs5_s k0 dt u i k
  = (u i k + RtoC dt * (RtoC (1 - 587 / 8064) * f u i k + RtoC (587 / 8064) * k0 i k))%C.
Proof.
  intros Hf Q0 Qu.
  assert (HK : forall n, Q (rk_k_from f bs5_A k0 dt u n) /\ (n <> 0%nat -> rk_k_from f bs5_A k0 dt u n = f u)).
  { induction n as [n IH] using lt_wf_ind. destruct n as [|n].
    - rewrite rk_k_from_0. split; [exact Q0|intros H; contradiction].
    - rewrite rk_k_from_S, combo_flat; auto. intros j Hj. apply IH, Hj. }
  unfold rk_step_from, combo, bs5_s. rewrite Csum_S_l, rk_k_from_0, bs5_b0.
  rewrite (Csum_ext 7 _ (fun j => (f u i k * RtoC (bs5_b (S j)))%C)).
  2:{ intros j _. rewrite (proj2 (HK (S j))) by discriminate. ring. }
  rewrite Csum_scal, bs5_b_sum. ring.
Qed.
End Weight.

(** A source term: u' = S with S replaced by the callback (S0 in the first step, S1 in the second).  RK4 and
    ForwardEuler use S1, BS5 still 7 percent of S0, AB2 3/2 S1 - 1/2 S0. *)
Theorem C76_source {D I ctx E} (ComputeRHS : ctx -> svec D I -> svec D I -> svec D I * ctx) est par
    (upd : R -> nat -> _ * _ * ctx * E -> _) out rnd T fuel g s s1 s2 :
  computes_with ComputeRHS par (fun S (_ : svec D I) => S) -> output_keeps out par ->
  run_iter ComputeRHS est upd out rnd T fuel g s = Cont s1 -> run_stepped ComputeRHS est upd out rnd T fuel g s1 s2 ->
  exists v2 took, handed par upd s1 s2 v2 /\ l_t s2 = rnd (l_t s1 + took) /\ forall i k,
  let S0 := param par (l_w s) i k in let S1 := param par (l_w s1) i k in let u := solution (l_w s1) i k in
  match g with
  | IRK4 | IForwardEuler => v2 i k = (u + RtoC took * S1)%C
  | IAB2 => v2 i k = (u + RtoC (3/2 * took) * S1 - RtoC (1/2 * l_dt s) * S0)%C
  | IBS5 _ => v2 i k = (u + RtoC took * (RtoC (7477 / 8064) * S1 + RtoC (587 / 8064) * S0))%C
  end.
Proof.
  intros Hf Ho H1 H2. destruct (C76_next_step ComputeRHS est par _ upd out rnd T fuel g s s1 s2 Hf Ho H1 H2) as (v1 & v2 & took & _ & Hh & Ht & Hg).
  exists v2, took. split; [exact Hh|]. split; [exact Ht|]. intros i k. cbn zeta in *. destruct g as [| | |ad].
  - destruct Hg as [-> ->]. unfold rk4, rk4_k1, rk4_k2, rk4_k3, rk4_k4.
    generalize (param par (l_w s1) i k) (solution (l_w s1) i k). intros a b.
    apply C_eq; unfold RtoC, Cmul, Cadd; cbn [fst snd]; field.
  - destruct Hg as [-> ->]. reflexivity.
  - destruct Hg as [-> Hg]. apply Hg.
  - destruct Hg as [_ ->]. rewrite (C76_weight _ (fun _ => True)); auto.
    replace (1 - 587/8064) with (7477/8064) by lra. reflexivity.
Qed.

(** The claim "every step is a textbook step from the current solution" fails for BS5 with a callback that
    rescales the solution: x' = y, y' = 0, (x, y) = (0, 1), dt = 1, halved after every step.  The second
    step should give 1/2 + 1/2 = 1 and gives 1 + 587/16128.  RK4 gives 1. *)
Section Refuted.
Let V := svec bool unit.
Let f (u : V) : V := fun i k => if i then u false k else C0.
Let rhs (c : unit) (r u : V) : V * unit := (f u, tt).
Let half (t : R) (n : nat) (x : V * V * unit * unit) : V * V * unit * unit :=
  let '(u, r, c, e) := x in (fun i k => (RtoC (1/2) * u i k)%C, r, c, e).
Let s0 : lstate (world bool unit unit unit) :=
  mkL 0 1 0 (mkWorld (init_istate (fun (i : bool) (_ : unit) => if i then C0 else C1) (fun _ _ => C0) tt) tt) false [].
Lemma f_flat u c w : w false tt = C0 -> f (plus u c w) = f u.
Proof. intros H. unfold f, plus. extensionality i; extensionality k. destruct i; [|reflexivity]. destruct k. rewrite H. ring. Qed.
Lemma rhs_with : computes_with rhs (fun _ => tt) (fun _ => f).
Proof. intros c r u. split; reflexivity. Qed.
Lemma out0_keeps : output_keeps (D := bool) (I := unit) (E := unit) out0 (fun _ : unit => tt).
Proof. intros t n u c e. reflexivity. Qed.
Lemma half_handed (s s' : lstate (world bool unit unit unit)) v : handed (fun _ : unit => tt) half s s' v ->
  solution (l_w s') = fun i k => (RtoC (1/2) * v i k)%C.
Proof. intros (r & c & e & r' & c' & e' & H & _). unfold half in H. injection H. auto. Qed.
Lemma two_steps g : (forall ad, g = IBS5 ad -> ad = false) ->
  exists s1 s2, run_iter rhs est0 half out0 (fun x => x) 10 1 g s0 = Cont s1 /\
    run_stepped rhs est0 half out0 (fun x => x) 10 1 g s1 s2 /\ l_dt s1 = 1.
Proof.
  intros Hg. pose proof eps12_pos as He. assert (He1 : eps12 < /10) by (unfold eps12; apply Rinv_lt_contravar; lra).
  assert (G : forall s, 0 <= l_t s <= 1 -> l_dt s = 1 ->
    exists s', run_iter rhs est0 half out0 (fun x => x) 10 1 g s = Cont s' /\ l_t s' = l_t s + 1 /\ l_dt s' = 1).
  { intros s Ht Hd. unfold run_iter, iter. rewrite Hd. destruct (Rle_dec _ _) as [_|N]; [|exfalso; lra].
    unfold run_integrate.
    destruct (integrate_fixed_total rhs est0 0 g 1 (l_tstep s) (w_st (l_w s))) as [st ->].
    { intros H. specialize (Hg true H). discriminate. }
    unfold run_update, half, run_output, out0. cbn [w_st w_env s_u0 s_u1 s_u2 s_rhs s_fY s_off s_ctx].
    unfold end_of_tstep_NS.
    destruct (Rlt_dec _ _) as [N|_]; [exfalso; rewrite Rabs_left in N; lra|].
    destruct (Rlt_dec _ _) as [N|_]; [exfalso; rewrite Rabs_left in N; lra|].
    destruct (Rle_dec _ _) as [N|_]; [exfalso; lra|].
    eexists. split; [reflexivity|]. cbn [l_t l_dt]. auto. }
  destruct (G s0 ltac:(cbn; lra) eq_refl) as (s1 & E1 & T1 & D1).
  destruct (G s1 ltac:(rewrite T1; cbn; lra) D1) as (s2 & E2 & _).
  exists s1, s2. split; [exact E1|]. split; [left; exact E2|exact D1].
Qed.
Theorem C76_forced_refuted : exists s1 s2 v2,
  run_iter rhs est0 half out0 (fun x => x) 10 1 (IBS5 false) s0 = Cont s1 /\
  run_stepped rhs est0 half out0 (fun x => x) 10 1 (IBS5 false) s1 s2 /\
  solution (l_w s2) = (fun i k => (RtoC (1/2) * v2 i k)%C) /\
  v2 true tt = RtoC (1 + 587 / 16128) /\ v2 <> rk_step f bs5_A bs5_b bs5_s (l_dt s1) (solution (l_w s1)).
Proof.
  destruct (two_steps (IBS5 false)) as (s1 & s2 & E1 & E2 & D1); [intros ad H; injection H; auto|].
  destruct (C76_first_step rhs est0 _ _ half out0 _ _ _ _ s0 s1 rhs_with out0_keeps eq_refl (or_introl E1)) as (v & tk & Hv & _ & Htk & Ev).
  destruct (C76_next_step rhs est0 _ _ half out0 _ _ _ _ _ _ _ rhs_with out0_keeps E1 E2) as (v1 & v2 & took & Hv1 & Hv2 & _ & Ht & Hs).
  cbn zeta in *. rewrite (Htk eq_refl) in Ev. rewrite (Ht eq_refl), D1 in Hs.
  assert (Q1 : forall u c w, w false tt = C0 -> f (plus u c w) = f u) by exact f_flat.
  assert (Fq : forall u, f u false tt = C0) by reflexivity.
  assert (U1 := half_handed _ _ _ Hv). assert (U1' := half_handed _ _ _ Hv1).
  assert (Ev' : forall i, v i tt = C1).
  { intros i. rewrite Ev. rewrite <- rk_step_from_self. rewrite (C76_weight f (fun w => w false tt = C0)); auto.
    unfold s0. cbn [l_dt l_w]. unfold solution. cbn [w_st init_istate s_u0]. unfold f.
    destruct i; apply C_eq; unfold RtoC, Cmul, Cadd, C0, C1; cbn [fst snd]; field. }
  assert (Ev1 : forall i, v1 i tt = C1).
  { intros i. pose proof (f_equal (fun w : V => w i tt) (eq_trans (eq_sym U1') U1)) as H. cbn beta in H. rewrite Ev' in H.
    pose proof (f_equal fst H) as Ha. pose proof (f_equal snd H) as Hb.
    unfold RtoC, Cmul, C1 in Ha, Hb. cbn [fst snd] in Ha, Hb. apply C_eq; unfold C1; cbn [fst snd]; lra. }
  assert (S1 : forall i, solution (l_w s1) i tt = RtoC (1/2)).
  { intros i. rewrite U1, Ev'. apply C_eq; unfold RtoC, Cmul, C1; cbn [fst snd]; lra. }
  assert (V2 : v2 true tt = RtoC (1 + 587 / 16128)).
  { rewrite Hs, (C76_weight f (fun w => w false tt = C0)); auto. unfold f. rewrite !S1, Ev1.
    apply C_eq; unfold RtoC, Cmul, Cadd, C1; cbn [fst snd]; field. }
  exists s1, s2, v2. split; [exact E1|]. split; [exact E2|]. split; [apply (half_handed _ _ _ Hv2)|].
  split; [exact V2|]. intros N. apply (f_equal (fun w : V => w true tt)) in N. rewrite V2 in N.
  rewrite D1, <- rk_step_from_self, (C76_weight f (fun w => w false tt = C0)) in N; auto. unfold f in N. rewrite !S1 in N.
  apply (f_equal fst) in N. unfold RtoC, Cmul, Cadd in N. cbn [fst snd] in N. lra.
Qed.
Lemma f_rk4 dt u : rk4 f dt u true tt = (u true tt + RtoC dt * u false tt)%C /\ rk4 f dt u false tt = u false tt.
Proof.
  unfold rk4, rk4_k4, rk4_k3, rk4_k2, rk4_k1. cbn [f]. unfold plus. cbn [f].
  generalize (u true tt) (u false tt). intros a b.
  split; apply C_eq; unfold RtoC, Cmul, Cadd, C0; cbn [fst snd]; field.
Qed.
(** the hypotheses of C76 are met, and RK4 gets the same two steps right *)
Example C76_nonvacuous : exists s1 s2 v2,
  run_iter rhs est0 half out0 (fun x => x) 10 1 IRK4 s0 = Cont s1 /\
  run_stepped rhs est0 half out0 (fun x => x) 10 1 IRK4 s1 s2 /\
  solution (l_w s2) = (fun i k => (RtoC (1/2) * v2 i k)%C) /\ v2 true tt = RtoC 1.
Proof.
  destruct (two_steps IRK4) as (s1 & s2 & E1 & E2 & D1); [discriminate|].
  destruct (C76_first_step rhs est0 _ _ half out0 _ _ _ _ s0 s1 rhs_with out0_keeps eq_refl (or_introl E1)) as (v & tk & Hv & _ & Htk & Ev).
  destruct (C76_next_step rhs est0 _ _ half out0 _ _ _ _ _ _ _ rhs_with out0_keeps E1 E2) as (v1 & v2 & took & Hv1 & Hv2 & _ & Ht & Hs).
  cbn zeta in *. assert (U1 := half_handed _ _ _ Hv).
  exists s1, s2, v2. split; [exact E1|]. split; [exact E2|]. split; [apply (half_handed _ _ _ Hv2)|].
  rewrite Hs, D1, (proj1 (f_rk4 _ _)), U1, Ev, (proj1 (f_rk4 _ _)), (proj2 (f_rk4 _ _)).
  unfold s0. cbn [l_dt l_w]. unfold solution. cbn [w_st init_istate s_u0].
  apply C_eq; unfold RtoC, Cmul, Cadd, C0, C1; cbn [fst snd]; field.
Qed.
End Refuted.

Print Assumptions C76_first_step.
Print Assumptions C76_next_step.
Print Assumptions C76_BS5_textbook_if.
Print Assumptions C76_isotropic_NS.
Print Assumptions C76_weight.
Print Assumptions C76_source.
Print Assumptions C76_forced_refuted.
