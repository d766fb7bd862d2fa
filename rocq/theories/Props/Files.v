(** Properties of HDF5 output, the kill file and restarts (spectralDNS/h5io/HDF5File.py). *)
From Coq Require Import Reals Lra Lia ZArith List Bool QArith Qreals FunctionalExtensionality.
From Verif Require Import Base.Cplx Base.Sums Base.Fin Spec.Env Spec.Calls Spec.Fourier Spec.RungeKutta Spec.Files
  Model.Maths Model.Integrators Model.BS5 Model.Integrate Model.Solve Model.Run Model.HDF5
  Proofs.SolveProofs Proofs.RunProofs Proofs.LoopProofs Proofs.TimeIntProofs Proofs.FsalProofs Proofs.FileProofs Proofs.FileRunProofs Proofs.RestartProofs
  Props.Demo Props.TimeInt.
Import ListNotations.
Open Scope R_scope.

Section Props.
Context {D I ctx Data RData : Type}.
Notation V := (svec D I).
Notation H := (h5env Data RData).
(** any solver, integrator, clock arithmetic and output configuration; update() does not touch the files *)
Context (Rhs : ctx -> V -> V -> V * ctx) (est : V -> V -> V -> R).
Context (upd : R -> nat -> V * V * ctx * H -> V * V * ctx * H) (Hupd : forall t n x, snd (upd t n x) = snd x).
Context (mode : filemode) (wr cp : Z) (Hwr : (0 < wr)%Z) (Hcp : (0 < cp)%Z) (keys : list nat).
Context (fields : nat -> V -> ctx -> Data) (components : V -> ctx -> ctx * RData) (kill : nat -> bool).
Context (rnd : R -> R) (T : R) (fuel : nat) (g : integ).
Notation out := (h5_output mode wr cp keys fields components kill).
Notation reach := (run_reach Rhs est upd out rnd T fuel g).
Notation stepped := (run_stepped Rhs est upd out rnd T fuel g).
Notation seen := (observed Rhs est upd out rnd T fuel g).
Notation St := (lstate (world D I ctx H)).

(** ** C35: everything the files have been told during a run, in order.  [st n] is the state right
    after step n, [r n] its results. *)
Theorem C35_schedule (s0 s : St) f : fresh (env s0) f -> seen s0 s -> l_tstep s0 <> l_tstep s ->
  exists (st : nat -> St) (r : nat -> RData),
    (forall n, (l_tstep s0 < n <= l_tstep s)%nat -> after reach stepped s0 n (st n) /\ results components wr (st n) (r n)) /\
    st (l_tstep s) = s /\
    h_log (env s) = creation mode ++
      flat_map (fun n => scheduled wr cp keys (kill n) n (l_t (st n)) (data fields (st n)) (r n)) (steps (l_tstep s0) (l_tstep s)).
Proof.
  intros E Ho Hn. unfold fresh in E.
  destruct (schedule Rhs est upd Hupd mode wr cp Hwr Hcp keys fields components kill rnd T fuel g s0 s) as (st & r & H1 & H2 & H3 & _); try exact Hn; try exact Ho.
  - rewrite E. reflexivity.
  - rewrite E. reflexivity.
  - exists st, r. auto.
Qed.
(** before the first step nothing is written *)
Theorem C35_no_step (s0 s : St) f : fresh (env s0) f -> seen s0 s -> l_tstep s0 = l_tstep s -> h_log (env s) = [].
Proof.
  intros E (n & s1 & Hr & Hs) Hn. unfold fresh in E.
  destruct (reach_trail Rhs est upd Hupd mode wr cp Hwr Hcp keys fields components kill rnd T fuel g s0 n s1) as (l & _ & Ht & _ & Hl & _).
  { rewrite E; reflexivity. } { rewrite E; reflexivity. } { exact Hr. }
  destruct Hs as [->|Hs].
  - assert (n = 0%nat) by lia. subst n. inversion Hr; subst. rewrite E. reflexivity.
  - destruct (stepped_env Rhs est upd Hupd mode wr cp Hwr Hcp keys fields components kill rnd T fuel g _ _ Hs) as (r & _ & _ & Hx). lia.
Qed.

(** ** C36 between two updates: the checkpoint file holds the last step that was checkpointed,
    arrays and labels. *)
Theorem C36_between (s0 s : St) f n : keys <> [] -> fresh (env s0) f -> seen s0 s ->
  (l_tstep s0 < n <= l_tstep s)%nat -> multiple cp n \/ kill n = true ->
  (forall m, (n < m <= l_tstep s)%nat -> ~ multiple cp m /\ kill m = false) ->
  exists sn, after reach stepped s0 n sn /\ holds keys (h_file (env s)) n (l_t sn) (data fields sn).
Proof.
  intros Hk E Ho Hn Hc Hl. unfold fresh in E.
  destruct (schedule Rhs est upd Hupd mode wr cp Hwr Hcp keys fields components kill rnd T fuel g s0 s) as (st & r & H1 & H2 & H3 & H4).
  { rewrite E; reflexivity. } { rewrite E; reflexivity. } { exact Ho. } { lia. }
  exists (st n). split; [apply H1; lia|]. rewrite H4, H3, apply_ops_app.
  apply (last_ckpt wr cp ltac:(lia) keys Hk kill (fun n => l_t (st n)) (fun n => data fields (st n)) r); assumption.
Qed.

(** ** C36, crash points.  One step s -> s' of a run whose files are open; [p] are the operations the
    update at the end of this step completed before the crash, [q] those it did not. *)
Theorem C36_crash_points (s s' : St) p q : keys <> [] -> NoDup keys -> h_opened (env s) = true ->
  stepped s s' -> h_log (env s') = h_log (env s) ++ p ++ q ->
  let f := h_file (env s) in let f' := apply_ops f p in
  (* nothing of the checkpoint written: the previous contents *)
  ((forall k x, ~ In (CWrite k x) p) -> f' = f) /\
  (* all arrays and the time label written: the new checkpoint *)
  (In (CAttrT (l_t s')) p -> (forall k x, ~ In (CWrite k x) q) -> holds keys f' (l_tstep s') (l_t s') (data fields s')) /\
  (* in between, every item is the old one or the new one *)
  (c_tstep f' = Some (l_tstep s') \/ c_tstep f' = c_tstep f) /\ (c_t f' = Some (l_t s') \/ c_t f' = c_t f) /\
  (forall k, In k keys -> c_data f' k = Some (data fields s' k) \/ c_data f' k = c_data f k).
Proof.
  intros Hk Hnd Ho Hs Hlog.
  destruct (stepped_env Rhs est upd Hupd mode wr cp Hwr Hcp keys fields components kill rnd T fuel g _ _ Hs) as (r & _ & He & _).
  rewrite He, Ho in Hlog. cbn [h_log app] in Hlog. apply app_inv_head in Hlog.
  apply (crash_point wr cp keys Hnd Hk (kill (l_tstep s')) (l_tstep s') (l_t s') (data fields s') r p q (h_file (env s)) Hlog).
Qed.
(** ... and the in-between points exist at every checkpoint of every run: a crash after the first
    array has been written leaves new data under the previous checkpoint's labels *)
Theorem C36_crash_refuted (s s' : St) : keys <> [] -> h_opened (env s) = true -> stepped s s' ->
  multiple cp (l_tstep s') \/ kill (l_tstep s') = true ->
  exists p q k, h_log (env s') = h_log (env s) ++ p ++ q /\ In k keys /\
    let f' := apply_ops (h_file (env s)) p in
    c_data f' k = Some (data fields s' k) /\ c_tstep f' = c_tstep (h_file (env s)) /\ c_t f' = c_t (h_file (env s)) /\
    (forall j, In j keys -> j <> k -> c_data f' j = c_data (h_file (env s)) j).
Proof.
  intros Hk Ho Hs Hc.
  destruct (stepped_env Rhs est upd Hupd mode wr cp Hwr Hcp keys fields components kill rnd T fuel g _ _ Hs) as (r & _ & He & _).
  destruct (bad_crash wr cp keys Hk (kill (l_tstep s')) (l_tstep s') (l_t s') (data fields s') r (h_file (env s)) Hc ltac:(lia)) as (p & q & k & E & Hin & Hrest).
  exists p, q, k. rewrite He, Ho. cbn [h_log app]. unfold step_ops. rewrite E. auto.
Qed.
(** the labels reach the file at the end of the update: the file is consistent after a complete update *)
Theorem C36_update_complete (s s' : St) : keys <> [] -> stepped s s' -> multiple cp (l_tstep s') \/ kill (l_tstep s') = true ->
  holds keys (h_file (env s')) (l_tstep s') (l_t s') (data fields s').
Proof.
  intros Hk Hs Hc.
  destruct (stepped_env Rhs est upd Hupd mode wr cp Hwr Hcp keys fields components kill rnd T fuel g _ _ Hs) as (r & _ & He & _).
  rewrite He. cbn [h_file]. rewrite apply_ops_app. apply with_ckpt; auto; lia.
Qed.
(** filemode 'a': the first update() of a process relabels the checkpoint it finds as step 0, time 0,
    and keeps its arrays, until the next checkpoint is due *)
Theorem C36_append_refuted (s0 s : St) f n t d : mode = ModeA -> fresh (env s0) f -> holds keys f n t d ->
  stepped s0 s -> ~ multiple cp (l_tstep s) -> kill (l_tstep s) = false ->
  holds keys (h_file (env s)) 0 0 d.
Proof.
  intros Hm E (_ & _ & Hd) Hs Hc Hkl.
  destruct (stepped_env Rhs est upd Hupd mode wr cp Hwr Hcp keys fields components kill rnd T fuel g _ _ Hs) as (r & _ & He & _).
  unfold fresh in E. rewrite He, E. cbn [h_file h_opened]. rewrite apply_ops_app. unfold step_ops. rewrite no_ckpt by (auto; lia).
  rewrite Hm. split; [reflexivity|]. split; [reflexivity|]. exact Hd.
Qed.

(** ** C37: in the step in which the kill file is found the run stops, with the checkpoint of that step on disk *)
Theorem C37_stops (s s' : St) fuel' : keys <> [] -> stepped s s' -> kill (l_tstep s') = true ->
  run_solve Rhs est upd out rnd T fuel g (S fuel') s = Some (Exited s') /\
  holds keys (h_file (env s')) (l_tstep s') (l_t s') (data fields s').
Proof.
  intros Hk Hs Hkl. split; [|apply C36_update_complete with (s := s); auto].
  assert (Hnk : forall s2, run_iter Rhs est upd out rnd T fuel g s = Kill s2 -> run_solve Rhs est upd out rnd T fuel g (S fuel') s = Some (Exited s2)).
  { intros s2 Hi. unfold run_solve, Solve.solve. cbn [Solve.loop]. unfold run_iter in Hi. rewrite Hi. reflexivity. }
  apply Hnk. pose proof Hs as Hs'. unfold run_stepped, Solve.stepped in Hs'.
  assert (Hn : forall s2, stepped s s2 -> l_tstep s2 = S (l_tstep s)).
  { intros s2 H2. destruct (stepped_env Rhs est upd Hupd mode wr cp Hwr Hcp keys fields components kill rnd T fuel g _ _ H2) as (_ & _ & _ & Hx). exact Hx. }
  pose proof (Hn _ Hs) as Hn'. rewrite Hn' in Hkl. unfold run_iter. destruct Hs' as [Hi|[Hi|Hi]]; [exfalso|exfalso|exact Hi].
  - revert Hi. unfold Solve.iter. destruct (Rle_dec _ _) as [_|_]; [|discriminate]. destruct (run_integrate _ _ _ _ _ _ _) as [[[w d] k]|]; [|discriminate].
    set (w1 := run_update _ _ _ _). unfold run_output. unfold h5_output.
    destruct (if andb _ _ then _ else _) as [c' r].
    replace (kill (S (l_tstep s))) with true. unfold h5_update. 
    replace (Z.eqb wr 0) with false by (symmetry; apply Z.eqb_neq; lia).
    replace (Z.eqb cp 0) with false by (symmetry; apply Z.eqb_neq; lia). rewrite orb_true_r. discriminate.
  - revert Hi. unfold Solve.iter. destruct (Rle_dec _ _) as [_|_]; [|discriminate]. destruct (run_integrate _ _ _ _ _ _ _) as [[[w d] k]|]; [|discriminate].
    set (w1 := run_update _ _ _ _). unfold run_output. unfold h5_output.
    destruct (if andb _ _ then _ else _) as [c' r].
    replace (kill (S (l_tstep s))) with true. unfold h5_update. 
    replace (Z.eqb wr 0) with false by (symmetry; apply Z.eqb_neq; lia).
    replace (Z.eqb cp 0) with false by (symmetry; apply Z.eqb_neq; lia). rewrite orb_true_r. discriminate.
Qed.
(** no kill file, no stop *)
Theorem C37_continues : (forall n, kill n = false) -> never_killed (ctx := ctx) out.
Proof.
  intros Hkl t n u c e. unfold h5_output. destruct (if andb _ _ then _ else _) as [c' r]. rewrite Hkl. unfold h5_update.
  replace (Z.eqb wr 0) with false by (symmetry; apply Z.eqb_neq; lia).
  replace (Z.eqb cp 0) with false by (symmetry; apply Z.eqb_neq; lia).
  rewrite orb_false_r. destruct (divides cp n); reflexivity.
Qed.
End Props.

(** C37, the distributed decision: if rank 0 sees the file whenever any rank does (e.g. a shared
    directory), all ranks return the same decision: kill iff some rank sees it. *)
Theorem C37_decision (visible : list bool) : (existsb (fun b => b) visible = true -> hd false visible = true) ->
  check_if_kill visible = map (fun _ => Some (existsb (fun b => b) visible)) visible.
Proof.
  intros H0. unfold check_if_kill.
  assert (Hc : forall l : list bool, Nat.ltb 0 (fold_right (fun (b : bool) (n : nat) => (if b then 1 else 0) + n)%nat 0%nat l) = existsb (fun b => b) l).
  { induction l as [|[] l IH]; [reflexivity|reflexivity|]. cbn [fold_right existsb orb Nat.add]. exact IH. }
  rewrite Hc. destruct (existsb (fun b => b) visible) eqn:Ex.
  - specialize (H0 eq_refl). destruct visible as [|b l]; [discriminate|]. cbn in H0. subst b. cbn [length seq combine map].
    f_equal. generalize 1%nat as i, (Nat.lt_0_succ 0) as Hi. clear. induction l as [|b l IH]; intros i Hi; [reflexivity|].
    cbn [length seq combine map]. f_equal; [destruct i; [lia|reflexivity]|]. apply IH. lia.
  - clear. generalize 0%nat. induction visible as [|b l IH]; intros i; [reflexivity|]. cbn [length seq combine map]. f_equal. apply IH.
Qed.
(** ... but when only another rank sees it, rank 0 fails in os.remove while the others stop *)
Theorem C37_refuted : exists visible, In (Some true) (check_if_kill visible) /\ nth_error (check_if_kill visible) 0 = Some None.
Proof. exists [false; true]. split; [right; left; reflexivity|reflexivity]. Qed.

(** ** C38: a restarted run.  Run 1 (with any output) reaches state s, which is stored; run 2 starts
    from the stored solution, time and step number and the same dt, with fresh integrator arrays and
    any buffers.  With a one-step integrator every later state of run 1 is a state of run 2. *)
Theorem C38_one_step {D I c1 c2 E1 E2 : Type} (R1 : c1 -> svec D I -> svec D I -> svec D I * c1)
  (R2 : c2 -> svec D I -> svec D I -> svec D I * c2) f est1 est2 upd1 upd2 h out1 out2 rnd T fuel g
  (s : lstate (world D I c1 E1)) (b : lstate (world D I c2 E2)) m s' :
  one_step g -> computes R1 f -> computes R2 f -> update_is upd1 h -> update_is upd2 h -> never_killed out2 ->
  at_start b (solution (l_w s)) -> l_t b = l_t s -> l_tstep b = l_tstep s -> l_dt b = l_dt s ->
  run_reach R1 est1 upd1 out1 rnd T fuel g s m s' ->
  exists b', run_reach R2 est2 upd2 out2 rnd T fuel g b m b' /\ same_state s' b'.
Proof.
  intros Hg H1 H2 Hu1 Hu2 Hk (r & c & e & Hb) Et En Ed Hr.
  eapply (reach_restart R1 R2 f H1 H2 est1 est2 upd1 upd2 h Hu1 Hu2 out1 out2 Hk rnd T fuel g Hg); [|exact Hr].
  split; [congruence|]. split; [congruence|]. split; [congruence|]. unfold solution. rewrite Hb. reflexivity.
Qed.

(** With AB2 and BS5 it is false: two steps, or one step, storing, and one step after the restart *)
Theorem C38_AB2_refuted : exists (rhs : unit -> svec unit unit -> svec unit unit -> svec unit unit * unit) f u a b c,
  computes rhs f /\ calls rhs est0 1 IAB2 [1; 1] 0 (init_istate u u tt) = Some a /\
  calls rhs est0 1 IAB2 [1] 0 (init_istate u u tt) = Some b /\
  calls rhs est0 1 IAB2 [1] 1 (init_istate (s_u0 b) u tt) = Some c /\ s_u0 a <> s_u0 c.
Proof.
  set (f := fun u : svec unit unit => u). set (rhs := fun (_ : unit) (_ u : svec unit unit) => (f u, tt)).
  set (u := fun _ _ : unit => C1). assert (Hf : computes rhs f) by (intros x y z; reflexivity).
  destruct (AB2_calls_total rhs est0 1 [1;1] 0 (init_istate u u tt)) as (a & Ha).
  destruct (AB2_calls_total rhs est0 1 [1] 0 (init_istate u u tt)) as (b & Hb).
  destruct (AB2_calls_total rhs est0 1 [1] 1 (init_istate (s_u0 b) u tt)) as (c & Hc).
  exists rhs, f, u, a, b, c. split; [exact Hf|]. split; [exact Ha|]. split; [exact Hb|]. split; [exact Hc|].
  apply (AB2_calls_0 rhs f Hf) in Ha. apply (AB2_calls_0 rhs f Hf) in Hb. apply (AB2_calls_S rhs f Hf) in Hc.
  rewrite Ha, Hc. cbn [s_u0 s_u1 init_istate]. rewrite Hb. intros E. apply (f_equal (fun v => fst (v tt tt))) in E. revert E.
  cbn [ab2_next s_u0 init_istate]. unfold euler, plus, f, u, C1, RtoC, Cmul, Csub, Cadd, Copp. cbn [fst snd]. lra.
Qed.
Theorem C38_BS5_refuted : exists (rhs : unit -> svec unit unit -> svec unit unit -> svec unit unit * unit) f u a b c,
  computes rhs f /\ calls rhs est0 1 (IBS5 false) [1; 1] 0 (init_istate u u tt) = Some a /\
  calls rhs est0 1 (IBS5 false) [1] 0 (init_istate u u tt) = Some b /\
  calls rhs est0 1 (IBS5 false) [1] 1 (init_istate (s_u0 b) u tt) = Some c /\ s_u0 a <> s_u0 c.
Proof.
  set (f := fun (_ : svec unit unit) (_ _ : unit) => C1). set (rhs := fun (c : unit) (_ u : svec unit unit) => ((fun _ _ : unit => C1), c)).
  set (u := fun _ _ : unit => C0). assert (Hf : computes rhs f) by (intros x y z; reflexivity).
  destruct (integrate_fixed_total rhs est0 0 (IBS5 false) 1 0 (init_istate u u tt) ltac:(discriminate)) as (b & Hb).
  destruct (integrate_fixed_total rhs est0 0 (IBS5 false) 1 1 b ltac:(discriminate)) as (a & Ha).
  destruct (bs5_stale (ctx := unit) (fun (_ _ : unit) => C1) est0 0 1 (s_u0 b) u tt) as (c & Hc & Ec).
  exists rhs, f, u, a, b, c. split; [exact Hf|].
  assert (Hcb : calls rhs est0 1 (IBS5 false) [1] 0 (init_istate u u tt) = Some b) by (cbn [calls]; rewrite Hb; reflexivity).
  split; [cbn [calls]; rewrite Hb, Ha; reflexivity|]. split; [exact Hcb|].
  assert (Hc' : integrate rhs est0 1 (IBS5 false) 1 1 (init_istate (s_u0 b) u tt) = Some (c, 1, 1)) by exact Hc.
  split; [cbn [calls]; rewrite Hc'; reflexivity|].
  destruct (C22_C23_BS5_call rhs f est0 1 1 false [1] 1 u u tt b a 1 1 Hf ltac:(intros; unfold est0; lra) ltac:(lra) Hcb Ha) as [E1 _].
  rewrite E1. intros E. apply (f_equal (fun v => v tt tt)) in E. rewrite Ec in E. unfold rk_step, combo in E.
  assert (Hk : forall j, rk_k f bs5_A 1 (s_u0 b) j = fun _ _ => C1) by (intros j; rewrite rk_k_eq; reflexivity).
  unfold bs5_s in E. cbn [Csum] in E. rewrite !Hk in E.
  assert (B : bs5_b 0 + bs5_b 1 + bs5_b 2 + bs5_b 3 + bs5_b 4 + bs5_b 5 + bs5_b 6 + bs5_b 7 = 1).
  { unfold bs5_b. rewrite <- !Q2R_plus. rewrite <- RMicromega.Q2R_1. apply Qeq_eqR. vm_compute. reflexivity. }
  apply (f_equal fst) in E. unfold RtoC, Cmul, Csub, Cadd, Copp, Ci, C1, C0 in E. cbn [fst snd] in E. lra.
Qed.

(** ** The hypotheses are met: one mode, u' = 2u, RK4, results every second step, checkpoints every step
    (or every third step), fresh files or an existing checkpoint *)
Section Ex.
Let V := svec unit unit.
Let f (u : V) : V := fun i k => (RtoC 2 * u i k)%C.
Let rhs (c : unit) (r u : V) : V * unit := (f u, tt).
Notation H := (h5env V V).
Let upd (t : R) (n : nat) (x : V * V * unit * H) := x.
Let fields (k : nat) (u : V) (c : unit) := u.
Let comps (u : V) (c : unit) := (tt, u).
Notation out cp kill := (h5_output ModeA 2 cp [0%nat] fields comps kill).
Let old : cfile V := mkC (fun k => if Nat.eqb k 0 then Some (fun _ _ => C1) else None) (Some 4%nat) (Some (4/10)).
Let begin : lstate (world unit unit unit H) :=
  mkL (4/10) (/10) 4 (mkWorld (init_istate (fun _ _ => C1) (fun _ _ => C0) tt) (mkH5 false [] old)) false [].

Lemma two_steps cp : (0 < cp)%Z -> let out := out cp (fun _ => false) in
  exists s1 s2, run_reach rhs est0 upd out (fun x => x) 1 1 IRK4 begin 1 s1 /\ run_stepped rhs est0 upd out (fun x => x) 1 1 IRK4 begin s1 /\
    run_stepped rhs est0 upd out (fun x => x) 1 1 IRK4 s1 s2 /\ l_tstep s1 = 5%nat /\ l_tstep s2 = 6%nat.
Proof.
  intros Hcp out. pose proof eps12_pos as He.
  destruct (step_exists rhs est0 upd out (fun x => x) 1 0 IRK4 begin) as (s1 & Hs1 & Hn1 & Ht1).
  { discriminate. } { cbn [begin l_t l_dt]. lra. }
  assert (Hc : run_iter rhs est0 upd out (fun x => x) 1 1 IRK4 begin = Cont s1 /\ l_dt s1 = /10).
  { assert (Hk : never_killed (ctx := unit) out) by (apply C37_continues; [lia|exact Hcp|reflexivity]).
    unfold run_stepped, Solve.stepped in Hs1. unfold run_iter. revert Hs1. unfold Solve.iter.
    destruct (Rle_dec _ _) as [_|_]; [|intros [E|[E|E]]; discriminate].
    unfold run_integrate. destruct (one_step_solution f 1 IRK4 (or_introl eq_refl) rhs ltac:(intros x y z; reflexivity) est0 (l_dt begin) (l_tstep begin) (w_st (l_w begin))) as (st & E & _).
    rewrite E. clear E. unfold run_output. set (w := run_update _ _ _ _). unfold end_of_tstep_NS.
    pose proof (Hk (l_t begin + l_dt begin) (S (l_tstep begin)) (s_u0 (w_st w)) (s_ctx (w_st w)) (w_env w)) as Hkk.
    destruct (out _ _ _ _) as [[c e] k]. cbn [snd] in Hkk. subst k.
    destruct (Rlt_dec _ _) as [Hl|_]; [exfalso; unfold eps12 in Hl; cbn [begin l_t l_dt] in Hl; apply Rabs_def2 in Hl; lra|].
    destruct (Rlt_dec _ _) as [Hl|_]; [exfalso; unfold eps12 in Hl; cbn [begin l_t l_dt] in Hl; apply Rabs_def2 in Hl; lra|].
    destruct (Rle_dec _ _) as [Hl|_]; [exfalso; unfold eps12 in Hl; cbn [begin l_t l_dt] in Hl; lra|].
    intros [E|[E|E]]; try discriminate. injection E as <-. split; reflexivity. }
  destruct Hc as [Hc Hd].
  destruct (step_exists rhs est0 upd out (fun x => x) 1 0 IRK4 s1) as (s2 & Hs2 & Hn2 & Ht2).
  { discriminate. } { rewrite Ht1, Hd. cbn [begin l_t l_dt]. lra. }
  exists s1, s2. split; [econstructor; [constructor|exact Hc]|]. split; [exact Hs1|]. split; [exact Hs2|]. rewrite Hn2, Hn1. auto.
Qed.
Example C35_C36_nonvacuous : exists s1 s2 : lstate (world unit unit unit H),
  let out := out 3 (fun _ => false) in
  fresh (env begin) old /\ holds [0%nat] old 4 (4/10) (fun _ _ _ => C1) /\ observed rhs est0 upd out (fun x => x) 1 1 IRK4 begin s2 /\
  run_stepped rhs est0 upd out (fun x => x) 1 1 IRK4 s1 s2 /\
  (* after the first step the old arrays are labelled step 0, time 0 *)
  holds [0%nat] (h_file (env s1)) 0 0 (fun _ _ _ => C1) /\
  (* after the second one the file holds step 6 *)
  holds [0%nat] (h_file (env s2)) 6 (l_t s2) (data fields s2) /\
  h_opened (env s1) = true.
Proof.
  destruct (two_steps 3 ltac:(lia)) as (s1 & s2 & Hr & Hs1 & Hs2 & Hn1 & Hn2). exists s1, s2. cbv zeta.
  assert (H0 : holds [0%nat] old 4 (4/10) (fun _ _ _ => C1)).
  { split; [reflexivity|]. split; [reflexivity|]. intros k [<-|[]]. reflexivity. }
  assert (Hp : forall t n (x : V * V * unit * H), snd (upd t n x) = snd x) by reflexivity.
  split; [reflexivity|]. split; [exact H0|]. split; [exists 1%nat, s1; split; [exact Hr|right; exact Hs2]|]. split; [exact Hs2|]. split; [|split].
  - eapply (C36_append_refuted rhs est0 upd Hp ModeA 2 3 ltac:(lia) ltac:(lia) [0%nat] fields comps); try exact Hs1; try exact H0; try reflexivity.
    rewrite Hn1. unfold multiple. intros [z Hz]. lia.
  - rewrite <- Hn2. eapply (C36_update_complete rhs est0 upd Hp ModeA 2 3 ltac:(lia) ltac:(lia) [0%nat] fields comps); [discriminate|exact Hs2|].
    left. rewrite Hn2. exists 2%Z. reflexivity.
  - destruct (stepped_env rhs est0 upd Hp ModeA 2 3 ltac:(lia) ltac:(lia) [0%nat] fields comps _ _ _ _ _ _ _ Hs1) as (r & _ & E & _). rewrite E. reflexivity.
Qed.
Example C37_nonvacuous : exists s, run_stepped rhs est0 upd (out 3 (fun n => Nat.eqb n 5)) (fun x => x) 1 1 IRK4 begin s /\ Nat.eqb (l_tstep s) 5 = true.
Proof.
  pose proof eps12_pos as He.
  destruct (step_exists rhs est0 upd (out 3 (fun n => Nat.eqb n 5)) (fun x => x) 1 0 IRK4 begin) as (s1 & Hs1 & Hn1 & Ht1).
  { discriminate. } { cbn [begin l_t l_dt]. lra. } exists s1. split; [exact Hs1|]. rewrite Hn1. reflexivity.
Qed.
Example C37_decision_nonvacuous : check_if_kill [true; false; true] = [Some true; Some true; Some true] /\ check_if_kill [false; false] = [Some false; Some false].
Proof. split; reflexivity. Qed.
Example C38_nonvacuous : one_step IRK4 /\ computes rhs f /\ update_is upd (fun _ _ u => u) /\
  never_killed (ctx := unit) (out 3 (fun _ => false)) /\
  exists s1 s2, run_reach rhs est0 upd (out 3 (fun _ => false)) (fun x => x) 1 1 IRK4 begin 1 s1 /\
    at_start (mkL (l_t s1) (l_dt s1) (l_tstep s1) (mkWorld (init_istate (solution (l_w s1)) (fun _ _ => C0) tt) (env s1)) false []) (solution (l_w s1)) /\
    run_stepped rhs est0 upd (out 3 (fun _ => false)) (fun x => x) 1 1 IRK4 s1 s2.
Proof.
  split; [left; reflexivity|]. split; [intros c r u; reflexivity|]. split; [intros t n u r c e; reflexivity|].
  split; [apply C37_continues; [lia|lia|reflexivity]|].
  destruct (two_steps 3 ltac:(lia)) as (s1 & s2 & Hr & Hs1 & Hs2 & Hn1 & Hn2). exists s1, s2. split; [exact Hr|]. split; [|exact Hs2].
  eexists _, _, _. reflexivity.
Qed.
End Ex.

Print Assumptions C35_schedule.
Print Assumptions C35_no_step.
Print Assumptions C36_between.
Print Assumptions C36_crash_points.
Print Assumptions C36_crash_refuted.
Print Assumptions C36_update_complete.
Print Assumptions C36_append_refuted.
Print Assumptions C37_stops.
Print Assumptions C37_continues.
Print Assumptions C37_decision.
Print Assumptions C37_refuted.
Print Assumptions C38_one_step.
Print Assumptions C38_AB2_refuted.
Print Assumptions C38_BS5_refuted.
