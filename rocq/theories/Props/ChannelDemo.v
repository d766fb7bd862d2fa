(** Theorems on the channel demos: restarting (C70), the flux controller (C71). *)
From Coq Require Import Reals List Bool Arith Lia Lra FunctionalExtensionality.
From Verif Require Import Base.Cplx Base.Sums Base.Fin Model.KMM Model.KMMRB Model.ChannelDemo
  Spec.Channel Proofs.KMMProofs Proofs.ChannelDemoProofs Props.Channel Props.ChannelConv Props.ChannelEx.
Open Scope R_scope.

Section Restart.
Context (K1 K2 : nat -> R) (root : bool) (mt : mats) (sv : solvers).
Context (nu dt : R) (mask : option (nat -> nat -> R)) (conv : vfld -> fld -> vfld) (Sk : vfld).
Context (nd n1 n2 : nat).
Hypothesis Hz : zero_mode_on_root n1 n2 root K1 K2.
Hypothesis Hroot : root = true -> (0 < n1)%nat /\ (0 < n2)%nat.
Hypothesis HADD : linear (ADD mt).
Hypothesis HBDD : linear (BDD mt).
Hypothesis HCDB : linear (CDB mt).
Hypothesis HT : solves nd (BDD mt) (TDMA sv (BDD mt)).
(** the convection and the update callback are functions of the modes stored in the arrays *)
Context (update : vfld -> vfld).
Hypothesis Hconv : forall U V g h, eqv n1 n2 U V -> eqf n1 n2 g h -> eqv n1 n2 (conv U g) (conv V h).
Hypothesis Hupd : forall U V, eqv n1 n2 U V -> eqv n1 n2 (update U) (update V).
(** and the callback leaves the wall normal vorticity alone, as the flux controller does *)
Hypothesis Hvort : forall U, eqf n1 n2 (g_of K1 K2 (update U)) (g_of K1 K2 U).

Notation integrate' := (integrate x0 x1 x2 K1 K2 K1 K2 root mt sv nu dt mask conv Sk).
Notation integrate_rk' := (integrate_rk x0 x1 x2 K1 K2 K1 K2 root mt sv nu dt mask conv Sk).
Notation pass' := (pass update integrate').
Notation pass_rk' := (pass_rk update integrate_rk').

Lemma consistent_eqf u h : g_consistent n1 n2 K1 K2 x1 x2 u h -> eqf n1 n2 h (g_of K1 K2 u).
Proof. intros H j k Hj Hk. extensionality i. rewrite <- (H j k Hj Hk i). reflexivity. Qed.

(** ** KMMRK3 *)
Hypothesis HGrk : forall rk j k, (rk < 3)%nat -> (j < n1)%nat -> (k < n2)%nat ->
  solves nd (comb2 (- 1) (ADD mt) (K1 j * K1 j + K2 k * K2 k + 2 / nu / (rk_a rk + rk_b rk) / dt) (BDD mt))
    (Helmholtz sv (ADD mt) (BDD mt) (- 1) (K1 j * K1 j + K2 k * K2 k + 2 / nu / (rk_a rk + rk_b rk) / dt)).
Definition mean_zero_rk (s : rst) : Prop :=
  g_mean_zero K1 K2 n1 n2 (r_g s).
Definition hg_mean_zero (s : rst) : Prop := g_mean_zero K1 K2 n1 n2 (r_hg0 s).

Lemma stage_g_mean rk s : (rk < 3)%nat -> mean_zero_rk s -> (rk = 0%nat \/ hg_mean_zero s) ->
  mean_zero_rk (stage x0 x1 x2 K1 K2 K1 K2 root mt sv nu dt mask conv Sk rk s) /\
  hg_mean_zero (stage x0 x1 x2 K1 K2 K1 K2 root mt sv nu dt mask conv Sk rk s).
Proof.
  intros Hrk H HH.
  assert (P : forall j k, (j < n1)%nat -> (k < n2)%nat -> K1 j = 0 -> K2 k = 0 -> forall i,
     hg_of x1 x2 K1 K2 mt (mask_vfld mask (conv (r_U s) (r_g s))) j k i = C0).
  { intros j k Hj Hk E1 E2 i. unfold hg_of, csub, csc. rewrite E1, E2, RtoC_0. ring. }
  unfold mean_zero_rk, hg_mean_zero, stage, ComputeRHS_rk, solve_linear_rk. cbv zeta.
  cbn [fst snd r_U r_g r_H r_hv0 r_hg0 r_h1].
  split.
  - assert (Q : forall j k, (j < n1)%nat -> (k < n2)%nat -> K1 j = 0 -> K2 k = 0 -> forall i,
      HelmholtzSolverG_rk K1 K2 mt sv nu dt rk j k
        (cadd (rsc (2 / nu / (rk_a rk + rk_b rk))
          (cadd (rsc (rk_a rk) (hg_of x1 x2 K1 K2 mt (mask_vfld mask (conv (r_U s) (r_g s))) j k))
                (rsc (rk_b rk) (r_hg0 s j k))))
          (AB_rk K1 K2 mt nu dt rk j k (r_g s j k))) i = C0).
    { intros j k Hj Hk E1 E2 i. unfold HelmholtzSolverG_rk, Ksq.
      destruct (HGrk rk j k Hrk Hj Hk) as (_ & _ & U3).
      change C0 with (czero i). apply U3; [intros l _; reflexivity|].
      intros l _. unfold AB_rk, HelmholtzCoeff, cadd, rsc, comb2.
      rewrite (P j k Hj Hk E1 E2).
      replace (r_g s j k) with czero by (extensionality m; symmetry; apply (H j k Hj Hk E1 E2)).
      rewrite !(lin_0 _ HADD), !(lin_0 _ HBDD).
      assert (B : (RtoC (rk_b rk) * r_hg0 s j k l)%C = C0).
      { destruct HH as [-> | HH]; [simpl; rewrite RtoC_0; ring|]. rewrite (HH j k Hj Hk E1 E2). ring. }
      rewrite B. ring. }
    destruct root; exact Q.
  - destruct root; exact P.
Qed.
Lemma integrate_g_mean s : mean_zero_rk s -> mean_zero_rk (integrate_rk' s).
Proof.
  intros H. unfold integrate_rk.
  destruct (stage_g_mean 0 s ltac:(lia) H (or_introl eq_refl)) as (A0 & B0).
  destruct (stage_g_mean 1 _ ltac:(lia) A0 (or_intror B0)) as (A1 & B1).
  exact (proj1 (stage_g_mean 2 _ ltac:(lia) A1 (or_intror B1))).
Qed.

(** g is the wall normal vorticity of U_hat after every step of KMMRK3 *)
Theorem C70_rk3_g_is_vorticity (s : rst) (n : nat) : mean_zero_rk s -> (0 < n)%nat ->
  let t := Nat.iter n pass_rk' s in eqf n1 n2 (r_g t) (g_of K1 K2 (r_U t)).
Proof.
  intros H Hn. destruct n as [|n]; [lia|]. cbn [Nat.iter nat_rect].
  assert (G : mean_zero_rk (Nat.iter n pass_rk' s)).
  { clear Hn. induction n as [|n IH]; [exact H|]. cbn [Nat.iter nat_rect]. exact (integrate_g_mean _ IH). }
  change (nat_rect (fun _ => rst) s (fun _ => pass_rk') n) with (Nat.iter n pass_rk' s).
  set (t := Nat.iter n pass_rk' s) in *. clearbody t. cbv zeta. unfold pass_rk. cbv zeta. cbn [r_U r_g].
  intros j k Hj Hk. rewrite (Hvort _ j k Hj Hk). revert j k Hj Hk.
  apply consistent_eqf. intros j k Hj Hk.
  pose proof (kmmrk3_continuity x0 x1 x2 ltac:(discriminate) ltac:(discriminate) ltac:(discriminate)
     K1 K2 K1 K2 root mt sv nu dt mask conv Sk nd n1 n2 t Hz HBDD HCDB HT j k Hj Hk) as (_ & V & _).
  destruct (Req_dec (K1 j) 0) as [E1|E1]; [destruct (Req_dec (K2 k) 0) as [E2|E2]|].
  - intros i. transitivity C0; [rewrite E1, E2, RtoC_0; ring|].
    symmetry. exact (integrate_g_mean t G j k Hj Hk E1 E2 i).
  - apply V. tauto.
  - apply V. tauto.
Qed.

Lemma pass_rk_local s s' : simr n1 n2 s s' -> simr n1 n2 (pass_rk' s) (pass_rk' s').
Proof.
  intros H. destruct (integrate_rk_local n1 n2 x0 x1 x2 K1 K2 K1 K2 root mt sv nu dt mask conv Sk Hroot Hconv _ _ H) as (A & B).
  unfold pass_rk. cbv zeta. split; cbn [r_U r_g]; [apply Hupd; exact A | exact B].
Qed.

(** C70: a run of MKM with KMMRK3, stopped after any number of steps, restarted from its checkpoint
    in a fresh context (whatever that contains), goes through the same velocities as the run that
    was not stopped. *)
Theorem C70_rk3_restart (s r : rst) (n m : nat) : mean_zero_rk s -> (0 < n)%nat ->
  let t := Nat.iter n pass_rk' s in
  let t' := init_from_file_rk K1 K2 (saved_rk t) r in
  forall c j k, (j < n1)%nat -> (k < n2)%nat ->
  r_U (Nat.iter m pass_rk' t') c j k = r_U (Nat.iter m pass_rk' t) c j k.
Proof.
  intros H Hn. cbv zeta. pose proof (C70_rk3_g_is_vorticity s n H Hn) as G. cbv zeta in G.
  set (t := Nat.iter n pass_rk' s) in *. clearbody t.
  set (t' := init_from_file_rk K1 K2 (saved_rk t) r).
  assert (S : simr n1 n2 (Nat.iter m pass_rk' t') (Nat.iter m pass_rk' t)).
  { induction m as [|m IH].
    - split; [apply eqv_refl|]. intros j k Hj Hk. cbn. symmetry. apply G; assumption.
    - cbn [Nat.iter nat_rect]. apply pass_rk_local, IH. }
  intros c j k Hj Hk. apply (proj1 S); assumption.
Qed.

(** ** KMM *)
Hypothesis HG : forall j k, (j < n1)%nat -> (k < n2)%nat ->
  solves nd (comb2 (- 1) (ADD mt) (K1 j * K1 j + K2 k * K2 k + 2 / nu / dt) (BDD mt))
    (Helmholtz sv (ADD mt) (BDD mt) (- 1) (K1 j * K1 j + K2 k * K2 k + 2 / nu / dt)).

Lemma pass_g_mean s : g_mean_zero K1 K2 n1 n2 (g s) -> g_mean_zero K1 K2 n1 n2 (g (pass' s)).
Proof.
  intros H. exact (step_g_mean x0 x1 x2 K1 K2 K1 K2 root mt sv nu dt mask conv Sk nd n1 n2
    ltac:(intros; split; assumption) HADD HBDD HG s H).
Qed.
Lemma iter_g_mean s n : g_mean_zero K1 K2 n1 n2 (g s) -> g_mean_zero K1 K2 n1 n2 (g (Nat.iter n pass' s)).
Proof. intros H. induction n as [|n IH]; [exact H|]. cbn [Nat.iter nat_rect]. apply pass_g_mean, IH. Qed.
Lemma pass_g s : g_mean_zero K1 K2 n1 n2 (g s) -> eqf n1 n2 (g (pass' s)) (g_of K1 K2 (U_hat (pass' s))).
Proof.
  intros H. unfold pass, updated, end_of_tstep. cbn [U_hat g].
  intros j k Hj Hk. rewrite (Hvort _ j k Hj Hk). revert j k Hj Hk. apply consistent_eqf.
  exact (C68_g_is_vorticity x0 x1 x2 ltac:(discriminate) ltac:(discriminate) ltac:(discriminate)
    K1 K2 K1 K2 root mt sv nu dt mask conv Sk nd n1 n2 Hz ltac:(intros; split; assumption) HADD HBDD HCDB HT HG s 1 H ltac:(lia)).
Qed.

Lemma pass_local s s' : simk n1 n2 s s' -> simk n1 n2 (pass' s) (pass' s').
Proof.
  intros IH.
  destruct (integrate_local n1 n2 x0 x1 x2 K1 K2 K1 K2 root mt sv nu dt mask conv Sk Hroot Hconv _ _ IH) as (A & B & D).
  unfold pass, end_of_tstep, updated, simk. cbn [U_hat g H_hat H_hat1 U_hat0].
  split; [apply Hupd; exact A|]. split; [exact B|]. split; [exact D | apply Hupd; exact A].
Qed.
Lemma iter_local m s s' : simk n1 n2 s s' -> simk n1 n2 (Nat.iter m pass' s) (Nat.iter m pass' s').
Proof. intros H. induction m as [|m IH]; [exact H|]. cbn [Nat.iter nat_rect]. apply pass_local, IH. Qed.
Lemma H_integrate q : H_hat (integrate' q) = conv (U_hat q) (g q).
Proof. reflexivity. Qed.
Lemma U0_integrate q : U_hat0 (integrate' q) = U_hat0 q.
Proof. reflexivity. Qed.
Lemma restart_sim q (r : kst) (Hg : eqf n1 n2 (g q) (g_of K1 K2 (U_hat q))) (H0 : U_hat0 q = U_hat q)
  (Hg' : eqf n1 n2 (g (pass' q)) (g_of K1 K2 (U_hat (pass' q)))) :
  let w := updated update (integrate' q) in
  simk n1 n2 (mkK (U_hat w) (g_of K1 K2 (U_hat w)) (H_hat r) (H_hat0 r)
                (conv (U_hat0 w) (g_of K1 K2 (U_hat0 w))) (U_hat w)) (end_of_tstep w).
Proof.
  unfold pass in Hg'. revert Hg'. pose proof (H_integrate q) as E1. pose proof (U0_integrate q) as E2.
  revert E1 E2. generalize (integrate' q). intros v E1 E2.
  unfold updated, end_of_tstep, simk. cbn [U_hat g H_hat H_hat0 H_hat1 U_hat0]. intros Hg'.
  split; [apply eqv_refl|]. split; [intros j k Hj Hk; symmetry; apply Hg'; assumption|].
  split; [|apply eqv_refl]. rewrite E1, E2, H0. apply Hconv; [apply eqv_refl|].
  intros j k Hj Hk. symmetry. apply Hg; assumption.
Qed.
Lemma pass_U0 q : U_hat0 (pass' q) = U_hat (pass' q).
Proof. reflexivity. Qed.

(** The two fields in the file are enough: a restart that sets U_hat and U_hat0 from the first,
    g from it, and H_hat1 from the second with ITS vorticity goes on exactly.  [w] is the state
    at the time the file is written: after integrate and update, before end_of_tstep. *)
Theorem C70_checkpoint_suffices (s r : kst) (n m : nat) : g_mean_zero K1 K2 n1 n2 (g s) -> (0 < n)%nat ->
  let w := updated update (integrate' (Nat.iter n pass' s)) in
  exists u1, f_1 (saved w) = Some u1 /\
  let t' := mkK (f_0 (saved w)) (g_of K1 K2 (f_0 (saved w))) (H_hat r) (H_hat0 r)
                (conv u1 (g_of K1 K2 u1)) (f_0 (saved w)) in
  forall c j k, (j < n1)%nat -> (k < n2)%nat ->
  U_hat (Nat.iter m pass' t') c j k = U_hat (Nat.iter m pass' (end_of_tstep w)) c j k.
Proof.
  intros H Hn. destruct n as [|n]; [lia|].
  pose proof (iter_g_mean s n H) as G0. change (Nat.iter (S n) pass' s) with (pass' (Nat.iter n pass' s)).
  revert G0. generalize (Nat.iter n pass' s). intros p G0. cbv zeta.
  pose proof (pass_g p G0) as G1. pose proof (pass_g_mean p G0) as G2.
  pose proof (pass_U0 p) as E0.
  revert G1 G2 E0. generalize (pass' p). intros q G1 G2 E0.
  pose proof (restart_sim q r G1 E0 (pass_g q G2)) as S. cbv zeta in S.
  revert S. generalize (updated update (integrate' q)). intros w S.
  exists (U_hat0 w). split; [reflexivity|]. unfold saved. cbn [f_0 f_1].
  intros c j k Hj Hk. apply (proj1 (iter_local m _ _ S)); assumption.
Qed.

(** What init_from_file does instead: U_hat0 stays at the older field, H_hat1 is computed with the g
    that was in the context. *)
Theorem C70_kmm_restart_state (w c : kst) :
  exists t', init_from_file K1 K2 conv (saved w) c = Some t' /\
    U_hat t' = U_hat w /\ g t' = g_of K1 K2 (U_hat w) /\
    U_hat0 t' = U_hat0 w /\ H_hat1 t' = conv (U_hat0 w) (g c).
Proof. eexists. split; [reflexivity|]. repeat split. Qed.

(** Hence the first step of the restarted run repeats, for the mean flow, the step whose result is
    in the file: if the convection has no mean (laminar flow), the streamwise mean velocity after
    that step is the one in the checkpoint, although time has moved by dt. *)
Theorem C70_kmm_restart_repeats_refuted (s c t' : kst) : root = true ->
  (forall u h, conv u h x1 0%nat 0%nat = czero) -> H_hat1 s x1 0%nat 0%nat = czero ->
  init_from_file K1 K2 conv (saved (integrate' s)) c = Some t' ->
  U_hat (integrate' t') x1 0%nat 0%nat = U_hat (integrate' s) x1 0%nat 0%nat /\
  U_hat t' x1 0%nat 0%nat = U_hat (integrate' s) x1 0%nat 0%nat.
Proof.
  intros HR Hc H1 E. injection E as <-. split; [|reflexivity].
  assert (Z : forall a b : R, csub (rsc a czero) (rsc b czero) = czero).
  { intros a b. extensionality i. unfold csub, rsc, czero. ring. }
  assert (M : forall U V, conv U V x1 0%nat 0%nat = czero -> forall H1, H1 x1 0%nat 0%nat = czero ->
     mask_vfld mask (assembleAB (conv U V) H1) x1 0%nat 0%nat = czero).
  { intros U V A h1 B. unfold mask_vfld, assembleAB. destruct mask; cbv beta; rewrite A, B, Z; [|reflexivity].
    extensionality i. unfold rsc, czero. ring. }
  unfold integrate, ComputeRHS, solve_linear. cbv zeta.
  cbn [U_hat g H_hat H_hat0 H_hat1 U_hat0 fst snd saved f_0 f_1].
  rewrite HR.
  rewrite !(mean3_c1 x0 x1 x2) by discriminate. cbn [Nat.eqb andb].
  rewrite (M _ _ (Hc _ _) _ H1). rewrite (M _ _ (Hc _ _)); [reflexivity|]. apply Hc.
Qed.

(** A checkpoint written by KMMRK3 cannot be read by KMM (AssertionError) *)
Theorem C70_rk3_file_in_kmm (r : rst) (c : kst) : init_from_file K1 K2 conv (saved_rk r) c = None.
Proof. reflexivity. Qed.
End Restart.

(** ** KMM_RB *)
Section RB.
Context (K1 K2 : nat -> R) (conv : vfld -> fld -> vfld).
(** RayleighBenard.init_from_file against the state that the run went on with: the time is not
    restored, tstep becomes the time, and unless the step in the file changed nothing the old
    velocity, the temperature that the next step starts from, and the one before it are wrong. *)
Theorem C70_rb_restart_refuted (s c : rbst) (tstep t : R) (p : clock) :
  let '(c', p') := init_from_file_rb K1 K2 conv (saved_rb s tstep t) c p in
  let go := end_of_tstep_rb s in
  U_hat (base c') = U_hat (base go) /\ phi c' = phi go /\
  p_t p' = p_t p /\ p_tstep p' = t /\
  (U_hat0 (base c') = U_hat0 (base go) <-> U_hat0 (base s) = U_hat (base s)) /\
  (phi0 c' = phi0 go <-> phi0 s = phi s) /\
  (phi1 c' = phi1 go <-> phi1 c = phi0 s).
Proof.
  unfold init_from_file_rb, saved_rb, end_of_tstep_rb. cbv zeta.
  cbn [base U_hat U_hat0 phi phi0 phi1 p_t p_tstep rb_0 rb_1 rbphi_0 rbphi_1 a_t a_tstep].
  repeat split; auto.
Qed.
End RB.

(** ** KMMRK3_RB *)
Section RKRB.
Context (K1 K2 : nat -> R) (root : bool) (mt : mats) (sv : solvers) (nu dt kappa : R).
Context (mask : option (nat -> nat -> R)) (conv : vfld -> fld -> vfld) (Sk : vfld).
Context (ADDT BDDT : col -> col) (btt0 btt1 : R) (Nx : nat) (AS BS : col -> col).
Context (convT : vfld -> fld -> fld) (nd n1 n2 : nat).
Hypothesis Hz : zero_mode_on_root n1 n2 root K1 K2.
Hypothesis HADD : linear (ADD mt).
Hypothesis HBDD : linear (BDD mt).
Hypothesis HCDB : linear (CDB mt).
Hypothesis HT : solves nd (BDD mt) (TDMA sv (BDD mt)).
Hypothesis HGrk : forall rk j k, (rk < 3)%nat -> (j < n1)%nat -> (k < n2)%nat ->
  solves nd (comb2 (- 1) (ADD mt) (K1 j * K1 j + K2 k * K2 k + 2 / nu / (rk_a rk + rk_b rk) / dt) (BDD mt))
    (Helmholtz sv (ADD mt) (BDD mt) (- 1) (K1 j * K1 j + K2 k * K2 k + 2 / nu / (rk_a rk + rk_b rk) / dt)).
Hypothesis Hroot : root = true -> (0 < n1)%nat /\ (0 < n2)%nat.
Hypothesis Hconv : forall U V g h, eqv n1 n2 U V -> eqf n1 n2 g h -> eqv n1 n2 (conv U g) (conv V h).
Hypothesis HconvT : forall U V p q, eqv n1 n2 U V -> eqf n1 n2 p q -> eqf n1 n2 (convT U p) (convT V q).
Notation run := (integrate_rkrb x0 x1 x2 K1 K2 K1 K2 root mt sv nu dt kappa mask conv Sk
                   ADDT BDDT btt0 btt1 Nx AS BS convT).

Lemma stage_plus_continuity add (rk : nat) (s : rst) :
  let s' := stage_plus x0 x1 x2 K1 K2 K1 K2 root mt sv nu dt mask conv Sk add rk s in
  good_field x0 x1 x2 K1 K2 mt nd n1 n2 (r_U s') (r_g s').
Proof.
  unfold stage_plus, ComputeRHS_rk, solve_linear_rk. cbv zeta. simpl.
  assert (W : forall (m0 m1 : col) (f gh : fld) (U : vfld),
     (forall j k d, is_dx nd (BDD mt) (CDB mt) (U x0 j k) d -> forall i, f j k i = (- d i)%C) ->
     let u := compute_vw x1 x2 K1 K2 U f gh in
     good_field x0 x1 x2 K1 K2 mt nd n1 n2
       (if root then set00 (set00 (set00 u x1 m0) x2 m1) x0 czero else u) gh)
    by (intros; eapply vw_good; eauto; discriminate).
  destruct root.
  - simpl. apply W. intros j k d Hd i. apply (tdma_neg' nd _ _ _ HBDD HCDB HT _ _ Hd i).
  - simpl. refine (W czero czero _ _ _ _). intros j k d Hd i. apply (tdma_neg' nd _ _ _ HBDD HCDB HT _ _ Hd i).
Qed.
Notation stage_rb := (stage_rkrb x0 x1 x2 K1 K2 K1 K2 root mt sv nu dt kappa mask conv Sk
                   ADDT BDDT btt0 btt1 Nx AS BS convT).
Lemma stage_rb_g rk s : let s' := stage x0 x1 x2 K1 K2 K1 K2 root mt sv nu dt mask conv Sk rk (rbase s) in
  r_g (rbase (stage_rb rk s)) = r_g s' /\ r_hg0 (rbase (stage_rb rk s)) = r_hg0 s'.
Proof.
  unfold stage_rkrb, ComputeRHS_rkrb, solve_linear_rkrb, stage, ComputeRHS_rk, solve_linear_rk. cbv zeta.
  cbn [rbase fst snd]. destruct root; split; reflexivity.
Qed.
Lemma stage_rb_mean rk s : (rk < 3)%nat -> mean_zero_rk K1 K2 n1 n2 (rbase s) ->
  (rk = 0%nat \/ hg_mean_zero K1 K2 n1 n2 (rbase s)) ->
  mean_zero_rk K1 K2 n1 n2 (rbase (stage_rb rk s)) /\ hg_mean_zero K1 K2 n1 n2 (rbase (stage_rb rk s)).
Proof.
  intros Hrk A B. unfold mean_zero_rk, hg_mean_zero.
  destruct (stage_rb_g rk s) as (-> & ->).
  eapply stage_g_mean; eassumption.
Qed.
Lemma run_rb_mean s : mean_zero_rk K1 K2 n1 n2 (rbase s) -> mean_zero_rk K1 K2 n1 n2 (rbase (run s)).
Proof.
  intros H. unfold integrate_rkrb.
  destruct (stage_rb_mean 0 s ltac:(lia) H (or_introl eq_refl)) as (A0 & B0).
  destruct (stage_rb_mean 1 _ ltac:(lia) A0 (or_intror B0)) as (A1 & B1).
  exact (proj1 (stage_rb_mean 2 _ ltac:(lia) A1 (or_intror B1))).
Qed.
Lemma run_rb_g s : mean_zero_rk K1 K2 n1 n2 (rbase s) ->
  eqf n1 n2 (r_g (rbase (run s))) (g_of K1 K2 (r_U (rbase (run s)))).
Proof.
  intros H. pose proof (run_rb_mean s H) as M. apply consistent_eqf. intros j k Hj Hk.
  assert (V : ~ (K1 j = 0 /\ K2 k = 0) ->
     normal_vorticity (K1 j) (K2 k) (r_U (rbase (run s)) x1 j k) (r_U (rbase (run s)) x2 j k) (r_g (rbase (run s)) j k)).
  { unfold integrate_rkrb. generalize (stage_rb 1 (stage_rb 0 s)). intros t.
    pose proof (stage_plus_continuity (fun j k => rsc (dt * (rk_a 2 + rk_b 2)) (buoyancy K1 K2 mt btt0 btt1 Nx (rphi t) j k))
                  2 (rbase t) j k Hj Hk) as (_ & V & _). exact V. }
  destruct (Req_dec (K1 j) 0) as [E1|E1]; [destruct (Req_dec (K2 k) 0) as [E2|E2]|].
  - intros i. transitivity C0; [rewrite E1, E2, RtoC_0; ring|].
    symmetry. exact (M j k Hj Hk E1 E2 i).
  - apply V. tauto.
  - apply V. tauto.
Qed.

(** C70: a run of RayleighBenard with KMMRK3_RB, stopped after any number of steps, goes on exactly
    from its checkpoint. *)
Theorem C70_rkrb_restart (s r : rkrb) (n m : nat) : mean_zero_rk K1 K2 n1 n2 (rbase s) -> (0 < n)%nat ->
  let t := Nat.iter n run s in
  let t' := init_from_file_rkrb K1 K2 (saved_rkrb t) r in
  forall j k, (j < n1)%nat -> (k < n2)%nat ->
  (forall c, r_U (rbase (Nat.iter m run t')) c j k = r_U (rbase (Nat.iter m run t)) c j k) /\
  rphi (Nat.iter m run t') j k = rphi (Nat.iter m run t) j k.
Proof.
  intros H Hn. cbv zeta. destruct n as [|n]; [lia|].
  assert (M : mean_zero_rk K1 K2 n1 n2 (rbase (Nat.iter n run s))).
  { clear Hn. induction n as [|n IH]; [exact H|]. cbn [Nat.iter nat_rect]. apply run_rb_mean, IH. }
  change (Nat.iter (S n) run s) with (run (Nat.iter n run s)). revert M. generalize (Nat.iter n run s). intros q M.
  pose proof (run_rb_g q M) as G. revert G. generalize (run q). intros t G.
  set (t' := init_from_file_rkrb K1 K2 (saved_rkrb t) r).
  assert (S : simrb n1 n2 (Nat.iter m run t') (Nat.iter m run t)).
  { induction m as [|m IH].
    - split; [split; [apply eqv_refl|] | apply eqf_refl]. intros j k Hj Hk. cbn. symmetry. apply G; assumption.
    - cbn [Nat.iter nat_rect]. apply run_rkrb_local; assumption. }
  destruct S as ((S1 & _) & S2).
  intros j k Hj Hk. split; [intros c; apply S1; assumption | apply S2; assumption].
Qed.
End RKRB.

(** ** Concrete runs *)
Definition rest : kst := mkK (fun _ _ _ => czero) (fun _ _ => czero) (fun _ _ _ => czero)
  (fun _ _ _ => czero) (fun _ _ _ => czero) (fun _ _ _ => czero).
Notation int1 := (integrate x0 x1 x2 INR INR INR INR true mt0 sv0 nu0 1 None conv1 Sk0).

Definition mean1 (s : kst) : R := fst (U_hat s x1 0%nat 0%nat 0%nat).
Lemma mean_int1 s : H_hat1 s x1 0%nat 0%nat = czero ->
  mean1 (int1 s) = (3 * fst (U_hat0 s x1 0%nat 0%nat 0%nat) - 4) / 5.
Proof.
  intros H. unfold mean1, integrate, ComputeRHS, solve_linear. cbv zeta. cbn [U_hat H_hat0 U_hat0 fst snd].
  rewrite (mean3_c1 x0 x1 x2) by discriminate. cbn [Nat.eqb andb].
  unfold mean_solve, HelmholtzSolverU0, sv0, Helmholtz, dsolve. cbn [n3 Nat.ltb Nat.leb].
  change (ADD0 mt0) with (dg dA). change (BDD0 mt0) with (dg dB). rewrite !diag_dg by (unfold n3; lia).
  unfold mask_vfld, assembleAB. rewrite H. unfold conv1, cadd, csub, rsc, dg, Sk0, dA, dB, nu0.
  cbn [n3 Nat.ltb Nat.leb Nat.eqb andb INR]. unfold czero. cbn -[Cmul Cadd Csub]. cparts. cbn. field.
Qed.

(** From rest, one step: the mean velocity in the file is -4/5.  The run goes on to -32/25, the
    restarted run stays at -4/5. *)
Example C70_kmm_restart_case (c : kst) :
  exists t', init_from_file INR INR conv1 (saved (int1 rest)) c = Some t' /\
    mean1 t' = - (4 / 5) /\
    mean1 (int1 (end_of_tstep (int1 rest))) = - (32 / 25) /\
    mean1 (int1 t') = - (4 / 5).
Proof.
  assert (E : mean1 (int1 rest) = - (4 / 5)).
  { rewrite mean_int1 by reflexivity. cbn. field. }
  destruct (C70_kmm_restart_state INR INR conv1 (int1 rest) c) as (t' & I & A & _ & B & D).
  exists t'. split; [exact I|]. split; [|split].
  - unfold mean1. rewrite A. exact E.
  - rewrite mean_int1 by reflexivity. change (U_hat0 (end_of_tstep (int1 rest))) with (U_hat (int1 rest)).
    unfold mean1 in E. rewrite E. field.
  - rewrite <- E. unfold mean1. f_equal.
    exact (f_equal (fun x : col => x 0%nat) (proj1 (C70_kmm_restart_repeats_refuted INR INR true mt0 sv0 nu0 1 None conv1 Sk0
      rest c t' eq_refl (fun _ _ => eq_refl) eq_refl I))).
Qed.

(** KMMRK3 with a convection that depends on the velocity *)
Lemma conv0_local U V g h : eqv 2 2 U V -> eqf 2 2 g h -> eqv 2 2 (conv0 U g) (conv0 V h).
Proof. intros A _ c j k Hj Hk. unfold conv0. rewrite (A c j k Hj Hk). reflexivity. Qed.
Example C70_rk3_restart_case (s r : rst) (n m : nat) : r_g s = (fun _ _ => czero) -> (0 < n)%nat ->
  let run := integrate_rk x0 x1 x2 INR INR INR INR true mt0 sv0 nu0 1 None conv0 Sk0 in
  let p := pass_rk (fun u => u) run in
  let t := Nat.iter n p s in
  forall c j k, (j < 2)%nat -> (k < 2)%nat ->
  r_U (Nat.iter m p (init_from_file_rk INR INR (saved_rk t) r)) c j k = r_U (Nat.iter m p t) c j k.
Proof.
  intros Hg Hn. cbv zeta.
  apply (C70_rk3_restart INR INR true mt0 sv0 nu0 1 None conv0 Sk0 n3 2 2 channel_zero_mode
           ltac:(lia) (dg_linear _) (dg_linear _) CDB_linear channel_mass_solver_exists (fun u => u)
           conv0_local ltac:(auto) ltac:(intros; apply eqf_refl)).
  - intros rk j k Hrk _ _. destruct (channel_rk_solvers_exist rk Hrk) as (H & _). apply H.
  - intros j k _ _ _ _ i. rewrite Hg. reflexivity.
  - exact Hn.
Qed.

Print Assumptions C70_rk3_g_is_vorticity.
Print Assumptions C70_rk3_restart.
Print Assumptions C70_checkpoint_suffices.
Print Assumptions C70_kmm_restart_state.
Print Assumptions C70_kmm_restart_repeats_refuted.
Print Assumptions C70_rk3_file_in_kmm.
Print Assumptions C70_rb_restart_refuted.
Print Assumptions C70_rkrb_restart.
