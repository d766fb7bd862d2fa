(** Theorems on demo/NS_shenfun.py: C86. *)
From Coq Require Import Reals ZArith List Arith Lra Lia FunctionalExtensionality.
From Verif Require Import Base.Cplx Base.Sums Base.Fin Spec.Fourier Spec.Energy Spec.RungeKutta Model.Maths Model.NS Model.Integrators
  Model.Short Model.DemoShenfun Proofs.Common Proofs.NSProofs Proofs.ShortProofs Proofs.EnergyProofs Props.Energy Props.Short.
Import ListNotations.
Open Scope R_scope.

Section Run.
Context {I X : Type} (T : transf I X) (K : ax3 -> I -> R) (nu : R).
Notation none := (fun _ _ => C0).

Lemma demo_short dt s : demo_step T K nu dt s = short_step T K (fun _ => true) nu dt s.
Proof. reflexivity. Qed.
Lemma short_S dt n s : short_steps T K (fun _ => true) nu dt (S n) s = short_steps T K (fun _ => true) nu dt n (short_step T K (fun _ => true) nu dt s).
Proof. reflexivity. Qed.
Lemma iter_S {A} (f : A -> A) n s : Nat.iter (S n) f s = Nat.iter n f (f s).
Proof. induction n as [|n IH]; [reflexivity|]. change (f (Nat.iter (S n) f s) = f (Nat.iter n f (f s))). rewrite IH. reflexivity. Qed.
Lemma demo_iter dt n : forall s, Nat.iter n (demo_step T K nu dt) s = short_steps T K (fun _ => true) nu dt n s.
Proof.
  induction n as [|n IH]; intros s; [reflexivity|]. rewrite short_S, <- demo_short, <- IH. apply iter_S.
Qed.

(** n passes are n classical Runge-Kutta steps of the right hand side of solvers/NS.py in the Vortex form, without
    padding, mask and source, and U is the transform of U_hat again *)
Theorem C86_equals_NS dt n (s : short I X) f :
  (forall u, exists b rhs, f u = fst (ComputeRHS_NS T K Vortex None nu none b rhs u)) ->
  sU s = bwdV T (sU_hat s) ->
  let s' := Nat.iter n (demo_step T K nu dt) s in
  sU_hat s' = Nat.iter n (rk4 f dt) (sU_hat s) /\ sU s' = bwdV T (sU_hat s').
Proof.
  intros Hf Hs s'. unfold s'. rewrite demo_iter. apply C57_equals_NS; [|exact Hs].
  intros u. destruct (Hf u) as (b & rhs & E). exists b, rhs. rewrite E, !ComputeRHS_NS_fst. reflexivity.
Qed.
Theorem C86_start U0 a b c d e g : (forall i, bwd T (fwd T (U0 i)) = U0 i) ->
  let s := demo_init T U0 a b c d e g in sU s = bwdV T (sU_hat s) /\ sU_hat s = fwdV T U0.
Proof. apply C57_start. Qed.
Theorem C86_divfree dt n (s : short I X) : sU s = bwdV T (sU_hat s) -> divfree F3 K (sU_hat s) ->
  divfree F3 K (sU_hat (Nat.iter n (demo_step T K nu dt) s)).
Proof. rewrite demo_iter. apply C57_divfree. Qed.

(** ** The loop *)
(** For dt > 0 the loop ends after the first number n of passes with n dt >= end_time - 1e-8 *)
Theorem C86_loop end_time dt (s : short I X) : 0 < dt -> exists n fuel,
  demo_loop T K nu end_time dt fuel 0 0 s = Some (INR n * dt, n, Nat.iter n (demo_step T K nu dt) s) /\
  end_time - 1e-8 <= INR n * dt /\ (forall m, (m < n)%nat -> INR m * dt < end_time - 1e-8).
Proof.
  intros Hdt. set (E := end_time - 1e-8).
  assert (G : forall d n s, (n <= d)%nat -> E <= INR d * dt -> (forall m, (m < n)%nat -> INR m * dt < E) ->
    exists n', demo_loop T K nu end_time dt (d - n) (INR n * dt) n (Nat.iter n (demo_step T K nu dt) s)
      = Some (INR n' * dt, n', Nat.iter n' (demo_step T K nu dt) s) /\ E <= INR n' * dt /\ (forall m, (m < n')%nat -> INR m * dt < E)).
  { intros d n. remember (d - n)%nat as f eqn:Ef. revert n Ef. induction f as [|f IH]; intros n Ef s0 Hn Hd Hm; cbn [demo_loop]; fold E.
    - assert (n = d) by lia. subst d. destruct (Rlt_dec (INR n * dt) E) as [L|L]; [lra|].
      exists n. split; [reflexivity|]. split; [lra|exact Hm].
    - destruct (Rlt_dec (INR n * dt) E) as [L|L].
      + destruct (IH (S n) ltac:(lia) s0 ltac:(lia) Hd) as (n' & A & B).
        { intros m Hl. destruct (Nat.eq_dec m n) as [->|]; [exact L|apply Hm; lia]. }
        exists n'. split; [|exact B]. rewrite <- A. rewrite S_INR. replace ((INR n + 1) * dt) with (INR n * dt + dt) by ring. reflexivity.
      + exists n. split; [reflexivity|]. split; [lra|exact Hm]. }
  assert (Hu : exists d, INR d > E / dt).
  { exists (Z.to_nat (Z.max 0 (up (E / dt)))). destruct (archimed (E / dt)) as [A _]. rewrite INR_IZR_INZ, Z2Nat.id by lia.
    pose proof (IZR_le (up (E / dt)) (Z.max 0 (up (E / dt))) ltac:(lia)). lra. }
  destruct Hu as (d & Hd).
  assert (Hd' : E <= INR d * dt).
  { apply Rmult_gt_compat_r with (r := dt) in Hd; [|exact Hdt]. unfold Rdiv in Hd. rewrite Rmult_assoc, Rinv_l, Rmult_1_r in Hd by lra. lra. }
  destruct (G d 0%nat s ltac:(lia) Hd' ltac:(intros; lia)) as (n & A & B). exists n, (d - 0)%nat.
  cbn [INR Nat.iter] in A. rewrite Rmult_0_l in A. split; [exact A|exact B].
Qed.
(** the shipped values give ten passes, to the time 0.1 *)
Theorem C86_passes (s : short I X) : exists fuel t,
  demo_loop T K nu 0.1 0.01 fuel 0 0 s = Some (t, 10%nat, Nat.iter 10 (demo_step T K nu 0.01) s) /\ t = 0.1.
Proof.
  destruct (C86_loop 0.1 0.01 s ltac:(lra)) as (n & fuel & A & B & D).
  assert (n = 10%nat).
  { destruct (Nat.lt_trichotomy n 10) as [L|[L|L]]; [exfalso|exact L|exfalso].
    - pose proof (le_INR n 9 ltac:(lia)) as H. cbn [INR] in H. lra.
    - pose proof (D 10%nat L) as H. cbn [INR] in H. lra. }
  subst n. exists fuel, (INR 10 * 0.01). split; [exact A|]. cbn [INR]. lra.
Qed.

(** ** Energy *)
Context (ms : list I) (w : I -> R) (xs : list X) (c : R).
Hypothesis Ha : adjoint ms w xs c (bwd T) (fwd T).
(** aliasing does not feed energy: without viscosity the right hand side does no work, with viscosity it is -nu |grad u|^2 *)
Theorem C86_budget f (u : svec ax3 I) :
  (forall u, exists b rhs, f u = fst (ComputeRHS_NS T K Vortex None nu none b rhs u)) -> divfree F3 K u ->
  derivable_pt_lim (fun s => energy F3 ms w (fun i k => u i k + RtoC s * f u i k)%C) 0 (- nu * gradsq F3 ms w (knorm2 F3 K) u).
Proof.
  intros Hf Hd. destruct (Hf u) as (b & rhs & ->).
  pose proof (C07_NS T ms w xs c Ha K Vortex None nu none u rhs b (or_introl eq_refl) Hd) as H.
  replace (- nu * gradsq F3 ms w (knorm2 F3 K) u) with (- nu * gradsq F3 ms w (knorm2 F3 K) u + power F3 ms w u none).
  - apply H. intros i k Hm. destruct Hm.
  - unfold power. rewrite (RsumL_0 _ (fun i => Spec.Energy.inner ms w (u i) (fun _ => C0))); [ring|].
    intros. apply inner_0. intros. unfold Re, Cconj, C0; simpl. ring.
Qed.
(** the number that the script compares is the energy of the final U_hat (c = 1/number of points), in contrast to
    cpp/spectralDNS.cpp (C84) *)
Theorem C86_printed dt n (s : short I X) (N : R) : N <> 0 -> c = / N -> sU s = bwdV T (sU_hat s) ->
  let s' := Nat.iter n (demo_step T K nu dt) s in
  (forall d k, In k ms -> fwd T (bwd T (sU_hat s' d)) k = sU_hat s' d k) ->
  demo_k N xs s' = energy F3 ms w (sU_hat s').
Proof.
  intros HN Hc Hs s' Hr.
  assert (E : sU s' = bwdV T (sU_hat s')).
  { destruct (short_steps_rk4 T K (fun _ => true) nu dt n s Hs) as (_ & E). unfold s'. rewrite demo_iter. exact E. }
  transitivity (energy F3 ms w (fun d => fwd T (sU s' d))).
  - assert (P : forall d, RsumL ms (fun k => w k * Cnorm2 (fwd T (sU s' d) k)) = c * RsumL xs (fun x => sU s' d x * sU s' d x)).
    { intros d. transitivity (Spec.Energy.inner ms w (sU_hat s' d) (fwd T (sU s' d))).
      - apply RsumL_ext. intros k Hk. rewrite E. unfold bwdV. rewrite (Hr d k Hk). unfold Re, Cconj, Cnorm2; simpl. ring.
      - rewrite (Ha _ _), E. reflexivity. }
    unfold demo_k, energy. rewrite (RsumL_ext _ _ _ (fun d _ => P d)), RsumL_scal, Hc. replace 0.5 with (/ 2) by lra. field. exact HN.
  - unfold energy. f_equal. apply RsumL_ext. intros d _. apply RsumL_ext. intros k Hk. rewrite E. unfold bwdV. rewrite (Hr d k Hk). reflexivity.
Qed.
End Run.
(** the hypothesis holds for the real FFT on every mesh N without padding *)
Theorem C86_budget_rfft (N : ax3 -> nat) (k0 : ax3 -> R) nu f u : (forall i, (0 < N i)%nat) ->
  let T := mkTransf _ _ (irfft3 N N (fun _ => 1)) (rfft3 N N (fun _ => 1)) in
  (forall u, exists b rhs, f u = fst (ComputeRHS_NS T (wavenumber N k0) Vortex None nu (fun _ _ => C0) b rhs u)) ->
  divfree F3 (wavenumber N k0) u ->
  derivable_pt_lim (fun s => energy F3 (modes3 N) (mult2 (N x2)) (fun i k => u i k + RtoC s * f u i k)%C) 0
    (- nu * gradsq F3 (modes3 N) (mult2 (N x2)) (knorm2 F3 (wavenumber N k0)) u).
Proof.
  intros HN T Hf Hd. eapply (C86_budget T (wavenumber N k0) nu); try eassumption.
  apply (rfft3_adjoint N N (fun _ => 1) HN); [intros; contradiction|lia].
Qed.
(** one mode, one point: a uniform flow *)
Example C86_example (s : short unit unit) (v : ax3 -> R) :
  let T := mkTransf unit unit (fun u x => Re (u x)) (fun U k => RtoC (U k)) in
  sU s = (fun d _ => v d) -> sU_hat s = (fun d _ => RtoC (v d)) ->
  let s' := Nat.iter 3 (demo_step T (fun _ _ => 0) (1/2) (1/10)) s in
  demo_k 1 [tt] s' = energy F3 [tt] (fun _ => 1) (sU_hat s') /\ divfree F3 (fun _ _ => 0) (sU_hat s').
Proof.
  intros T E1 E2 s'. assert (Hs : sU s = bwdV T (sU_hat s)) by (rewrite E1, E2; reflexivity). split.
  - assert (Ha : adjoint [tt] (fun _ => 1) [tt] 1 (bwd T) (fwd T)).
    { intros u U. cbn. unfold Spec.Energy.inner, Re, Cconj, RtoC; simpl. ring. }
    apply (C86_printed T (fun _ _ => 0) (1/2) [tt] (fun _ => 1) [tt] 1 Ha (1/10) 3 s 1); [lra|lra|exact Hs|].
    intros d [] _. fold s'.
    assert (Im : forall n d, snd (sU_hat (Nat.iter n (demo_step T (fun _ _ => 0) (1/2) (1/10)) s) d tt) = 0).
    { clear d. intros n d.
      destruct (short_steps_rk4 T (fun _ _ => 0) (fun _ => true) (1/2) (1/10) n s Hs) as (A & _). rewrite demo_iter, A.
      assert (R0 : forall u : svec ax3 unit, (forall d, snd (u d tt) = 0) -> forall d, snd (f_short T (fun _ _ => 0) (fun _ => true) (1/2) u d tt) = 0).
      { intros u Hu e. unfold f_short. rewrite leray_mean by (intros ?; reflexivity).
        unfold ucrosscurl. cbn [fwd T]. simpl. rewrite ?Hu. ring. }
      assert (Rp : forall (u v : svec ax3 unit) c, (forall d, snd (u d tt) = 0) -> (forall d, snd (v d tt) = 0) -> forall d, snd (plus u c v d tt) = 0).
      { intros u0 v0 c0 Hu Hv e. unfold plus. simpl. rewrite Hu, Hv. ring. }
      revert R0. generalize (f_short T (fun _ _ => 0) (fun _ => true) (1/2)). intros f R0.
      assert (Rk : forall u : svec ax3 unit, (forall d, snd (u d tt) = 0) -> forall d, snd (rk4 f (1/10) u d tt) = 0).
      { intros u Hu e.
        assert (H1 : forall d, snd (rk4_k1 f u d tt) = 0) by (apply R0, Hu).
        assert (H2 : forall d, snd (rk4_k2 f (1/10) u d tt) = 0) by (apply R0, Rp; assumption).
        assert (H3 : forall d, snd (rk4_k3 f (1/10) u d tt) = 0) by (apply R0, Rp; assumption).
        assert (H4 : forall d, snd (rk4_k4 f (1/10) u d tt) = 0) by (apply R0, Rp; assumption).
        unfold rk4, Cadd, Cmul, RtoC. cbn [fst snd]. rewrite Hu, H1, H2, H3, H4. ring. }
      assert (Ri : forall n u, (forall d, snd (u d tt) = 0) -> forall d, snd (iterate (rk4 f (1/10)) n u d tt) = 0).
      { clear -Rk. intros n. induction n as [|m IH]; intros u Hu; [exact Hu|]. cbn [iterate]. first [exact (IH _ (Rk _ Hu))|exact (Rk _ (IH _ Hu))]. }
      apply Ri. intros e. rewrite E2. reflexivity. }
    cbn [fwd bwd T]. pose proof (Im 3%nat d) as Z. fold s' in Z. destruct (sU_hat s' d tt) as (x & y). simpl in Z. subst y. reflexivity.
  - apply C86_divfree; [exact Hs|]. intros k. unfold kdot. cbn [elems F3 CsumL]. rewrite RtoC_0. ring.
Qed.
Print Assumptions C86_equals_NS.
Print Assumptions C86_budget_rfft.
Print Assumptions C86_start.
Print Assumptions C86_divfree.
Print Assumptions C86_loop.
Print Assumptions C86_passes.
Print Assumptions C86_budget.
Print Assumptions C86_printed.
