(** Theorems on the stability of the implicit viscous terms of KMM, KMMr and KMMRK3: C89. *)
From Coq Require Import Reals List Bool Arith Lia Lra FunctionalExtensionality.
From Verif Require Import Base.Cplx Base.Sums Base.Fin Model.KMM Spec.Chebyshev Spec.Channel Spec.ChannelField Spec.Galerkin
  Proofs.ChebyshevProofs Proofs.KMMProofs Proofs.CoupledProofs Proofs.GalerkinProofs Proofs.StabilityProofs Props.Channel Props.Galerkin.
Open Scope R_scope.

(** z = the integral of |f|^2 with the weight 1/sqrt(1-x^2) *)
Definition norm2 (f : R -> C) (z : R) : Prop := wint (fun x => fst (f x) ^ 2 + snd (f x) ^ 2) z.
(** the difference of the functions with the coefficients u and v *)
Definition diff (N : nat) (u v : column) (x : R) : C := (series (N - 2) phi u x - series (N - 2) phi v x)%C.
(** The difference of two solutions shrinks from u - v to u' - v' within the time tau:
    |u'-v'|^2 + tau nu (1/2 + k2) |(u-v) + (u'-v')|^2 / 2 <= |u-v|^2 *)
Definition decays (N : nat) (nu k2 tau : R) (u v u' v' : column) : Prop :=
  exists a b c, norm2 (diff N u v) a /\ norm2 (diff N u' v') b /\
    norm2 (fun x => diff N u v x + diff N u' v' x)%C c /\ 0 <= c /\ b + tau * nu / 2 * (1 / 2 + k2) * c <= a.
Definition no_growth (N : nat) (u v u' v' : column) : Prop :=
  exists a b, norm2 (diff N u v) a /\ norm2 (diff N u' v') b /\ 0 <= b <= a.

Lemma norm2_rdot f z : wint (fun x => rdot (f x) (f x)) z -> norm2 f z.
Proof. intros H. eapply wint_ext; [|exact H]. intros x. unfold rdot. ring. Qed.
Lemma norm2_nonneg f z : norm2 f z -> 0 <= z.
Proof. apply wint_nonneg. intros x _. pose proof (pow2_ge_0 (fst (f x))). pose proof (pow2_ge_0 (snd (f x))). lra. Qed.
Lemma decays_no_growth N nu k2 tau u v u' v' : 0 <= nu -> 0 <= k2 -> 0 < tau -> decays N nu k2 tau u v u' v' -> no_growth N u v u' v'.
Proof.
  intros Hn Hk Ht (a & b & c & Ha & Hb & _ & Hc & L). exists a, b. repeat split; [exact Ha | exact Hb | apply (norm2_nonneg _ _ Hb)|].
  assert (0 <= tau * nu / 2) by nra. assert (0 <= (tau * nu / 2) * (1 / 2 + k2)) by nra. nra.
Qed.
Lemma no_growth_trans N u v u' v' u'' v'' : no_growth N u v u' v' -> no_growth N u' v' u'' v'' -> no_growth N u v u'' v''.
Proof.
  intros (a & b & Ha & Hb & L) (b' & c & Hb' & Hc & L'). exists a, c. repeat split; [exact Ha | exact Hc | lra|].
  pose proof (wint_unique _ _ _ Hb Hb'). lra.
Qed.

(** Crank-Nicolson with the Dirichlet functions, any time step *)
Theorem C89_crank_nicolson (N : nat) (A B : column -> column) (nu k2 tau : R) (h u u' v v' : column) :
  (2 <= N)%nat -> rows N cw 2 (N - 2) phi (N - 2) phi A -> rows N cw 0 (N - 2) phi (N - 2) phi B -> 0 <= nu -> 0 < tau ->
  crank_nicolson (N - 2) B (visc nu k2 A B) tau h u u' -> crank_nicolson (N - 2) B (visc nu k2 A B) tau h v v' ->
  decays N nu k2 tau u v u' v'.
Proof.
  intros HN HA HB Hnu Ht Cu Cv.
  destruct (cn_contract N HN A B HA HB nu k2 tau h u u' v v' Hnu Ht Cu Cv) as (a & b & c & Ha & Hb & Hc & L).
  apply norm2_rdot in Hc. exists a, b, c.
  split; [apply norm2_rdot, Ha|]. split; [apply norm2_rdot, Hb|]. split; [exact Hc|]. split; [apply (norm2_nonneg _ _ Hc) | exact L].
Qed.
(** The inequality behind it: (u'', u) <= - (u, u)/2 for every function of the Dirichlet space *)
Theorem C89_second_derivative (N : nat) (u : column) (u2 : R -> C) z y : nth_derivative 2 (series (N - 2) phi u) u2 ->
  wint (fun x => Re (u2 x * Cconj (series (N - 2) phi u x))%C) z -> norm2 (series (N - 2) phi u) y -> z <= - (y / 2).
Proof.
  intros D Hz Hy. destruct (nth2_P2 _ _ D) as (f1 & F & F'). destruct (series_walls (N - 2) u) as (W & W').
  apply (coercive _ _ _ _ _ _ z y W W' F F').
  - eapply wint_ext; [|exact Hz]. intros x. cbv beta. generalize (u2 x) (series (N - 2) phi u x). intros [a b] [c d]. unfold Re, Cconj, Cmul. cbn [fst snd]. ring.
  - eapply wint_ext; [|exact Hy]. intros x. cbv beta. ring.
Qed.

Section Stability.
Context (cn c1 c2 : ax3).
Hypothesis Hn1 : cn <> c1.
Hypothesis Hn2 : cn <> c2.
Hypothesis H12 : c1 <> c2.
Context (K1 K2 Kx1 Kx2 : nat -> R) (root : bool) (mt : mats) (sv : solvers).
Context (nu dt : R) (mask : option (nat -> nat -> R)) (conv : vfld -> fld -> vfld) (Sk : vfld) (N : nat).
Hypothesis HN : (4 <= N)%nat.
Hypothesis HG : galerkin N cw mt.
Hypothesis Hnu : 0 < nu.
Hypothesis Hdt : 0 < dt.
Hypothesis HB0 : linear (BDD0 mt).
Notation ksq j k := (K1 j * K1 j + K2 k * K2 k).
Notation integrate' := (integrate cn c1 c2 K1 K2 Kx1 Kx2 root mt sv nu dt mask conv Sk).
Notation step' := (step cn c1 c2 K1 K2 Kx1 Kx2 root mt sv nu dt mask conv Sk).
Notation stage' := (stage cn c1 c2 K1 K2 Kx1 Kx2 root mt sv nu dt mask conv Sk).
Notation integrate_rk' := (integrate_rk cn c1 c2 K1 K2 Kx1 Kx2 root mt sv nu dt mask conv Sk).
Notation ex s := (extrap mask (conv (U_hat s) (g s)) (H_hat1 s)).
Notation theta rk := (rk_a rk + rk_b rk).

Lemma ksq_nonneg j k : 0 <= ksq j k.
Proof. nra. Qed.

(** ** KMM, KMMr: two states with the same extrapolated convection *)
Section Kmm.
Hypothesis Hs : kmm_solvers_ok K1 K2 mt sv nu dt (N - 2) (N - 4).
Theorem C89_vorticity (s r : kst) j k : (forall c, c <> cn -> ex s c j k = ex r c j k) ->
  decays N nu (ksq j k) dt (g s j k) (g r j k) (g (integrate' s) j k) (g (integrate' r) j k).
Proof.
  intros E. destruct HG as ((RB & RA) & _).
  destruct (kmm_crank_nicolson cn c1 c2 Hn1 Hn2 H12 K1 K2 Kx1 Kx2 root mt sv nu dt mask conv Sk (N - 2) (N - 4) s ltac:(lra) ltac:(lra) Hs HB0) as (_ & Ps & _).
  destruct (kmm_crank_nicolson cn c1 c2 Hn1 Hn2 H12 K1 K2 Kx1 Kx2 root mt sv nu dt mask conv Sk (N - 2) (N - 4) r ltac:(lra) ltac:(lra) Hs HB0) as (_ & Pr & _).
  specialize (Ps j k). specialize (Pr j k). cbv zeta in Ps, Pr. rewrite <- !E in Pr by congruence.
  apply (C89_crank_nicolson N (ADD mt) (BDD mt) nu (ksq j k) dt _ _ _ _ _ ltac:(lia) RA RB ltac:(lra) Hdt Ps Pr).
Qed.
Theorem C89_mean (s r : kst) c : root = true -> c <> cn -> ex s c 0%nat 0%nat = ex r c 0%nat 0%nat ->
  decays N nu 0 dt (U_hat0 s c 0%nat 0%nat) (U_hat0 r c 0%nat 0%nat) (U_hat (integrate' s) c 0%nat 0%nat) (U_hat (integrate' r) c 0%nat 0%nat).
Proof.
  intros Hr Hc E. destruct HG as (_ & _ & _ & _ & (RB & RA)).
  destruct (kmm_crank_nicolson cn c1 c2 Hn1 Hn2 H12 K1 K2 Kx1 Kx2 root mt sv nu dt mask conv Sk (N - 2) (N - 4) s ltac:(lra) ltac:(lra) Hs HB0) as (_ & _ & Ps).
  destruct (kmm_crank_nicolson cn c1 c2 Hn1 Hn2 H12 K1 K2 Kx1 Kx2 root mt sv nu dt mask conv Sk (N - 2) (N - 4) r ltac:(lra) ltac:(lra) Hs HB0) as (_ & _ & Pr).
  destruct (Ps Hr) as (Ps1 & Ps2). destruct (Pr Hr) as (Pr1 & Pr2). cbv zeta in Ps1, Ps2, Pr1, Pr2.
  assert (c = c1 \/ c = c2) as [-> | ->] by (destruct c, cn, c1, c2; try congruence; auto).
  - rewrite <- E in Pr1. apply (C89_crank_nicolson N (ADD0 mt) (BDD0 mt) nu 0 dt _ _ _ _ _ ltac:(lia) RA RB ltac:(lra) Hdt Ps1 Pr1).
  - rewrite <- E in Pr2. apply (C89_crank_nicolson N (ADD0 mt) (BDD0 mt) nu 0 dt _ _ _ _ _ ltac:(lia) RA RB ltac:(lra) Hdt Ps2 Pr2).
Qed.
(** Whole runs with a given convection H: the difference of two runs never grows, whatever nu and dt.
    With H = 0 and no source this is the decay of the flow without convection. *)
Theorem C89_run (s r : kst) (H : vfld) (n : nat) : (forall U om, conv U om = H) -> H_hat1 s = H_hat1 r ->
  let S_ := Nat.iter n step' s in let R_ := Nat.iter n step' r in
  (forall j k, no_growth N (g s j k) (g r j k) (g S_ j k) (g R_ j k)) /\
  (root = true -> forall c, c <> cn ->
     no_growth N (U_hat0 s c 0%nat 0%nat) (U_hat0 r c 0%nat 0%nat) (U_hat0 S_ c 0%nat 0%nat) (U_hat0 R_ c 0%nat 0%nat) /\
     (n <> 0%nat -> U_hat0 S_ = U_hat S_ /\ U_hat0 R_ = U_hat R_)).
Proof.
  intros HH H1.
  assert (Refl : forall u v, no_growth N u v u v).
  { intros u v. destruct HG as ((RB & _) & _). destruct (dist_exists N (BDD mt) RB u v) as (z & Hz).
    apply norm2_rdot in Hz. exists z, z. split; [exact Hz|]. split; [exact Hz|]. pose proof (norm2_nonneg _ _ Hz). lra. }
  induction n as [|n IH]; intros S_ R_.
  - split; [intros; apply Refl|]. intros _ c Hc. split; [apply Refl | congruence].
  - cbv zeta in IH. set (S0 := Nat.iter n step' s) in *. set (R0 := Nat.iter n step' r) in *.
    change S_ with (step' S0). change R_ with (step' R0).
    assert (EH : H_hat1 S0 = H_hat1 R0).
    { unfold S0, R0. clear -HH H1. destruct n as [|n]; [exact H1|].
      change (conv (U_hat (Nat.iter n step' s)) (g (Nat.iter n step' s)) = conv (U_hat (Nat.iter n step' r)) (g (Nat.iter n step' r))).
      rewrite !HH. reflexivity. }
    assert (E : ex S0 = ex R0) by (rewrite !HH, EH; reflexivity).
    destruct IH as (IHg & IHm). split.
    + intros j k. refine (no_growth_trans _ _ _ _ _ _ _ (IHg j k) _).
      apply (decays_no_growth N nu (ksq j k) dt); [lra | apply ksq_nonneg | exact Hdt|].
      apply (C89_vorticity S0 R0). intros c _. rewrite E. reflexivity.
    + intros Hr c Hc. split; [|intros _; split; reflexivity].
      refine (no_growth_trans _ _ _ _ _ _ _ (proj1 (IHm Hr c Hc)) _).
      apply (decays_no_growth N nu 0 dt); [lra | lra | exact Hdt|].
      apply (C89_mean S0 R0 c Hr Hc). rewrite E. reflexivity.
Qed.
End Kmm.

(** ** KMMRK3 *)
Section Rk3.
Hypothesis Hs : rk_solvers_ok K1 K2 mt sv nu dt (N - 2) (N - 4).
Notation Fg_ s := (Fg c1 c2 Kx1 Kx2 mt mask conv s).
Notation F1_ s := (Fm1 c1 mt mask conv Sk s).
Notation F2_ s := (Fm2 c2 mt mask conv s).
(** A stage covers the part theta of the step *)
Lemma stage_cn (B L : column -> column) th (h x x' : column) : 0 < th ->
  (forall i, (i < N - 2)%nat -> (B x' i = B x i + RtoC dt * (h i + RtoC (th / 2) * (L x i + L x' i)))%C) ->
  crank_nicolson (N - 2) B L (th * dt) (fun i => RtoC (/ th) * h i)%C x x'.
Proof.
  intros Ht H i Hi. rewrite (H i Hi). generalize (L x i) (L x' i) (B x i) (h i). intros a b c d.
  ceq; field; lra.
Qed.
Theorem C89_rk3_stage rk (s r : rst) j k : (rk < 3)%nat ->
  (forall i, (RtoC (rk_a rk) * Fg_ s j k i + RtoC (rk_b rk) * r_hg0 s j k i
              = RtoC (rk_a rk) * Fg_ r j k i + RtoC (rk_b rk) * r_hg0 r j k i)%C) ->
  decays N nu (ksq j k) (theta rk * dt) (r_g s j k) (r_g r j k) (r_g (stage' rk s) j k) (r_g (stage' rk r) j k).
Proof.
  intros Hrk E. destruct HG as ((RB & RA) & _). pose proof (Channel.theta_pos rk Hrk) as Ht.
  destruct (stage_spec cn c1 c2 Hn1 Hn2 H12 K1 K2 Kx1 Kx2 root mt sv nu dt mask conv Sk (N - 2) (N - 4) rk s Hrk ltac:(lra) ltac:(lra) Hs) as (_ & Ps & _).
  destruct (stage_spec cn c1 c2 Hn1 Hn2 H12 K1 K2 Kx1 Kx2 root mt sv nu dt mask conv Sk (N - 2) (N - 4) rk r Hrk ltac:(lra) ltac:(lra) Hs) as (_ & Pr & _).
  pose proof (stage_cn (BDD mt) (visc nu (ksq j k) (ADD mt) (BDD mt)) (theta rk) _ _ _ Ht (fun i Hi => Ps j k i Hi)) as Cs.
  pose proof (stage_cn (BDD mt) (visc nu (ksq j k) (ADD mt) (BDD mt)) (theta rk) _ _ _ Ht (fun i Hi => Pr j k i Hi)) as Cr.
  refine (C89_crank_nicolson N (ADD mt) (BDD mt) nu (ksq j k) (theta rk * dt) _ _ _ _ _ ltac:(lia) RA RB ltac:(lra) _ Cs _).
  - nra.
  - intros i Hi. rewrite (Cr i Hi). rewrite <- E. reflexivity.
Qed.
(** A step with a given convection, from any two states, whatever is left in the arrays of the stages *)
Theorem C89_rk3_step (s r : rst) (H : vfld) j k : (forall U om, conv U om = H) ->
  no_growth N (r_g s j k) (r_g r j k) (r_g (integrate_rk' s) j k) (r_g (integrate_rk' r) j k).
Proof.
  intros HH.
  assert (EF : forall s r, Fg_ s j k = Fg_ r j k) by (intros; unfold Fg, Nrk; rewrite !HH; reflexivity).
  assert (Eh : forall rk s r, (rk < 3)%nat -> r_hg0 (stage' rk s) j k = r_hg0 (stage' rk r) j k).
  { intros rk s' r' Hrk.
    destruct (stage_spec cn c1 c2 Hn1 Hn2 H12 K1 K2 Kx1 Kx2 root mt sv nu dt mask conv Sk (N - 2) (N - 4) rk s' Hrk ltac:(lra) ltac:(lra) Hs) as (_ & _ & _ & _ & Ps & _).
    destruct (stage_spec cn c1 c2 Hn1 Hn2 H12 K1 K2 Kx1 Kx2 root mt sv nu dt mask conv Sk (N - 2) (N - 4) rk r' Hrk ltac:(lra) ltac:(lra) Hs) as (_ & _ & _ & _ & Pr & _).
    rewrite Ps, Pr. apply EF. }
  assert (G : forall rk s r, (rk < 3)%nat ->
    (forall i, (RtoC (rk_b rk) * r_hg0 s j k i = RtoC (rk_b rk) * r_hg0 r j k i)%C) ->
    no_growth N (r_g s j k) (r_g r j k) (r_g (stage' rk s) j k) (r_g (stage' rk r) j k)).
  { intros rk s' r' Hrk E. pose proof (Channel.theta_pos rk Hrk).
    apply (decays_no_growth N nu (ksq j k) (theta rk * dt)); [lra | apply ksq_nonneg | nra|].
    apply C89_rk3_stage; [exact Hrk|]. intros i. rewrite (EF s' r'), E. reflexivity. }
  unfold integrate_rk. cbn [fold_left].
  refine (no_growth_trans _ _ _ _ _ _ _ _ (G 2%nat _ _ ltac:(lia) _)).
  - refine (no_growth_trans _ _ _ _ _ _ _ (G 0%nat s r ltac:(lia) _) (G 1%nat _ _ ltac:(lia) _)).
    + intros i. unfold rk_b. rewrite RtoC_0. ring.
    + intros i. rewrite (Eh 0%nat s r) by lia. reflexivity.
  - intros i. rewrite (Eh 1%nat _ (stage' 0 r)) by lia. reflexivity.
Qed.
End Rk3.
End Stability.

(** ** Examples *)
(** the norm of c (T_0 - T_2), c real *)
Lemma norm2_phi0 (c : R) : norm2 (diff 3 (fun _ => RtoC c) (fun _ => C0)) (c * c * (3 * PI / 2)).
Proof.
  unfold norm2, diff. pose proof (wint_TT 0 0) as A. pose proof (wint_TT 0 2) as B. pose proof (wint_TT 2 2) as D. simpl Nat.eqb in *.
  cbv iota in A, B, D.
  replace (c * c * (3 * PI / 2)) with (c * c * (cw 0 + (-2 * 0 + cw 2))) by (simpl; field).
  eapply wint_ext; [|apply (wint_scal (c * c) _ _ (wint_add _ _ _ _ A (wint_add _ _ _ _ (wint_scal (-2) _ _ B) D)))].
  intros x. cbv beta. unfold series, phi. simpl Nat.sub. cbn [Csum Nat.add]. unfold Csub, Cadd, Copp, Cmul, RtoC, C0. cbn [fst snd]. ring.
Qed.
(** the property is not empty: doubling is growth *)
Example C89_growth : ~ no_growth 3 (fun _ => RtoC 1) (fun _ => C0) (fun _ => RtoC 2) (fun _ => C0).
Proof.
  intros (a & b & Ha & Hb & L). rewrite (wint_unique _ _ _ Ha (norm2_phi0 1)), (wint_unique _ _ _ Hb (norm2_phi0 2)) in L.
  pose proof PI_RGT_0. lra.
Qed.
(** every hypothesis holds for the system of C83 with N = 5: two runs with the convection and source zero *)
Example C89_example (s r : kst) (n : nat) : H_hat1 s = H_hat1 r ->
  let st := step x0 x1 x2 INR INR INR INR true mt5 sv5 (/ 2) 1 None (fun _ _ _ _ _ _ => C0) (fun _ _ _ _ => C0) in
  forall j k, no_growth 5 (g s j k) (g r j k) (g (Nat.iter n st s) j k) (g (Nat.iter n st r) j k).
Proof.
  intros E st j k.
  destruct (C89_run x0 x1 x2 ltac:(congruence) ltac:(congruence) ltac:(congruence) INR INR INR INR true mt5 sv5 (/ 2) 1 None
    (fun _ _ _ _ _ _ => C0) (fun _ _ _ _ => C0) 5 ltac:(lia) mt5_galerkin ltac:(lra) ltac:(lra) (gmat_linear _ _ _ _ _ _ _) C83_solvers5 s r (fun _ _ _ _ => C0) n
    (fun _ _ => eq_refl) E) as (P & _).
  apply P.
Qed.

Print Assumptions C89_crank_nicolson.
Print Assumptions C89_second_derivative.
Print Assumptions C89_vorticity.
Print Assumptions C89_mean.
Print Assumptions C89_run.
Print Assumptions C89_rk3_stage.
Print Assumptions C89_rk3_step.
