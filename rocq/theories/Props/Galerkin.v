(** Theorems on the velocity of the KMM solvers as a function of the point: C83. *)
From Coq Require Import Reals List Bool Arith Lia Lra FunctionalExtensionality.
From Verif Require Import Base.Cplx Base.Sums Base.Fin Model.KMM Model.ChannelConv Model.ChannelAccess Spec.Chebyshev Spec.Channel Spec.ChannelField
  Spec.Coupled Spec.Galerkin Proofs.ChebyshevProofs Proofs.KMMProofs Proofs.ChannelConvProofs Proofs.CoupledProofs
  Proofs.PressureProofs Proofs.GalerkinProofs Props.Channel.
Open Scope R_scope.

(** The matrices of get_context (KMM.py:105-120): inner products of the Dirichlet functions phi and the
    biharmonic functions psi and their derivatives; one quadrature for both bases (KMM.py:24) *)
Definition galerkin (N : nat) (h : nat -> R) (mt : mats) : Prop :=
  (rows N h 0 (N - 2) phi (N - 2) phi (BDD mt) /\ rows N h 2 (N - 2) phi (N - 2) phi (ADD mt)) /\
  (rows N h 1 (N - 4) psi (N - 2) phi (CDB mt)) /\
  (rows N h 0 (N - 2) phi (N - 4) psi (BBD mt) /\ rows N h 1 (N - 2) phi (N - 4) psi (CBD mt)) /\
  (rows N h 0 (N - 4) psi (N - 4) psi (BBB mt) /\ rows N h 2 (N - 4) psi (N - 4) psi (ABB mt) /\
   rows N h 4 (N - 4) psi (N - 4) psi (SBB mt)) /\
  (rows N h 0 (N - 2) phi (N - 2) phi (BDD0 mt) /\ rows N h 2 (N - 2) phi (N - 2) phi (ADD0 mt)).

(** The derivative computed by TDMASolverD(CDB u) is the derivative of the polynomial, for every column *)
Theorem C83_derivative_exact (N : nat) (h : nat -> R) (mt : mats) (sv : solvers) (u : column) :
  (4 <= N)%nat -> galerkin N h mt -> solves (N - 2) (BDD mt) (TDMA sv (BDD mt)) ->
  is_derivative (series (N - 4) psi u) (series (N - 2) phi (TDMASolverD mt sv (CDB mt u))).
Proof.
  intros HN ((GB & _) & GC & _) (_ & _ & H3). destruct (psi_derivative_dirichlet N u HN) as (d & Sd & Dd).
  replace (TDMASolverD mt sv (CDB mt u)) with d; [exact Dd|].
  extensionality i. symmetry. apply H3; [exact Sd|]. intros l Hl.
  apply (inner_unique N h (series (N - 2) phi d) (phi l)).
  - apply (GC u); [exact Hl|]. exists (series (N - 2) phi d). split; [exact Dd|intros x; reflexivity].
  - apply (GB d); [exact Hl|intros x; reflexivity].
Qed.
Print Assumptions C83_derivative_exact.

Section Field.
Context (cn c1 c2 : ax3).
Hypothesis Hn1 : cn <> c1.
Hypothesis Hn2 : cn <> c2.
Hypothesis H12 : c1 <> c2.
Context (K1 K2 : nat -> R) (mt : mats) (sv : solvers).
Context (N n1 n2 : nat) (wt : nat -> nat -> R) (h : nat -> R).
Hypothesis HN : (4 <= N)%nat.
Hypothesis HG : galerkin N h mt.
Hypothesis HT : solves (N - 2) (BDD mt) (TDMA sv (BDD mt)).
Notation vel u := (kvel cn c1 c2 N n1 n2 wt K1 K2 u).
Notation fieldD := (field cn c1 c2 n1 n2 wt K1 K2 (N - 2) phi).

Lemma sum_dirs (F : ax3 -> R) : F x0 + F x1 + F x2 = F cn + F c1 + F c2.
Proof. destruct cn, c1, c2; try congruence; ring. Qed.
Lemma kvel_cn u : vel u cn = field cn c1 c2 n1 n2 wt K1 K2 (N - 4) psi (u cn).
Proof. unfold kvel. destruct cn; reflexivity. Qed.
Lemma kvel_other u c : c <> cn -> vel u c = fieldD (u c).
Proof. intros H. unfold kvel. destruct c, cn; try congruence; reflexivity. Qed.
Definition dnf (nb : nat) (e : nat -> nat -> R) (F : fld) : fld := fun j k => D_T N (coefs nb e (F j k)).

(** every velocity has a gradient, and get_divergence evaluated with the exact synthesis is its divergence *)
Lemma C83_gradient (u : vfld) : exists G, is_gradient (vel u) G /\
  forall p, G x0 x0 p + G x1 x1 p + G x2 x2 p = get_divergence cn c1 c2 K1 K2 mt sv fieldD u p.
Proof.
  set (G := fun c d => if eqb3 d cn
     then (if eqb3 c cn then fieldD (fun j k => TDMASolverD mt sv (CDB mt (u cn j k)))
           else field cn c1 c2 n1 n2 wt K1 K2 N T (dnf (N - 2) e_phi (u c)))
     else if eqb3 d c1
          then (if eqb3 c cn then field cn c1 c2 n1 n2 wt K1 K2 (N - 4) psi (fmul (iK1 K1) (u c)) else fieldD (fmul (iK1 K1) (u c)))
          else (if eqb3 c cn then field cn c1 c2 n1 n2 wt K1 K2 (N - 4) psi (fmul (iK2 K2) (u c)) else fieldD (fmul (iK2 K2) (u c)))).
  exists G.
  assert (Eq : forall a b, eqb3 a b = true <-> a = b) by (intros a b; destruct a, b; cbn; split; congruence).
  split.
  - intros c d p. unfold kvel, G.
    destruct (eqb3 d cn) eqn:Ed; [apply Eq in Ed; subst d|].
    + destruct (eqb3 c cn) eqn:Ec; [apply Eq in Ec; subst c|].
      * apply partial_n; try congruence. intros j k _ _. apply (C83_derivative_exact N h mt sv); assumption.
      * apply partial_n; try congruence. intros j k _ _. unfold dnf.
        apply (Cderiv_ext (cheb N (coefs (N - 2) e_phi (u c j k))));
          [intros; symmetry; apply coefs_cheb, phi_coef|apply D_T_deriv].
    + destruct (eqb3 d c1) eqn:E1; [apply Eq in E1; subst d|].
      * destruct (eqb3 c cn); apply partial_1; congruence.
      * assert (d = c2).
        { destruct d, cn, c1, c2; cbn in Ed, E1; try discriminate; congruence. }
        subst d. destruct (eqb3 c cn); apply partial_2; congruence.
  - intros p.
    rewrite (sum_dirs (fun c => G c c p)). unfold G.
    rewrite (proj2 (Eq cn cn) eq_refl), (proj2 (Eq c1 c1) eq_refl).
    assert (F1 : eqb3 c1 cn = false) by (destruct cn, c1; cbn; congruence).
    assert (F2 : eqb3 c2 cn = false) by (destruct cn, c2; cbn; congruence).
    assert (F3' : eqb3 c2 c1 = false) by (destruct c1, c2; cbn; congruence).
    rewrite F1, F2, F3'. reflexivity.
Qed.
Theorem C83_get_divergence (u : vfld) (G : ax3 -> ax3 -> point -> R) (p : point) : is_gradient (vel u) G ->
  get_divergence cn c1 c2 K1 K2 mt sv fieldD u p = G x0 x0 p + G x1 x1 p + G x2 x2 p.
Proof.
  intros HGr. destruct (C83_gradient u) as (G' & H1 & H2). rewrite <- H2.
  rewrite (uniqueness_limite _ _ _ _ (H1 x0 x0 p) (HGr x0 x0 p)), (uniqueness_limite _ _ _ _ (H1 x1 x1 p) (HGr x1 x1 p)),
    (uniqueness_limite _ _ _ _ (H1 x2 x2 p) (HGr x2 x2 p)). reflexivity.
Qed.

Lemma kvel_no_slip (u : vfld) : no_slip_in cn (vel u).
Proof.
  intros c p Hp. unfold kvel. destruct (eqb3 c cn); unfold field; apply Rsum_0; intros j _; apply Rsum_0; intros k _.
  - rewrite (Csum_0 (N - 4)); [unfold Re; simpl; ring|]. intros i _. rewrite (psi_wall i (p cn)), RtoC_0; [ring|].
    destruct Hp; [left|right]; lra.
  - rewrite (Csum_0 (N - 2)); [unfold Re; simpl; ring|]. intros i _. rewrite (phi_wall i (p cn) Hp), RtoC_0. ring.
Qed.
Lemma field_linear : bwd_linear n1 n2 fieldD.
Proof.
  split.
  - intros a b p. unfold field. rewrite <- Rsum_add. apply Rsum_ext. intros j _. rewrite <- Rsum_add. apply Rsum_ext. intros k _.
    rewrite <- Rmult_plus_distr_l. f_equal.
    replace (Csum (N - 2) (fun i => (a j k i + b j k i) * RtoC (phi i (p cn)))%C)
      with (Csum (N - 2) (fun i => a j k i * RtoC (phi i (p cn))) + Csum (N - 2) (fun i => b j k i * RtoC (phi i (p cn))))%C
      by (rewrite <- Csum_add; apply Csum_ext; intros; ring).
    unfold Re. simpl. ring.
  - intros a p H. unfold field. apply Rsum_0. intros j Hj. apply Rsum_0. intros k Hk.
    rewrite Csum_0; [unfold Re; simpl; ring|]. intros i _. rewrite H by assumption. ring.
Qed.
Lemma good_divergence_free (u : vfld) gh : good_field cn c1 c2 K1 K2 mt (N - 2) n1 n2 u gh -> divergence_free (vel u).
Proof.
  intros H. destruct (C83_gradient u) as (G & H1 & H2). exists G. split; [exact H1|]. intros p. rewrite H2.
  apply (kmm_divergence_free cn c1 c2 K1 K2 mt sv (N - 2) n1 n2 fieldD u gh field_linear HT H).
Qed.

Context (Kx1 Kx2 : nat -> R) (root : bool) (nu dt : R) (mask : option (nat -> nat -> R)) (conv : vfld -> fld -> vfld) (Sk : vfld).
Hypothesis Hz : zero_mode_on_root n1 n2 root K1 K2.
Hypothesis HB : linear (BDD mt).
Hypothesis HD : linear (CDB mt).

(** After every call of integrate() the velocity has no divergence at any point of the channel and vanishes at
    the walls, whatever the state before *)
Theorem C83_kmm_divergence_free (s : kst) :
  let u := U_hat (integrate cn c1 c2 K1 K2 Kx1 Kx2 root mt sv nu dt mask conv Sk s) in
  divergence_free (vel u) /\ no_slip_in cn (vel u).
Proof.
  intros u. split; [|apply kvel_no_slip].
  apply (good_divergence_free u (g (integrate cn c1 c2 K1 K2 Kx1 Kx2 root mt sv nu dt mask conv Sk s))).
  apply kmm_continuity; assumption.
Qed.
(** and after every stage of KMMRK3 *)
Theorem C83_rk3_divergence_free (rk : nat) (s : rst) :
  let u := r_U (stage cn c1 c2 K1 K2 Kx1 Kx2 root mt sv nu dt mask conv Sk rk s) in
  let u' := r_U (integrate_rk cn c1 c2 K1 K2 Kx1 Kx2 root mt sv nu dt mask conv Sk s) in
  (divergence_free (vel u) /\ no_slip_in cn (vel u)) /\ (divergence_free (vel u') /\ no_slip_in cn (vel u')).
Proof.
  intros u u'. repeat split; try apply kvel_no_slip.
  - apply (good_divergence_free u (r_g (stage cn c1 c2 K1 K2 Kx1 Kx2 root mt sv nu dt mask conv Sk rk s))).
    apply kmmrk3_stage_continuity; assumption.
  - apply (good_divergence_free u' (r_g (integrate_rk cn c1 c2 K1 K2 Kx1 Kx2 root mt sv nu dt mask conv Sk s))).
    apply kmmrk3_continuity; assumption.
Qed.
End Field.

(** ** The equations of a step, as weighted residuals *)
Section Weak.
Context (cn c1 c2 : ax3).
Hypothesis Hn1 : cn <> c1.
Hypothesis Hn2 : cn <> c2.
Hypothesis H12 : c1 <> c2.
Context (K1 K2 Kx1 Kx2 : nat -> R) (root : bool) (mt : mats) (sv : solvers) (nu dt : R) (mask : option (nat -> nat -> R))
  (conv : vfld -> fld -> vfld) (Sk : vfld) (N : nat) (h : nat -> R).
Hypothesis HG : galerkin N h mt.
Notation ksq j k := (K1 j * K1 j + K2 k * K2 k).
Lemma weak_u k2 ky kz (x x' C0' C1' C2' : column) u2 u4 v2 v4 dc1 dc2 i :
  crank_nicolson (N - 4) (lap k2 (ABB mt) (BBB mt)) (bih nu k2 (SBB mt) (ABB mt) (BBB mt)) dt
    (rhs_u ky kz k2 (BBD mt) (CBD mt) C0' C1' C2') x x' -> (i < N - 4)%nat ->
  nth_derivative 2 (series (N - 4) psi x) u2 -> nth_derivative 4 (series (N - 4) psi x) u4 ->
  nth_derivative 2 (series (N - 4) psi x') v2 -> nth_derivative 4 (series (N - 4) psi x') v4 ->
  nth_derivative 1 (series (N - 2) phi C1') dc1 -> nth_derivative 1 (series (N - 2) phi C2') dc2 ->
  inner N h (residual_u nu dt k2 ky kz (series (N - 4) psi x) u2 u4 (series (N - 4) psi x') v2 v4
                (series (N - 2) phi C0') dc1 dc2) (psi i) C0.
Proof.
  intros Hc Hi A2 A4 B2 B4 D1 D2. destruct HG as (_ & _ & (GBD & GCD) & (GB & GA & GS) & _).
  pose proof (Hc i Hi) as E. unfold lap, bih, comb3, comb2, rhs_u in E.
  pose proof (GB x (series (N - 4) psi x) i Hi (fun _ => eq_refl)) as I0.
  pose proof (GA x u2 i Hi A2) as I2. pose proof (GS x u4 i Hi A4) as I4.
  pose proof (GB x' (series (N - 4) psi x') i Hi (fun _ => eq_refl)) as J0.
  pose proof (GA x' v2 i Hi B2) as J2. pose proof (GS x' v4 i Hi B4) as J4.
  pose proof (GBD C0' (series (N - 2) phi C0') i Hi (fun _ => eq_refl)) as M0.
  pose proof (GCD C1' dc1 i Hi D1) as M1. pose proof (GCD C2' dc2 i Hi D2) as M2.
  pose proof (inner_comb N h (psi i) _ _
    ((RtoC (/ dt), v2, ABB mt x' i) :: (- RtoC (/ dt) * RtoC k2, series (N - 4) psi x', BBB mt x' i)
     :: (- RtoC (/ dt), u2, ABB mt x i) :: (RtoC (/ dt) * RtoC k2, series (N - 4) psi x, BBB mt x i)
     :: (RtoC k2, series (N - 2) phi C0', BBD mt C0' i) :: (Ci * RtoC ky, dc1, CBD mt C1' i) :: (Ci * RtoC kz, dc2, CBD mt C2' i)
     :: (- RtoC (nu / 2), u4, SBB mt x i) :: (RtoC (nu / 2) * RtoC (2 * k2), u2, ABB mt x i)
     :: (- RtoC (nu / 2) * RtoC (k2 * k2), series (N - 4) psi x, BBB mt x i)
     :: (- RtoC (nu / 2), v4, SBB mt x' i) :: (RtoC (nu / 2) * RtoC (2 * k2), v2, ABB mt x' i)
     :: (- RtoC (nu / 2) * RtoC (k2 * k2), series (N - 4) psi x', BBB mt x' i) :: nil)%C I0) as Q.
  eapply inner_ext; [| |apply Q; cbn [all_inner]; tauto].
  - intros y. cbn [lcf]. unfold residual_u. ring.
  - cbn [lcz]. set (z := (_ + _)%C).
    match type of E with ?L = ?Rr => transitivity (L - Rr)%C; [unfold z|rewrite E; ring] end.
    rewrite RtoC_1, !RtoC_opp, !RtoC_mul.
    replace (RtoC (nu / 2)) with (RtoC nu * RtoC (/ 2))%C by (rewrite <- RtoC_mul; reflexivity).
    assert (T2 : (RtoC (/ 2) * RtoC 2 = C1)%C) by (rewrite <- RtoC_mul, <- RtoC_1; f_equal; field).
    ring.
Qed.
Lemma weak_d k2 (A B : column -> column) (x x' w : column) u2 v2 f i :
  rows N h 2 (N - 2) phi (N - 2) phi A -> rows N h 0 (N - 2) phi (N - 2) phi B ->
  crank_nicolson (N - 2) B (visc nu k2 A B) dt w x x' -> (i < N - 2)%nat ->
  nth_derivative 2 (series (N - 2) phi x) u2 -> nth_derivative 2 (series (N - 2) phi x') v2 -> inner N h f (phi i) (w i) ->
  inner N h (residual_d nu dt k2 (series (N - 2) phi x) u2 (series (N - 2) phi x') v2 f) (phi i) C0.
Proof.
  intros GA GB Hc Hi A2 B2 Hw. pose proof (Hc i Hi) as E. unfold visc, comb2 in E.
  pose proof (GB x (series (N - 2) phi x) i Hi (fun _ => eq_refl)) as I0. pose proof (GA x u2 i Hi A2) as I2.
  pose proof (GB x' (series (N - 2) phi x') i Hi (fun _ => eq_refl)) as J0. pose proof (GA x' v2 i Hi B2) as J2.
  pose proof (inner_comb N h (phi i) _ _
    ((RtoC (/ dt), series (N - 2) phi x', B x' i) :: (- RtoC (/ dt), series (N - 2) phi x, B x i) :: (- C1, f, w i)
     :: (- RtoC (nu / 2), u2, A x i) :: (RtoC (nu / 2) * RtoC k2, series (N - 2) phi x, B x i)
     :: (- RtoC (nu / 2), v2, A x' i) :: (RtoC (nu / 2) * RtoC k2, series (N - 2) phi x', B x' i) :: nil)%C I0) as Q.
  eapply inner_ext; [| |apply Q; cbn [all_inner]; tauto].
  - intros y. cbn [lcf]. unfold residual_d. ring.
  - cbn [lcz]. set (z := (_ + _)%C).
    match type of E with ?L = ?Rr => transitivity (L - Rr)%C; [unfold z|rewrite E; ring] end.
    rewrite !RtoC_opp, !RtoC_mul.
    replace (RtoC (nu / 2)) with (RtoC nu * RtoC (/ 2))%C by (rewrite <- RtoC_mul; reflexivity). ring.
Qed.

Hypothesis Hnu : nu <> 0.
Hypothesis Hdt : dt <> 0.
Hypothesis HS : kmm_solvers_ok K1 K2 mt sv nu dt (N - 2) (N - 4).
Hypothesis HB0 : linear (BDD0 mt).
Notation integrate' := (integrate cn c1 c2 K1 K2 Kx1 Kx2 root mt sv nu dt mask conv Sk).
Notation conv' s := (extrap mask (conv (U_hat s) (g s)) (H_hat1 s)).

(** The wall normal velocity: the residual of the fourth order equation is orthogonal to every biharmonic function *)
Theorem C83_normal_velocity (s : kst) (j k i : nat) u2 u4 v2 v4 dc1 dc2 :
  let U := U_hat s cn j k in let V := U_hat (integrate' s) cn j k in let F := conv' s in
  ~ mean_mode root j k -> (i < N - 4)%nat ->
  nth_derivative 2 (series (N - 4) psi U) u2 -> nth_derivative 4 (series (N - 4) psi U) u4 ->
  nth_derivative 2 (series (N - 4) psi V) v2 -> nth_derivative 4 (series (N - 4) psi V) v4 ->
  nth_derivative 1 (series (N - 2) phi (F c1 j k)) dc1 -> nth_derivative 1 (series (N - 2) phi (F c2 j k)) dc2 ->
  let r := residual_u nu dt (ksq j k) (Kx1 j) (Kx2 k) (series (N - 4) psi U) u2 u4 (series (N - 4) psi V) v2 v4
             (series (N - 2) phi (F cn j k)) dc1 dc2 in
  inner N h r (psi i) C0 /\ (h = cw -> Cwint (fun x => r x * RtoC (psi i x))%C C0).
Proof.
  intros U V F Hm Hi A2 A4 B2 B4 D1 D2 r.
  destruct (kmm_crank_nicolson cn c1 c2 Hn1 Hn2 H12 K1 K2 Kx1 Kx2 root mt sv nu dt mask conv Sk (N - 2) (N - 4) s Hnu Hdt HS HB0) as (P & _).
  assert (I : inner N h r (psi i) C0) by (eapply weak_u; try eassumption; apply P, Hm).
  split; [exact I|]. intros E. rewrite E in I. apply (inner_exact N _ _ _ I).
Qed.
(** The wall normal vorticity *)
Theorem C83_normal_vorticity (s : kst) (j k i : nat) u2 v2 :
  let F := conv' s in let s' := integrate' s in
  (i < N - 2)%nat ->
  nth_derivative 2 (series (N - 2) phi (g s j k)) u2 -> nth_derivative 2 (series (N - 2) phi (g s' j k)) v2 ->
  let r := residual_d nu dt (ksq j k) (series (N - 2) phi (g s j k)) u2 (series (N - 2) phi (g s' j k)) v2
             (fun x => Ci * RtoC (Kx1 j) * series (N - 2) phi (F c2 j k) x - Ci * RtoC (Kx2 k) * series (N - 2) phi (F c1 j k) x)%C in
  inner N h r (phi i) C0 /\ (h = cw -> Cwint (fun x => r x * RtoC (phi i x))%C C0).
Proof.
  intros F s' Hi A2 B2 r.
  destruct (kmm_crank_nicolson cn c1 c2 Hn1 Hn2 H12 K1 K2 Kx1 Kx2 root mt sv nu dt mask conv Sk (N - 2) (N - 4) s Hnu Hdt HS HB0) as (_ & P & _).
  destruct HG as ((GB & GA) & _).
  assert (I : inner N h r (phi i) C0).
  { apply (weak_d (ksq j k) (ADD mt) (BDD mt) (g s j k) (g s' j k)
      (rhs_g (Kx1 j) (Kx2 k) (BDD mt) (F c1 j k) (F c2 j k))); try assumption; [apply P|]. unfold rhs_g.
    pose proof (inner_lin N h (Ci * RtoC (Kx1 j))%C _ _ (- (Ci * RtoC (Kx2 k)))%C _ _ _
      (GB (F c2 j k) _ i Hi (fun _ => eq_refl)) (GB (F c1 j k) _ i Hi (fun _ => eq_refl))) as Q.
    eapply inner_ext; [| |exact Q]; [intros x; cbv beta|]; ring. }
  split; [exact I|]. intros E. rewrite E in I. apply (inner_exact N _ _ _ I).
Qed.
(** The mean velocities: f is the driving force, whose scalar products are stored in Sk *)
Theorem C83_mean_velocity (s : kst) (i : nat) u2 v2 w2 y2 f :
  let F := conv' s in let s' := integrate' s in
  let old c := series (N - 2) phi (U_hat0 s c 0%nat 0%nat) in let new c := series (N - 2) phi (U_hat s' c 0%nat 0%nat) in
  root = true -> (i < N - 2)%nat -> inner N h f (phi i) (Sk c1 0%nat 0%nat i) ->
  nth_derivative 2 (old c1) u2 -> nth_derivative 2 (new c1) v2 -> nth_derivative 2 (old c2) w2 -> nth_derivative 2 (new c2) y2 ->
  let r1 := residual_d nu dt 0 (old c1) u2 (new c1) v2 (fun x => series (N - 2) phi (F c1 0%nat 0%nat) x - f x)%C in
  let r2 := residual_d nu dt 0 (old c2) w2 (new c2) y2 (series (N - 2) phi (F c2 0%nat 0%nat)) in
  (inner N h r1 (phi i) C0 /\ inner N h r2 (phi i) C0) /\
  (h = cw -> Cwint (fun x => r1 x * RtoC (phi i x))%C C0 /\ Cwint (fun x => r2 x * RtoC (phi i x))%C C0).
Proof.
  intros F s' old new Hr Hi Hf A2 B2 A2' B2' r1 r2.
  destruct (kmm_crank_nicolson cn c1 c2 Hn1 Hn2 H12 K1 K2 Kx1 Kx2 root mt sv nu dt mask conv Sk (N - 2) (N - 4) s Hnu Hdt HS HB0) as (_ & _ & P).
  destruct (P Hr) as (P1 & P2). destruct HG as (_ & _ & _ & _ & GB & GA).
  assert (I1 : inner N h r1 (phi i) C0).
  { apply (weak_d 0 (ADD0 mt) (BDD0 mt) _ _ _ u2 v2 _ i GA GB P1 Hi A2 B2).
    pose proof (inner_lin N h C1 _ _ (- C1)%C _ _ _ (GB (F c1 0%nat 0%nat) _ i Hi (fun _ => eq_refl)) Hf) as Q.
    eapply inner_ext; [| |exact Q]; [intros x; cbv beta|cbv beta; fold F]; ring. }
  assert (I2 : inner N h r2 (phi i) C0).
  { apply (weak_d 0 (ADD0 mt) (BDD0 mt) _ _ _ w2 y2 _ i GA GB P2 Hi A2' B2'). apply GB; [exact Hi|intros x; reflexivity]. }
  split; [split; assumption|]. intros E. rewrite E in I1, I2. split; apply (inner_exact N); assumption.
Qed.
End Weak.
Print Assumptions C83_get_divergence.
Print Assumptions C83_kmm_divergence_free.
Print Assumptions C83_rk3_divergence_free.
Print Assumptions C83_normal_velocity.
Print Assumptions C83_normal_vorticity.
Print Assumptions C83_mean_velocity.

(** ** The hypotheses can be met: five points, Gauss quadrature *)
Definition mt5 : mats :=
  mkMats (gmat 5 cw 1 3 e_phi 1 e_psi) (gmat 5 cw 2 1 e_psi 1 e_psi) (gmat 5 cw 0 1 e_psi 1 e_psi) (gmat 5 cw 4 1 e_psi 1 e_psi)
    (gmat 5 cw 2 3 e_phi 3 e_phi) (gmat 5 cw 0 3 e_phi 3 e_phi) (gmat 5 cw 0 3 e_phi 1 e_psi) (gmat 5 cw 1 1 e_psi 3 e_phi)
    (gmat 5 cw 2 3 e_phi 3 e_phi) (gmat 5 cw 0 3 e_phi 3 e_phi).
Lemma mt5_galerkin : galerkin 5 cw mt5.
Proof.
  repeat split; apply gmat_rows; first [apply (phi_coef 5) | apply (psi_coef 5)].
Qed.
Definition e3 (i : nat) : col := fun l => if (l =? i)%nat then C1 else C0.
Definition en (M : col -> col) (i j : nat) : R := fst (M (e3 j) i).
(** a solver for systems of three equations where 1 is decoupled from 0 and 2 *)
Definition psolve (m : nat -> nat -> R) (b : col) : col := fun i =>
  let det := m 0%nat 0%nat * m 2%nat 2%nat - m 0%nat 2%nat * m 2%nat 0%nat in
  match i with
  | 0%nat => (RtoC (/ det) * (RtoC (m 2%nat 2%nat) * b 0%nat - RtoC (m 0%nat 2%nat) * b 2%nat))%C
  | 1%nat => (RtoC (/ m 1%nat 1%nat) * b 1%nat)%C
  | 2%nat => (RtoC (/ det) * (RtoC (m 0%nat 0%nat) * b 2%nat - RtoC (m 2%nat 0%nat) * b 0%nat))%C
  | _ => C0
  end.
Definition sv5 : solvers :=
  mkSolvers (fun A B a b => psolve (fun i j => a * en A i j + b * en B i j))
            (fun S A B c a b r i => match i with O => (RtoC (/ (c * en S 0%nat 0%nat + a * en A 0%nat 0%nat + b * en B 0%nat 0%nat)) * r 0%nat)%C | _ => C0 end)
            (fun A => psolve (en A)).
Ltac cnorm := apply C_eq; unfold Csub, RtoC, Cmul, Cadd, Copp, C0; cbn [fst snd INR]; field.
Lemma DT5 b : D_T 5 b 0%nat = (b 1%nat + RtoC 3 * b 3%nat)%C /\ D_T 5 b 1%nat = (RtoC 4 * b 2%nat + RtoC 8 * b 4%nat)%C /\
  D_T 5 b 2%nat = (RtoC 6 * b 3%nat)%C /\ D_T 5 b 3%nat = (RtoC 8 * b 4%nat)%C /\ D_T 5 b 4%nat = C0.
Proof.
  repeat split; unfold D_T; cbn [Csum Nat.ltb Nat.leb Nat.sub Nat.odd Nat.even negb andb]; cnorm.
Qed.
Lemma DT5_0 b : D_T 5 b 0%nat = (b 1%nat + RtoC 3 * b 3%nat)%C. Proof. apply DT5. Qed.
Lemma DT5_1 b : D_T 5 b 1%nat = (RtoC 4 * b 2%nat + RtoC 8 * b 4%nat)%C. Proof. apply DT5. Qed.
Lemma DT5_2 b : D_T 5 b 2%nat = (RtoC 6 * b 3%nat)%C. Proof. apply DT5. Qed.
Lemma DT5_3 b : D_T 5 b 3%nat = (RtoC 8 * b 4%nat)%C. Proof. apply DT5. Qed.
Lemma DT5_4 b : D_T 5 b 4%nat = C0. Proof. apply DT5. Qed.
Lemma DD5 b : D_T 5 (D_T 5 b) 0%nat = (RtoC 4 * b 2%nat + RtoC 32 * b 4%nat)%C /\ D_T 5 (D_T 5 b) 1%nat = (RtoC 24 * b 3%nat)%C /\
  D_T 5 (D_T 5 b) 2%nat = (RtoC 48 * b 4%nat)%C /\ D_T 5 (D_T 5 b) 3%nat = C0 /\ D_T 5 (D_T 5 b) 4%nat = C0.
Proof. rewrite !DT5_0, !DT5_1, !DT5_2, !DT5_3, !DT5_4. repeat split; cnorm. Qed.
Lemma DDDD5 b : D_T 5 (D_T 5 (D_T 5 (D_T 5 b))) 0%nat = (RtoC 192 * b 4%nat)%C /\
  forall i, (1 <= i < 5)%nat -> D_T 5 (D_T 5 (D_T 5 (D_T 5 b))) i = C0.
Proof.
  destruct (DD5 (D_T 5 (D_T 5 b))) as (E0 & E1 & E2 & E3 & E4). destruct (DD5 b) as (F0 & F1 & F2 & F3 & F4).
  split; [rewrite E0, F2, F4; cnorm|]. intros i Hi.
  destruct i as [|[|[|[|[|i]]]]]; [lia|rewrite E1, F3|rewrite E2, F4|exact E3|exact E4|lia]; ring.
Qed.
Lemma cphi u : coefs 3 e_phi u 0%nat = u 0%nat /\ coefs 3 e_phi u 1%nat = u 1%nat /\ coefs 3 e_phi u 2%nat = (u 2%nat - u 0%nat)%C /\
  coefs 3 e_phi u 3%nat = (- u 1%nat)%C /\ coefs 3 e_phi u 4%nat = (- u 2%nat)%C.
Proof. repeat split; unfold coefs, e_phi, dl; cbn [Csum Nat.eqb Nat.add]; rewrite ?Rminus_0_r, ?Rminus_diag_eq by reflexivity;
  rewrite ?RtoC_0, ?RtoC_1; replace (0 - 1) with (- (1)) by ring; rewrite ?RtoC_opp, ?RtoC_1; ring. Qed.
Lemma cpsi u : coefs 1 e_psi u 0%nat = u 0%nat /\ coefs 1 e_psi u 1%nat = C0 /\ coefs 1 e_psi u 2%nat = (RtoC (- (4/3)) * u 0%nat)%C /\
  coefs 1 e_psi u 3%nat = C0 /\ coefs 1 e_psi u 4%nat = (RtoC (1/3) * u 0%nat)%C.
Proof. repeat split; unfold coefs, e_psi, dl; cbn [Csum Nat.eqb Nat.add INR]; cnorm. Qed.
Lemma Cmul0 z : (C0 * z = C0)%C. Proof. ring. Qed.
Ltac gval := unfold gmat; cbn [Nat.ltb Nat.leb Csum Dn]; rewrite ?DT5_0, ?DT5_1, ?DT5_2, ?DT5_3, ?DT5_4;
  repeat match goal with
  | |- context [coefs 3 e_phi ?u ?i] => let H := fresh in pose proof (cphi u) as H; destruct H as (H0 & H1 & H2 & H3 & H4); rewrite ?H0, ?H1, ?H2, ?H3, ?H4; clear H0 H1 H2 H3 H4
  | |- context [coefs 1 e_psi ?u ?i] => let H := fresh in pose proof (cpsi u) as H; destruct H as (H0 & H1 & H2 & H3 & H4); rewrite ?H0, ?H1, ?H2, ?H3, ?H4; clear H0 H1 H2 H3 H4
  end;
  unfold e_phi, e_psi, dl, cw; cbn [Nat.eqb Nat.add INR]; rewrite ?Rminus_0_r, ?Rmult_0_r, ?Rplus_0_r, ?Rminus_0_r, ?Rmult_0_r, ?Rmult_1_r, ?RtoC_0, ?Cmul0;
  clear; cnorm.
Lemma B5 u : BDD mt5 u 0%nat = (RtoC PI * (RtoC (3/2) * u 0%nat - RtoC (1/2) * u 2%nat))%C /\
  BDD mt5 u 1%nat = (RtoC PI * u 1%nat)%C /\ BDD mt5 u 2%nat = (RtoC PI * (u 2%nat - RtoC (1/2) * u 0%nat))%C.
Proof. repeat split; unfold mt5; cbn [BDD]; gval. Qed.
Lemma A5 u : ADD mt5 u 0%nat = (RtoC (- 4 * PI) * (u 0%nat + u 2%nat))%C /\
  ADD mt5 u 1%nat = (RtoC (- 12 * PI) * u 1%nat)%C /\ ADD mt5 u 2%nat = (RtoC (- 24 * PI) * u 2%nat)%C.
Proof. repeat split; unfold mt5; cbn [ADD]; gval. Qed.
Lemma bih5 u : BBB mt5 u 0%nat = (RtoC (35/18 * PI) * u 0%nat)%C /\ ABB mt5 u 0%nat = (RtoC (- (16/3) * PI) * u 0%nat)%C /\
  SBB mt5 u 0%nat = (RtoC (64 * PI) * u 0%nat)%C.
Proof.
  destruct (cpsi u) as (P0 & P1 & P2 & P3 & P4). destruct (DD5 (coefs 1 e_psi u)) as (D0 & D1 & D2 & D3 & D4).
  destruct (DDDD5 (coefs 1 e_psi u)) as (Q0 & Q).
  repeat split; unfold mt5, gmat; cbn [BBB ABB SBB Nat.ltb Nat.leb Csum Dn]; rewrite ?Q0, ?Q, ?D0, ?D1, ?D2, ?D3, ?D4, ?P0, ?P1, ?P2, ?P3, ?P4 by lia;
    unfold e_psi, dl, cw; cbn [Nat.eqb Nat.add INR]; clear; cnorm.
Qed.
Lemma gmat_linear N h m nb eb nt et : linear (gmat N h m nb eb nt et).
Proof.
  assert (LD : forall a b u v i, D_T N (fun i => (a * u i + b * v i)%C) i = (a * D_T N u i + b * D_T N v i)%C).
  { intros a b u v i. unfold D_T. set (w := RtoC (match i with O => 1 | _ => 2 end)).
    transitivity (w * (a * Csum N (fun q => if (i <? q)%nat && Nat.odd (q - i) then RtoC (INR q) * u q else C0)
                       + b * Csum N (fun q => if (i <? q)%nat && Nat.odd (q - i) then RtoC (INR q) * v q else C0)))%C; [|ring].
    f_equal. rewrite <- !Csum_scal, <- Csum_add. apply Csum_ext. intros q _. destruct ((i <? q)%nat && Nat.odd (q - i)); ring. }
  assert (LDn : forall m a b u v i, Dn N m (fun i => (a * u i + b * v i)%C) i = (a * Dn N m u i + b * Dn N m v i)%C).
  { induction m0 as [|m' IH]; intros a b u v i; cbn [Dn]; [reflexivity|]. rewrite <- IH. f_equal. extensionality l. apply LD. }
  intros a b u v i. unfold gmat. destruct (i <? nt)%nat; [|ring].
  rewrite <- !Csum_scal, <- Csum_add. apply Csum_ext. intros l _.
  replace (coefs nb eb (fun i => (a * u i + b * v i)%C)) with (fun i => (a * coefs nb eb u i + b * coefs nb eb v i)%C).
  - rewrite LDn. ring.
  - extensionality q. unfold coefs. rewrite <- !Csum_scal, <- Csum_add. apply Csum_ext. intros; ring.
Qed.
Lemma psolve_solves M m :
  (forall u, M u 0%nat = (RtoC (m 0%nat 0%nat) * u 0%nat + RtoC (m 0%nat 2%nat) * u 2%nat)%C /\
             M u 1%nat = (RtoC (m 1%nat 1%nat) * u 1%nat)%C /\
             M u 2%nat = (RtoC (m 2%nat 0%nat) * u 0%nat + RtoC (m 2%nat 2%nat) * u 2%nat)%C) ->
  m 1%nat 1%nat <> 0 -> m 0%nat 0%nat * m 2%nat 2%nat - m 0%nat 2%nat * m 2%nat 0%nat <> 0 -> solves 3 M (psolve m).
Proof.
  intros HM H1 H2. split; [|split].
  - intros b i Hi. destruct (HM (psolve m b)) as (M0 & M1 & M2).
    destruct i as [|[|[|i]]]; [rewrite M0|rewrite M1|rewrite M2|lia]; unfold psolve; ceq; field; assumption.
  - intros b i Hi. destruct i as [|[|[|i]]]; [lia..|reflexivity].
  - intros b u Hu Hb i. destruct (HM u) as (M0 & M1 & M2).
    assert (B0 := Hb 0%nat ltac:(lia)). assert (B1 := Hb 1%nat ltac:(lia)). assert (B2 := Hb 2%nat ltac:(lia)).
    rewrite M0 in B0. rewrite M1 in B1. rewrite M2 in B2.
    destruct i as [|[|[|i]]]; [..|symmetry; apply Hu; lia]; unfold psolve; rewrite ?B0, ?B1, ?B2; ceq; field; assumption.
Qed.
Ltac enval := unfold en; rewrite ?(proj1 (A5 _)), ?(proj1 (proj2 (A5 _))), ?(proj2 (proj2 (A5 _))), ?(proj1 (B5 _)), ?(proj1 (proj2 (B5 _))), ?(proj2 (proj2 (B5 _)));
  unfold e3; cbn [Nat.eqb]; unfold Csub, RtoC, Cmul, Cadd, Copp, C0, C1; cbn [fst snd]; field.
Lemma enB : en (BDD mt5) 0 0 = 3/2 * PI /\ en (BDD mt5) 0 2 = - (1/2) * PI /\ en (BDD mt5) 1 1 = PI /\
  en (BDD mt5) 2 0 = - (1/2) * PI /\ en (BDD mt5) 2 2 = PI.
Proof. repeat split; enval. Qed.
Lemma enA : en (ADD mt5) 0 0 = - 4 * PI /\ en (ADD mt5) 0 2 = - 4 * PI /\ en (ADD mt5) 1 1 = - 12 * PI /\
  en (ADD mt5) 2 0 = 0 /\ en (ADD mt5) 2 2 = - 24 * PI.
Proof. repeat split; enval. Qed.
Lemma enS : en (SBB mt5) 0 0 = 64 * PI /\ en (ABB mt5) 0 0 = - (16/3) * PI /\ en (BBB mt5) 0 0 = 35/18 * PI.
Proof.
  unfold en. destruct (bih5 (e3 0)) as (-> & -> & ->). unfold e3. cbn [Nat.eqb].
  unfold RtoC, Cmul, C1. cbn [fst snd]. repeat split; field.
Qed.
Lemma tdma5 : solves 3 (BDD mt5) (TDMA sv5 (BDD mt5)).
Proof.
  destruct enB as (E1 & E2 & E3 & E4 & E5). cbn [TDMA sv5]. pose proof PI_RGT_0 as P. apply psolve_solves.
  - intros u. destruct (B5 u) as (-> & -> & ->). rewrite E1, E2, E3, E4, E5. repeat split; cnorm.
  - rewrite E3. lra.
  - rewrite E1, E2, E4, E5. replace (_ - _) with (5/4 * (PI * PI)) by field. nra.
Qed.
Lemma helm5 b : 0 <= b -> solves 3 (comb2 (- 1) (ADD mt5) b (BDD mt5)) (Helmholtz sv5 (ADD mt5) (BDD mt5) (- 1) b).
Proof.
  intros Hb. destruct enB as (E1 & E2 & E3 & E4 & E5). destruct enA as (F1 & F2 & F3 & F4 & F5).
  cbn [Helmholtz sv5]. pose proof PI_RGT_0 as P. apply psolve_solves.
  - intros u. unfold comb2. destruct (B5 u) as (-> & -> & ->). destruct (A5 u) as (-> & -> & ->).
    rewrite E1, E2, E3, E4, E5, F1, F2, F3, F4, F5. repeat split; cnorm.
  - rewrite E3, F3. nra.
  - rewrite E1, E2, E4, E5, F1, F2, F4, F5.
    replace (_ - _) with (PI * PI * (96 + 42 * b + 5/4 * (b * b))) by field.
    assert (0 < PI * PI) by nra. assert (0 <= b * b) by nra. nra.
Qed.
Lemma biharm5 c a b : 0 < c -> 0 <= a -> 0 <= b ->
  solves 1 (comb3 (- c) (SBB mt5) a (ABB mt5) (- b) (BBB mt5)) (Biharmonic sv5 (SBB mt5) (ABB mt5) (BBB mt5) (- c) a (- b)).
Proof.
  intros Hc Ha Hb. destruct enS as (E1 & E2 & E3). cbn [Biharmonic sv5]. rewrite E1, E2, E3.
  pose proof PI_RGT_0 as P. set (m := - c * (64 * PI) + a * (- (16/3) * PI) + - b * (35/18 * PI)).
  assert (Hm : m <> 0) by (unfold m; nra).
  assert (V : forall u, comb3 (- c) (SBB mt5) a (ABB mt5) (- b) (BBB mt5) u 0%nat = (RtoC m * u 0%nat)%C).
  { intros u. unfold comb3, comb2. destruct (bih5 u) as (-> & -> & ->). unfold m. cnorm. }
  split; [|split].
  - intros r i Hi. replace i with 0%nat by lia. rewrite V. ceq; field; exact Hm.
  - intros r i Hi. destruct i; [lia|reflexivity].
  - intros r u Hu Hr i. destruct i; [|symmetry; apply Hu; lia]. rewrite (Hr 0%nat ltac:(lia)), V. ceq; field; exact Hm.
Qed.
(** the solvers of KMM with nu = 1/2, dt = 1 *)
Example C83_solvers5 : kmm_solvers_ok INR INR mt5 sv5 (/ 2) 1 3 1.
Proof.
  assert (Q : forall j k, 0 <= INR j * INR j + INR k * INR k) by (intros j k; pose proof (pos_INR j); pose proof (pos_INR k); nra).
  split; [|split].
  - intros j k. apply helm5. pose proof (Q j k). lra.
  - intros j k. pose proof (Q j k). apply biharm5; [lra|lra|]. nra.
  - apply helm5. lra.
Qed.
(** every hypothesis of C83 holds for this system, from any state *)
Example C83_example (s : kst) :
  let s' := integrate x0 x1 x2 INR INR INR INR true mt5 sv5 (/ 2) 1 None (fun U _ c j k i => Ci * U c j k i)%C (fun _ _ _ _ => C0) s in
  divergence_free (kvel x0 x1 x2 5 2 2 (fun _ _ => 1) INR INR (U_hat s')) /\
  no_slip_in x0 (kvel x0 x1 x2 5 2 2 (fun _ _ => 1) INR INR (U_hat s')) /\
  (forall i u2 v2, (i < 3)%nat -> nth_derivative 2 (series 3 phi (g s 1%nat 1%nat)) u2 -> nth_derivative 2 (series 3 phi (g s' 1%nat 1%nat)) v2 ->
    exists r, Cwint (fun x => r x * RtoC (phi i x))%C C0 /\
      forall x, r x = residual_d (/ 2) 1 2 (series 3 phi (g s 1%nat 1%nat)) u2 (series 3 phi (g s' 1%nat 1%nat)) v2
        (fun x => Ci * series 3 phi (extrap None (fun c j k i => Ci * U_hat s c j k i)%C (H_hat1 s) x2 1%nat 1%nat) x
                  - Ci * series 3 phi (extrap None (fun c j k i => Ci * U_hat s c j k i)%C (H_hat1 s) x1 1%nat 1%nat) x)%C x).
Proof.
  intros s'.
  assert (Hz : zero_mode_on_root 2 2 true INR INR).
  { intros j k Hj Hk. split.
    - intros (E1 & E2). change 0 with (INR 0) in E1, E2. apply INR_eq in E1, E2. auto.
    - intros (_ & -> & ->). simpl. auto. }
  assert (LB : linear (BDD mt5)) by apply gmat_linear.
  assert (LC : linear (CDB mt5)) by apply gmat_linear.
  assert (LB0 : linear (BDD0 mt5)) by apply gmat_linear.
  destruct (C83_kmm_divergence_free x0 x1 x2 ltac:(congruence) ltac:(congruence) ltac:(congruence) INR INR mt5 sv5 5 2 2 (fun _ _ => 1) cw
    ltac:(lia) mt5_galerkin tdma5 INR INR true (/ 2) 1 None (fun U _ c j k i => Ci * U c j k i)%C (fun _ _ _ _ => C0) Hz LB LC s) as (D1 & D2).
  split; [exact D1|]. split; [exact D2|]. intros i u2 v2 Hi A B.
  destruct (C83_normal_vorticity x0 x1 x2 ltac:(congruence) ltac:(congruence) ltac:(congruence) INR INR INR INR true mt5 sv5
    (/ 2) 1 None (fun U _ c j k i => Ci * U c j k i)%C (fun _ _ _ _ => C0) 5 cw mt5_galerkin ltac:(lra) ltac:(lra) C83_solvers5 LB0 s 1%nat 1%nat i u2 v2 Hi A B) as (_ & P).
  eexists. split; [apply (P eq_refl)|]. intros x. unfold residual_d. cbn [INR].
  replace (1 * 1 + 1 * 1) with 2 by ring. rewrite !RtoC_1. cbv beta zeta. unfold s'. change (5 - 2)%nat with 3%nat. ring.
Qed.
