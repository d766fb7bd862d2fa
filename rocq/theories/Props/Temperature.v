(** C85: the temperature and the velocity of the Rayleigh-Benard solvers as functions of the point. *)
From Coq Require Import Reals List Bool Arith Lia Lra FunctionalExtensionality.
From Verif Require Import Base.Cplx Base.Sums Base.Fin Model.KMM Model.KMMRB Model.ChannelConv Model.ChannelAccess Model.RBConv Spec.Chebyshev
  Spec.Channel Spec.ChannelField Spec.Coupled Spec.Galerkin Spec.Temperature Proofs.ChebyshevProofs Proofs.KMMProofs Proofs.ChannelConvProofs
  Proofs.CoupledProofs Proofs.PressureProofs Proofs.GalerkinProofs Proofs.RBProofs Props.Channel Props.ChannelRB Props.Galerkin.
Open Scope R_scope.
Notation phiD := ChannelField.phi.

(** the coefficients (N-2, N-1) of the columns of P are the wall values: a and b in mode (0,0), zero elsewhere *)
Definition walls (N n1 n2 : nat) (a b : R) (P : fld) : Prop :=
  forall j k, (j < n1)%nat -> (k < n2)%nat ->
    P j k (N - 2)%nat = (if (j =? 0)%nat && (k =? 0)%nat then RtoC a else C0) /\
    P j k (N - 1)%nat = (if (j =? 0)%nat && (k =? 0)%nat then RtoC b else C0).

(** ** The gradient in StandardRBConvection *)
Section Gradient.
Context (K1 K2 : nat -> R) (N n1 n2 : nat) (wt : nat -> nat -> R) (h : nat -> R) (a b : R).
Hypothesis HN : (4 <= N)%nat.
Hypothesis Hz : K1 0%nat = 0 /\ K2 0%nat = 0.
Context (CTD BTTsolve : col -> col).
(** KMMRK3_RB.py:35-36: CTD has the rows (f', T_i), BTT is diagonal *)
Hypothesis HC : rows N h 1 (N - 2) phiD N T CTD.
Hypothesis HBTT : forall r i, (i < N)%nat -> BTTsolve r i = (RtoC (/ h i) * r i)%C.
Hypothesis Hh : forall i, (i < N)%nat -> h i <> 0.
Notation syn nb bs := (field x0 x1 x2 n1 n2 wt K1 K2 nb bs).
Notation temp P := (tfield x0 x1 x2 n1 n2 wt K1 K2 N P).
Notation grad P := (dTdxi N K1 K2 (syn N T) (syn (N - 2)%nat phiD) CTD BTTsolve (h 0%nat) P).

Lemma dTdx_hat_spec (P : fld) j k i : (i < N)%nat -> dTdx_hat N CTD BTTsolve (h 0%nat) P j k i = dlift N (P j k) i.
Proof.
  intros Hi. unfold dTdx_hat. cbv zeta. rewrite HBTT by exact Hi. unfold dlift.
  pose proof (RtoC_neq0 _ (Hh i Hi)) as Hn.
  assert (Hinv : (RtoC (/ h i) * RtoC (h i) = C1)%C)
    by (rewrite <- RtoC_mul, Rinv_l by (apply Hh, Hi); apply RtoC_1).
  destruct i as [|i].
  - rewrite (rows_T_val N h (N - 2) phiD e_phi CTD (phi_coef N) HC) by exact Hi.
    cbn [Nat.eqb]. replace 0.5 with (/ 2) by lra. rewrite RtoC_mul.
    match goal with |- (?r * (?h * ?d + ?c * ?h * ?e))%C = _ => transitivity (r * h * (d + c * e))%C; [ring|rewrite Hinv; ring] end.
  - rewrite (rows_T_val N h (N - 2) phiD e_phi CTD (phi_coef N) HC) by exact Hi. cbn [Nat.eqb].
    match goal with |- (?r * (?h * ?d))%C = _ => transitivity (r * h * d)%C; [ring|rewrite Hinv; ring] end.
Qed.
Lemma tangential (P : fld) (m : nat -> nat -> C) p : walls N n1 n2 a b P -> m 0%nat 0%nat = C0 ->
  syn N (lift_basis N) (fmul m P) p = syn (N - 2)%nat phiD (fmul m P) p.
Proof.
  intros HW Hm. unfold field. apply Rsum_ext. intros j Hj. apply Rsum_ext. intros k Hk. f_equal. f_equal. f_equal.
  change (series N (lift_basis N) (fmul m P j k) (p x0) = series (N - 2) phiD (fmul m P j k) (p x0)).
  rewrite lift_series by lia. destruct (HW j k Hj Hk) as (E1 & E2). unfold fmul, csc at 2 3. rewrite E1, E2.
  destruct ((j =? 0)%nat && (k =? 0)%nat) eqn:E; [|ring].
  apply andb_prop in E. destruct E as (Ej & Ek). apply Nat.eqb_eq in Ej, Ek. subst j k. rewrite Hm. ring.
Qed.
(** The three arrays are the partial derivatives of the temperature, walls included, at every point *)
Theorem C85_gradient (P : fld) : walls N n1 n2 a b P -> is_grad (temp P) (grad P).
Proof.
  intros HW d p. destruct d; cbn [dTdxi].
  - unfold tfield.
    replace (syn N T (dTdx_hat N CTD BTTsolve (h 0%nat) P) p) with (syn N T (fun j k => dlift N (P j k)) p).
    2:{ apply field_ext. intros j k _ _. apply Csum_ext. intros i Hi. rewrite dTdx_hat_spec by exact Hi. reflexivity. }
    apply partial_n; try congruence. intros j k _ _. apply dlift_deriv. lia.
  - rewrite <- (tangential P) by (exact HW || (unfold iK1; rewrite (proj1 Hz), RtoC_0; ring)).
    apply partial_1; congruence.
  - rewrite <- (tangential P) by (exact HW || (unfold iK2; rewrite (proj2 Hz), RtoC_0; ring)).
    apply partial_2; congruence.
Qed.
(** and what is transformed is (u . grad) T of the velocity and temperature fields *)
Theorem C85_convection (fST : (point -> R) -> fld) (M : col -> col) (u : vfld) (P : fld) (G : ax3 -> point -> R) :
  walls N n1 n2 a b P -> is_grad (temp P) G ->
  let vel := kvel x0 x1 x2 N n1 n2 wt K1 K2 u in
  let bU := fun (c : ax3) (F : fld) => if eqb3 c x0 then syn (N - 4)%nat psi F else syn (N - 2)%nat phiD F in
  StandardRBConvection N K1 K2 bU (syn N T) (syn (N - 2)%nat phiD) fST CTD BTTsolve M (h 0%nat) u P
  = fun j k => M (fST (advected vel G) j k).
Proof.
  intros HW HG vel bU. unfold StandardRBConvection. extensionality j. extensionality k. f_equal. f_equal.
  extensionality p. unfold advected.
  assert (E : forall d, grad P d p = G d p) by (intros d; exact (uniqueness_limite _ _ _ _ (C85_gradient P HW d p) (HG d p))).
  rewrite <- !E. reflexivity.
Qed.
(** so that with M = BDD the rows are the scalar products of the transform of (u . grad) T *)
Corollary C85_convection_rows (fST : (point -> R) -> fld) (M : col -> col) (u : vfld) (P : fld) (G : ax3 -> point -> R) j k i :
  walls N n1 n2 a b P -> is_grad (temp P) G -> rows N h 0 (N - 2) phiD (N - 2) phiD M -> (i < N - 2)%nat ->
  let bU := fun (c : ax3) (F : fld) => if eqb3 c x0 then syn (N - 4)%nat psi F else syn (N - 2)%nat phiD F in
  inner N h (series (N - 2) phiD (fST (advected (kvel x0 x1 x2 N n1 n2 wt K1 K2 u) G) j k)) (phiD i)
    (StandardRBConvection N K1 K2 bU (syn N T) (syn (N - 2)%nat phiD) fST CTD BTTsolve M (h 0%nat) u P j k i).
Proof.
  intros HW HG HM Hi bU. unfold bU. rewrite (C85_convection fST M u P G HW HG). apply HM; [exact Hi|intros x; reflexivity].
Qed.
End Gradient.
Print Assumptions C85_gradient.
Print Assumptions C85_convection_rows.
Print Assumptions C85_convection.

(** ** Walls *)
Section Walls.
Context (cn c1 c2 : ax3) (K1 K2 : nat -> R) (N n1 n2 : nat) (wt : nat -> nat -> R) (a b : R).
Hypothesis HN : (4 <= N)%nat.
Hypothesis Hz : K1 0%nat = 0 /\ K2 0%nat = 0.
Hypothesis Hwt : wt 0%nat 0%nat = 1.
Hypothesis Hn : (0 < n1)%nat /\ (0 < n2)%nat.
Theorem C85_wall_temperatures (P : fld) : walls N n1 n2 a b P ->
  wall_temperatures cn (tfield cn c1 c2 n1 n2 wt K1 K2 N P) a b.
Proof.
  intros HW.
  assert (X : forall p (v : R) (w : nat -> nat -> C),
    (forall j k, (j < n1)%nat -> (k < n2)%nat -> series N (lift_basis N) (P j k) (p cn) = if (j =? 0)%nat && (k =? 0)%nat then RtoC v else C0) ->
    tfield cn c1 c2 n1 n2 wt K1 K2 N P p = v).
  { intros p v _ H. unfold tfield, field.
    transitivity (Rsum n1 (fun j => if (j =? 0)%nat then v else 0)).
    - apply Rsum_ext. intros j Hj.
      transitivity (Rsum n2 (fun k => if (k =? 0)%nat then (if (j =? 0)%nat then v else 0) else 0)).
      + apply Rsum_ext. intros k Hk. pose proof (H j k Hj Hk) as E. unfold series in E. rewrite E.
        destruct (Nat.eqb_spec j 0) as [->|]; destruct (Nat.eqb_spec k 0) as [->|]; cbn [andb]; try (unfold Re; simpl; ring).
        rewrite Hwt, (proj1 Hz), (proj2 Hz). unfold expi, Re, RtoC, Cmul. cbn [fst snd].
        replace (0 * p c1 + 0 * p c2) with 0 by ring. rewrite cos_0, sin_0. ring.
      + rewrite (Rsum_delta n2 0 (fun _ => if (j =? 0)%nat then v else 0)). destruct (Nat.ltb_spec 0 n2); [reflexivity|lia].
    - rewrite (Rsum_delta n1 0 (fun _ => v)). destruct (Nat.ltb_spec 0 n1); [reflexivity|lia]. }
  intros p. split; intros Hp; apply (X p _ (fun _ _ => C0)); intros j k Hj Hk; rewrite Hp;
    [rewrite (proj1 (lift_walls N (P j k) ltac:(lia)))|rewrite (proj2 (lift_walls N (P j k) ltac:(lia)))]; apply HW; assumption.
Qed.
End Walls.
Print Assumptions C85_wall_temperatures.

(** ** What a step does *)
Section Steps.
Context (cn c1 c2 : ax3).
Hypothesis Hn1 : cn <> c1.
Hypothesis Hn2 : cn <> c2.
Hypothesis H12 : c1 <> c2.
Context (K1 K2 Kx1 Kx2 : nat -> R) (root : bool) (mt : mats) (sv : solvers) (nu dt kappa : R).
Context (mask : option (nat -> nat -> R)) (conv : vfld -> fld -> vfld) (Sk : vfld).
Context (h : nat -> R) (N : nat) (uT : vfld -> fld -> vfld) (convT : vfld -> fld -> fld).
Context (n1 n2 : nat) (wt : nat -> nat -> R) (a b : R).
Hypothesis HN : (4 <= N)%nat.
Hypothesis HG : galerkin N h mt.
Hypothesis Hk : kappa <> 0.
Hypothesis Hnu : nu <> 0.
Hypothesis Hdt : dt <> 0.
Notation ADDT := (ADD mt).
Notation BDDT := (BDD mt).
Notation ksq j k := (K1 j * K1 j + K2 k * K2 k).
Notation theta rk := (rk_a rk + rk_b rk).
Notation integrate' o := (integrate_rb cn c1 c2 K1 K2 Kx1 Kx2 root mt sv nu dt kappa mask conv Sk ADDT BDDT (h 0%nat) (h 1%nat) N ADDT BDDT uT o).
Notation stage' := (stage_rkrb cn c1 c2 K1 K2 Kx1 Kx2 root mt sv nu dt kappa mask conv Sk ADDT BDDT (h 0%nat) (h 1%nat) N ADDT BDDT convT).
Notation integrate_rk' := (integrate_rkrb cn c1 c2 K1 K2 Kx1 Kx2 root mt sv nu dt kappa mask conv Sk ADDT BDDT (h 0%nat) (h 1%nat) N ADDT BDDT convT).
Notation vel u := (kvel cn c1 c2 N n1 n2 wt K1 K2 u).
Notation temp P := (tfield cn c1 c2 n1 n2 wt K1 K2 N P).
Notation tser q := (series N (lift_basis N) q).

(** *** Velocity *)
Section Div.
Hypothesis HT : solves (N - 2) (BDD mt) (TDMA sv (BDD mt)).
Hypothesis Hz : zero_mode_on_root n1 n2 root K1 K2.
Hypothesis HB : linear (BDD mt).
Hypothesis HD : linear (CDB mt).
(** the temperature does not spoil continuity: after every call of integrate(), whatever the state and the order of
    the arguments of the solvers *)
Theorem C85_rb_divergence_free (o : order) (s : rbst) :
  let u := U_hat (base (integrate' o s)) in divergence_free (vel u) /\ no_slip_in cn (vel u).
Proof.
  intros u. split; [|apply kvel_no_slip].
  apply (good_divergence_free cn c1 c2 Hn1 Hn2 H12 K1 K2 mt sv N n1 n2 wt h HN HG HT u (g (base (integrate' o s)))).
  unfold u, integrate_rb, ComputeRHS_rb, ComputeRHS, solve_linear_rb, solve_linear. cbv zeta. simpl.
  apply (vw_good cn c1 c2 Hn1 Hn2 H12 K1 K2 root mt sv (N - 2)); try assumption.
  intros j k d Hd i. apply (tdma_neg (N - 2) _ _ _ HB HD HT _ _ Hd i).
Qed.
Theorem C85_rkrb_divergence_free (rk : nat) (s : rkrb) :
  let u := r_U (rbase (stage' rk s)) in let u' := r_U (rbase (integrate_rk' s)) in
  (divergence_free (vel u) /\ no_slip_in cn (vel u)) /\ (divergence_free (vel u') /\ no_slip_in cn (vel u')).
Proof.
  assert (W : forall rk s, divergence_free (vel (r_U (rbase (stage' rk s)))) /\ no_slip_in cn (vel (r_U (rbase (stage' rk s))))).
  { clear rk s. intros rk s. split; [|apply kvel_no_slip].
    apply (good_divergence_free cn c1 c2 Hn1 Hn2 H12 K1 K2 mt sv N n1 n2 wt h HN HG HT _ (r_g (rbase (stage' rk s)))).
    unfold stage_rkrb, ComputeRHS_rkrb, ComputeRHS_rk, solve_linear_rkrb, solve_linear_rk. cbv zeta. simpl.
    pose proof (fun U f gh m0 m1 Hf => vw_good cn c1 c2 Hn1 Hn2 H12 K1 K2 root mt sv (N - 2) n1 n2 U f gh m0 m1 Hz HB HD HT Hf) as V.
    destruct root.
    - simpl. apply V. intros j k d Hd i. apply (tdma_neg' (N - 2) _ _ _ HB HD HT _ _ Hd i).
    - simpl. refine (V _ _ _ czero czero _). intros j k d Hd i. apply (tdma_neg' (N - 2) _ _ _ HB HD HT _ _ Hd i). }
  intros u u'. split; apply W.
Qed.
End Div.

(** *** Temperature *)
(** the solver puts the wall values into the last two coefficients *)
Definition sets_walls (S : nat -> nat -> col -> col) : Prop := forall f : fld, walls N n1 n2 a b (fun j k => S j k (f j k)).
Theorem C85_walls (s : rbst) : K1 0%nat = 0 /\ K2 0%nat = 0 -> wt 0%nat 0%nat = 1 -> (0 < n1)%nat /\ (0 < n2)%nat ->
  sets_walls (fun j k => Helmholtz sv ADDT BDDT (- 1) (ksq j k + 2 / kappa / dt)) ->
  wall_temperatures cn (temp (KMMRB.phi (integrate' OutFirst s))) a b.
Proof.
  intros Hz Hw Hn HS. apply C85_wall_temperatures; try assumption. apply (HS (fun j k => snd (fst (ComputeRHS_rb cn c1 c2 K1 K2 Kx1 Kx2 mt
    nu dt kappa mask conv (h 0%nat) (h 1%nat) N ADDT BDDT uT s)) j k)).
Qed.
Theorem C85_walls_rk rk (s : rkrb) : K1 0%nat = 0 /\ K2 0%nat = 0 -> wt 0%nat 0%nat = 1 -> (0 < n1)%nat /\ (0 < n2)%nat ->
  sets_walls (fun j k => Helmholtz sv ADDT BDDT (- 1) (ksq j k + 2 / kappa / theta rk / dt)) ->
  wall_temperatures cn (temp (rphi (stage' rk s))) a b.
Proof.
  intros Hz Hw Hn HS. apply C85_wall_temperatures; try assumption. apply (HS (fun j k => snd (fst (ComputeRHS_rkrb cn c1 c2 K1 K2 Kx1 Kx2 mt
    nu dt kappa mask conv (h 0%nat) (h 1%nat) N ADDT BDDT convT rk s)) j k)).
Qed.

Lemma lift_nth2 (q : column) u2 : nth_derivative 2 (tser q) u2 -> nth_derivative 2 (series (N - 2) phiD q) u2.
Proof.
  intros (F1 & D1 & F2 & D2 & E). set (c := (RtoC (/ 2) * (q (N - 2)%nat - q (N - 1)%nat))%C).
  set (c0 := (RtoC (/ 2) * (q (N - 2)%nat + q (N - 1)%nat))%C).
  exists (fun x => F1 x + (- c + RtoC x * C0))%C. split; [|exists F2; split; [|exact E]].
  - intros x. apply (Cderiv_ext (fun y => tser q y + (- c0 + RtoC y * (- c)))%C).
    + intros y. rewrite lift_series by lia. unfold c, c0.
      replace ((1 + y) / 2) with (/ 2 + / 2 * y) by lra. replace ((1 - y) / 2) with (/ 2 - / 2 * y) by lra.
      rewrite RtoC_add, RtoC_sub, RtoC_mul. ring.
    + replace (F1 x + (- c + RtoC x * C0))%C with (F1 x + - c)%C by ring. apply Cderiv_add; [apply D1|apply Cderiv_affine].
  - intros x. replace (F2 x) with (F2 x + C0)%C by ring. apply Cderiv_add; [apply D2|apply Cderiv_affine].
Qed.
(** the two linear functions drop out of the residual *)
Lemma lift_residual k2 tau j k (x x' : column) u2 v2 f y : K1 0%nat = 0 /\ K2 0%nat = 0 -> k2 = ksq j k ->
  (x (N - 2)%nat = (if (j =? 0)%nat && (k =? 0)%nat then RtoC a else C0) /\
   x (N - 1)%nat = (if (j =? 0)%nat && (k =? 0)%nat then RtoC b else C0)) ->
  (x' (N - 2)%nat = (if (j =? 0)%nat && (k =? 0)%nat then RtoC a else C0) /\
   x' (N - 1)%nat = (if (j =? 0)%nat && (k =? 0)%nat then RtoC b else C0)) ->
  residual_d kappa tau k2 (series (N - 2) phiD x) u2 (series (N - 2) phiD x') v2 f y
  = residual_d kappa tau k2 (tser x) u2 (tser x') v2 f y.
Proof.
  intros (Z1 & Z2) -> (A1 & A2) (B1 & B2). unfold residual_d. rewrite !lift_series by lia. rewrite A1, A2, B1, B2.
  destruct ((j =? 0)%nat && (k =? 0)%nat) eqn:E; [|ring].
  apply andb_prop in E. destruct E as (Ej & Ek). apply Nat.eqb_eq in Ej, Ek. subst j k. rewrite Z1, Z2.
  replace (0 * 0 + 0 * 0) with 0 by ring. rewrite RtoC_0. ring.
Qed.
Definition maskC (j k : nat) : C := match mask with None => C1 | Some m => RtoC (m j k) end.

(** One step of the temperature: the residual of dT/dt = - div(u T) + kappa lap T, for the whole temperature (walls
    included), is orthogonal to every Dirichlet function.  f0, f1, f2: the transformed products u_n T, u_1 T, u_2 T,
    the first in the biharmonic basis *)
Theorem C85_temperature (s : rbst) (j k i : nat) u2 v2 df0 : K1 0%nat = 0 /\ K2 0%nat = 0 -> (j < n1)%nat -> (k < n2)%nat -> (i < N - 2)%nat ->
  T_solver_ok K1 K2 sv dt kappa ADDT BDDT (N - 2) ->
  sets_walls (fun j k => Helmholtz sv ADDT BDDT (- 1) (ksq j k + 2 / kappa / dt)) ->
  walls N n1 n2 a b (KMMRB.phi s) -> phi0 s = KMMRB.phi s ->
  let s' := integrate' OutFirst s in let f := uT (UCN (base s)) (phi_ab s) in
  nth_derivative 2 (tser (KMMRB.phi s j k)) u2 -> nth_derivative 2 (tser (KMMRB.phi s' j k)) v2 ->
  is_derivative (series (N - 4) psi (f cn j k)) df0 ->
  let r := residual_d kappa dt (ksq j k) (tser (KMMRB.phi s j k)) u2 (tser (KMMRB.phi s' j k)) v2
    (fun x => - maskC j k * (df0 x + Ci * RtoC (K1 j) * series (N - 2) phiD (f c1 j k) x + Ci * RtoC (K2 k) * series (N - 2) phiD (f c2 j k) x))%C in
  inner N h r (phiD i) C0 /\ (h = cw -> Cwint (fun x => r x * RtoC (phiD i x))%C C0).
Proof.
  intros Hz Hj Hk' Hi HTs HS HW E0 s' f A2 B2 D0 r.
  pose proof (rb_temperature_crank_nicolson cn c1 c2 K1 K2 Kx1 Kx2 root mt sv nu dt kappa mask conv Sk
    ADDT BDDT (h 0%nat) (h 1%nat) N ADDT BDDT uT (N - 2) s Hk Hdt HTs eq_refl eq_refl E0 j k) as P. cbv zeta in P. fold s' in P.
  destruct HG as ((GB & GA) & GC & _).
  assert (HW' : walls N n1 n2 a b (KMMRB.phi s')) by (apply (HS (fun j k => snd (fst (ComputeRHS_rb cn c1 c2 K1 K2 Kx1 Kx2 mt
    nu dt kappa mask conv (h 0%nat) (h 1%nat) N ADDT BDDT uT s)) j k))).
  assert (I : inner N h r (phiD i) C0).
  { eapply inner_ext; [intros y; apply (lift_residual _ _ j k _ _ u2 v2 _ y Hz eq_refl (HW j k Hj Hk') (HW' j k Hj Hk'))|reflexivity|].
    eapply weak_d; try eassumption; try (apply lift_nth2; assumption). unfold s'.
    change (Nt (integrate' OutFirst s)) with (DivRB cn c1 c2 K1 K2 mt uT (UCN (base s)) (phi_ab s)).
    unfold DivRB. cbv zeta. fold f.
    pose proof (GC (f cn j k) df0 i Hi (ex_intro _ df0 (conj D0 (fun _ => eq_refl)))) as I0.
    assert (LB : forall z q, series (N - 2) phiD (csc z q) = fun x => (z * series (N - 2) phiD q x)%C).
    { intros z q. extensionality x. unfold series, csc. rewrite <- Csum_scal. apply Csum_ext. intros; ring. }
    pose proof (GB (csc (Ci * RtoC (K1 j))%C (f c1 j k)) _ i Hi (fun _ => eq_refl)) as I1.
    pose proof (GB (csc (Ci * RtoC (K2 k))%C (f c2 j k)) _ i Hi (fun _ => eq_refl)) as I2.
    pose proof (inner_comb N h (phiD i) _ _ ((- maskC j k, df0, CDB mt (f cn j k) i)
      :: (- maskC j k, series (N - 2) phiD (csc (Ci * RtoC (K1 j)) (f c1 j k)), BDD mt (csc (Ci * RtoC (K1 j)) (f c1 j k)) i)
      :: (- maskC j k, series (N - 2) phiD (csc (Ci * RtoC (K2 k)) (f c2 j k)), BDD mt (csc (Ci * RtoC (K2 k)) (f c2 j k)) i) :: nil)%C I0) as Q.
    eapply inner_ext; [| |apply Q; cbn [all_inner]; repeat (split; [assumption|]); exact Logic.I].
    - intros x. cbn [lcf]. rewrite !LB. ring.
    - cbn [lcz]. unfold cadd, maskC. destruct mask; rewrite ?RtoC_1; ring. }
  split; [exact I|]. intros E. rewrite E in I. apply (inner_exact N _ _ _ I).
Qed.
(** and of a stage of KMMRK3_RB, over (a+b) dt: q0 and q are what the convection routine returned in the stage before and
    returns now, as scalar products of functions f0 and f *)
Theorem C85_temperature_rk rk (s : rkrb) (j k i : nat) u2 v2 f0 f : K1 0%nat = 0 /\ K2 0%nat = 0 -> (rk < 3)%nat ->
  (j < n1)%nat -> (k < n2)%nat -> (i < N - 2)%nat ->
  T_solver_rk_ok K1 K2 sv dt kappa ADDT BDDT (N - 2) ->
  sets_walls (fun j k => Helmholtz sv ADDT BDDT (- 1) (ksq j k + 2 / kappa / theta rk / dt)) ->
  walls N n1 n2 a b (rphi s) ->
  let s' := stage' rk s in
  nth_derivative 2 (tser (rphi s j k)) u2 -> nth_derivative 2 (tser (rphi s' j k)) v2 ->
  inner N h f0 (phiD i) (rN0 s j k i) -> inner N h f (phiD i) (convT (r_U (rbase s)) (rphi s) j k i) ->
  let r := residual_d kappa (theta rk * dt) (ksq j k) (tser (rphi s j k)) u2 (tser (rphi s' j k)) v2
    (fun x => - (RtoC (rk_a rk / theta rk) * (maskC j k * f x) + RtoC (rk_b rk / theta rk) * f0 x))%C in
  (inner N h r (phiD i) C0 /\ (h = cw -> Cwint (fun x => r x * RtoC (phiD i x))%C C0)) /\
  inner N h (fun x => maskC j k * f x)%C (phiD i) (rN0 s' j k i).
Proof.
  intros Hz Hrk Hj Hk' Hi HTs HS HW s' A2 B2 I0 I1 r.
  destruct (rkrb_temperature_stage cn c1 c2 K1 K2 Kx1 Kx2 root mt sv nu dt kappa mask conv Sk
    ADDT BDDT (h 0%nat) (h 1%nat) N ADDT BDDT (N - 2) convT rk s Hrk Hk Hdt HTs eq_refl eq_refl) as (EN & P). cbv zeta in P. fold s' in P, EN.
  specialize (P j k). destruct HG as ((GB & GA) & GC & _).
  assert (HW' : walls N n1 n2 a b (rphi s')) by (apply (HS (fun j k => snd (fst (ComputeRHS_rkrb cn c1 c2 K1 K2 Kx1 Kx2 mt
    nu dt kappa mask conv (h 0%nat) (h 1%nat) N ADDT BDDT convT rk s)) j k))).
  assert (IN : inner N h (fun x => maskC j k * f x)%C (phiD i) (maskC j k * convT (r_U (rbase s)) (rphi s) j k i)%C).
  { pose proof (inner_lin N h (maskC j k) _ _ C0 _ _ _ I1 I1) as Q. eapply inner_ext; [| |exact Q]; [intros x; cbv beta|]; ring. }
  split.
  2:{ rewrite EN. cbv beta. eapply inner_ext; [intros x; reflexivity| |exact IN]. unfold maskC. destruct mask; rewrite ?RtoC_1; reflexivity. }
  assert (I : inner N h r (phiD i) C0).
  { eapply inner_ext; [intros y; apply (lift_residual _ _ j k _ _ u2 v2 _ y Hz eq_refl (HW j k Hj Hk') (HW' j k Hj Hk'))|reflexivity|].
    eapply weak_d; try eassumption; try (apply lift_nth2; assumption).
    pose proof (inner_lin N h (- RtoC (rk_a rk / theta rk))%C _ _ (- RtoC (rk_b rk / theta rk))%C _ _ _ IN I0) as Q.
    eapply inner_ext; [| |exact Q]; [intros x; cbv beta; ring|]. unfold maskC. destruct mask; rewrite ?RtoC_1; ring. }
  split; [exact I|]. intros E. rewrite E in I. apply (inner_exact N _ _ _ I).
Qed.

(** *** Buoyancy *)
(** the buoyancy in the equation of the wall normal velocity is -(ky^2+kz^2) times the scalar product with the whole temperature *)
Lemma buoyancy_inner (P : fld) j k i : (i < N - 4)%nat ->
  exists z, inner N h (tser (P j k)) (psi i) z /\ buoyancy K1 K2 mt (h 0%nat) (h 1%nat) N P j k i = (- RtoC (ksq j k) * z)%C.
Proof.
  intros Hi. destruct HG as (_ & _ & (GBD & _) & _). set (q := P j k).
  pose proof (GBD q (series (N - 2) phiD q) i Hi (fun _ => eq_refl)) as I0.
  assert (It : forall l, (l < N)%nat -> inner N h (fun x => RtoC (T l x)) (psi i) (RtoC (h l * e_psi i l))).
  { intros l Hl. exists (fun m => RtoC (dl l m)), (e_psi i). split; [|split].
    - intros x. unfold cheb. rewrite (Csum_ext _ _ (fun m => if (m =? l)%nat then RtoC (T m x) else C0)).
      + rewrite Csum_delta. destruct (Nat.ltb_spec l N); [reflexivity|lia].
      + intros m _. unfold dl. destruct (m =? l)%nat; rewrite ?RtoC_1, ?RtoC_0; ring.
    - intros x. apply (psi_coef N); exact Hi.
    - rewrite (Csum_ext _ _ (fun m => if (m =? l)%nat then RtoC (h m * e_psi i m) else C0)).
      + rewrite Csum_delta. destruct (Nat.ltb_spec l N); [reflexivity|lia].
      + intros m _. unfold dl at 1. destruct (m =? l)%nat; rewrite ?RtoC_1, ?RtoC_0; ring. }
  pose proof (It 0%nat ltac:(lia)) as J0. pose proof (It 1%nat ltac:(lia)) as J1.
  pose proof (inner_comb N h (psi i) _ _ ((C1, series (N - 2) phiD q, BBD mt q i)
    :: (RtoC (/ 2) * (q (N - 2)%nat + q (N - 1)%nat), (fun x => RtoC (T 0 x)), RtoC (h 0%nat * e_psi i 0))
    :: (RtoC (/ 2) * (q (N - 2)%nat - q (N - 1)%nat), (fun x => RtoC (T 1 x)), RtoC (h 1%nat * e_psi i 1)) :: nil)%C I0) as Q.
  eexists. split.
  - eapply inner_ext; [|reflexivity|apply Q; cbn [all_inner]; repeat (split; [assumption|]); exact Logic.I]. intros x. cbn [lcf]. rewrite lift_series by lia.
    change (T 0 x) with 1. change (T 1 x) with x.
    replace ((1 + x) / 2) with (/ 2 + / 2 * x) by lra. replace ((1 - x) / 2) with (/ 2 - / 2 * x) by lra.
    rewrite RtoC_add, RtoC_sub, RtoC_mul, RtoC_1. ring.
  - cbn [lcz]. unfold buoyancy. cbv zeta. fold q. unfold rsc, KMM.Ksq.
    assert (E0 : e_psi i 0%nat = if (i =? 0)%nat then 1 else 0).
    { unfold e_psi, dl. pose proof (pos_INR i). destruct i as [|i].
      - cbn [Nat.eqb Nat.add INR]. field.
      - replace (S i + 2)%nat with (S (i + 2)) by lia. replace (S i + 4)%nat with (S (i + 4)) by lia. cbn [Nat.eqb]. rewrite !Rmult_0_r. ring. }
    assert (E1 : e_psi i 1%nat = if (i =? 1)%nat then 1 else 0).
    { unfold e_psi, dl. pose proof (pos_INR i). destruct i as [|[|i]].
      - cbn [Nat.eqb Nat.add INR]. field.
      - cbn [Nat.eqb Nat.add INR]. field.
      - replace (S (S i) + 2)%nat with (S (S (i + 2))) by lia. replace (S (S i) + 4)%nat with (S (S (i + 4))) by lia.
        cbn [Nat.eqb]. rewrite !Rmult_0_r. ring. }
    rewrite E0, E1. destruct i as [|[|i]]; cbn [Nat.eqb]; rewrite ?Rmult_1_r, ?Rmult_0_r, ?RtoC_0, ?RtoC_mul, ?RtoC_opp; ring.
Qed.
(** The wall normal velocity: residual of the fourth order equation with the temperature as a force in the wall normal
    direction; the temperature is that extrapolated to the middle of the step *)
Theorem C85_normal_velocity (o : order) (s : rbst) (j k i : nat) u2 u4 v2 v4 dc1 dc2 :
  kmm_solvers_ok K1 K2 mt sv nu dt (N - 2) (N - 4) -> ~ mean_mode root j k -> (i < N - 4)%nat ->
  let U := U_hat (base s) cn j k in let V := U_hat (base (integrate' o s)) cn j k in
  let F := extrap mask (conv (U_hat (base s)) (g (base s))) (H_hat1 (base s)) in
  nth_derivative 2 (series (N - 4) psi U) u2 -> nth_derivative 4 (series (N - 4) psi U) u4 ->
  nth_derivative 2 (series (N - 4) psi V) v2 -> nth_derivative 4 (series (N - 4) psi V) v4 ->
  nth_derivative 1 (series (N - 2) phiD (F c1 j k)) dc1 -> nth_derivative 1 (series (N - 2) phiD (F c2 j k)) dc2 ->
  let r := residual_u nu dt (ksq j k) (Kx1 j) (Kx2 k) (series (N - 4) psi U) u2 u4 (series (N - 4) psi V) v2 v4
             (fun x => series (N - 2) phiD (F cn j k) x + tser (phi_ab s j k) x)%C dc1 dc2 in
  inner N h r (psi i) C0 /\ (h = cw -> Cwint (fun x => r x * RtoC (psi i x))%C C0).
Proof.
  intros HS Hm Hi U V F A2 A4 B2 B4 D1 D2 r.
  pose proof (rb_velocity_crank_nicolson cn c1 c2 Hn1 Hn2 K1 K2 Kx1 Kx2 root mt sv nu dt kappa mask conv Sk
    ADDT BDDT (h 0%nat) (h 1%nat) N ADDT BDDT uT (N - 2) (N - 4) o s Hnu Hdt HS j k Hm i Hi) as E. cbv beta zeta in E. fold U F in E. fold V in E.
  destruct (buoyancy_inner (phi_ab s) j k i Hi) as (zT & IT & ET). rewrite ET in E. clear ET.
  destruct HG as (_ & _ & (GBD & GCD) & (GB & GA & GS) & _).
  unfold lap, bih, comb3, comb2, rhs_u in E.
  pose proof (GB U (series (N - 4) psi U) i Hi (fun _ => eq_refl)) as I0.
  pose proof (GA U u2 i Hi A2) as I2. pose proof (GS U u4 i Hi A4) as I4.
  pose proof (GB V (series (N - 4) psi V) i Hi (fun _ => eq_refl)) as J0.
  pose proof (GA V v2 i Hi B2) as J2. pose proof (GS V v4 i Hi B4) as J4.
  pose proof (GBD (F cn j k) (series (N - 2) phiD (F cn j k)) i Hi (fun _ => eq_refl)) as M0.
  pose proof (GCD (F c1 j k) dc1 i Hi D1) as M1. pose proof (GCD (F c2 j k) dc2 i Hi D2) as M2.
  clearbody V U F. set (k2 := ksq j k) in *. set (ky := Kx1 j) in *. set (kz := Kx2 k) in *.
  pose proof (inner_comb N h (psi i) _ _
    ((RtoC (/ dt), v2, ABB mt V i) :: (- RtoC (/ dt) * RtoC k2, series (N - 4) psi V, BBB mt V i)
     :: (- RtoC (/ dt), u2, ABB mt U i) :: (RtoC (/ dt) * RtoC k2, series (N - 4) psi U, BBB mt U i)
     :: (RtoC k2, series (N - 2) phiD (F cn j k), BBD mt (F cn j k) i) :: (RtoC k2, tser (phi_ab s j k), zT)
     :: (Ci * RtoC ky, dc1, CBD mt (F c1 j k) i) :: (Ci * RtoC kz, dc2, CBD mt (F c2 j k) i)
     :: (- RtoC (nu / 2), u4, SBB mt U i) :: (RtoC (nu / 2) * RtoC (2 * k2), u2, ABB mt U i)
     :: (- RtoC (nu / 2) * RtoC (k2 * k2), series (N - 4) psi U, BBB mt U i)
     :: (- RtoC (nu / 2), v4, SBB mt V i) :: (RtoC (nu / 2) * RtoC (2 * k2), v2, ABB mt V i)
     :: (- RtoC (nu / 2) * RtoC (k2 * k2), series (N - 4) psi V, BBB mt V i) :: nil)%C I0) as Q.
  assert (I : inner N h r (psi i) C0).
  { eapply inner_ext; [| |apply Q; cbn [all_inner]; repeat (split; [assumption|]); exact Logic.I].
    - intros y. cbn [lcf]. unfold r, residual_u. ring.
    - cbn [lcz]. set (z := (_ + _)%C).
      match type of E with ?L = ?Rr => transitivity (L - Rr)%C; [unfold z|rewrite E; ring] end.
      rewrite ?RtoC_1, !RtoC_opp, !RtoC_mul.
      replace (RtoC (nu / 2)) with (RtoC nu * RtoC (/ 2))%C by (rewrite <- RtoC_mul; reflexivity).
      assert (T2 : (RtoC (/ 2) * RtoC 2 = C1)%C) by (rewrite <- RtoC_mul, <- RtoC_1; f_equal; field).
      ring. }
  split; [exact I|]. intros Eh. rewrite Eh in I. apply (inner_exact N _ _ _ I).
Qed.
End Steps.
Print Assumptions C85_normal_velocity.
Print Assumptions C85_rb_divergence_free.
Print Assumptions C85_rkrb_divergence_free.
Print Assumptions C85_walls.
Print Assumptions C85_walls_rk.
Print Assumptions C85_temperature.
Print Assumptions C85_temperature_rk.

(** ** The hypotheses can be met: five points, walls at temperatures 3 and 1, nu = 1/2, kappa = 4, dt = 1 *)
Definition wall5 (S : col -> col) : col -> col := fun r i => match i with 3%nat => RtoC 3 | 4%nat => RtoC 1 | _ => S r i end.
Definition svT : solvers :=
  mkSolvers (fun A B c d => if Req_EM_T d (/ 2) then wall5 (Helmholtz sv5 A B c d) else Helmholtz sv5 A B c d) (Biharmonic sv5) (TDMA sv5).
Lemma ksq_pos j k : 0 <= INR j * INR j + INR k * INR k.
Proof. pose proof (pos_INR j). pose proof (pos_INR k). nra. Qed.
Lemma T5_solver : T_solver_ok INR INR svT 1 4 (ADD mt5) (BDD mt5) 3.
Proof.
  intros j k. pose proof (ksq_pos j k) as Hp. destruct (helm5 (INR j * INR j + INR k * INR k + 2 / 4 / 1) ltac:(lra)) as (H & _).
  intros r i Hi. specialize (H r i Hi). rewrite <- H. cbn [Helmholtz svT].
  destruct (Req_EM_T _ (/ 2)); [|reflexivity]. unfold comb2.
  set (x := wall5 _ r). set (y := Helmholtz sv5 _ _ _ _ r).
  assert (E : x 0%nat = y 0%nat /\ x 1%nat = y 1%nat /\ x 2%nat = y 2%nat) by (repeat split; reflexivity). destruct E as (X0 & X1 & X2).
  destruct (B5 x) as (P0 & P1 & P2). destruct (B5 y) as (Q0 & Q1 & Q2). destruct (A5 x) as (R0 & R1 & R2). destruct (A5 y) as (S0 & S1 & S2).
  destruct i as [|[|[|i]]]; [rewrite P0, Q0, R0, S0|rewrite P1, Q1, R1, S1|rewrite P2, Q2, R2, S2|lia]; rewrite ?X0, ?X1, ?X2; reflexivity.
Qed.
Lemma T5_walls : sets_walls 5 2 2 3 1 (fun j k => Helmholtz svT (ADD mt5) (BDD mt5) (- 1) (INR j * INR j + INR k * INR k + 2 / 4 / 1)).
Proof.
  intros f j k Hj Hk. cbn [Helmholtz svT]. change (5 - 2)%nat with 3%nat. change (5 - 1)%nat with 4%nat.
  pose proof (pos_INR j) as Pj. pose proof (pos_INR k) as Pk.
  destruct (Req_EM_T _ (/ 2)) as [E|E].
  - assert (Z : INR j * INR j + INR k * INR k = 0) by lra. apply sumsq_0 in Z. destruct Z as (Zj & Zk).
    change 0 with (INR 0) in Zj, Zk. apply INR_eq in Zj, Zk. subst j k. split; reflexivity.
  - destruct ((j =? 0)%nat && (k =? 0)%nat) eqn:X.
    + apply andb_prop in X. destruct X as (Xj & Xk). apply Nat.eqb_eq in Xj, Xk. subst j k. exfalso. apply E. simpl. lra.
    + split; reflexivity.
Qed.
Example C85_example (s : rbst) (uT : vfld -> fld -> vfld) : walls 5 2 2 3 1 (KMMRB.phi s) -> phi0 s = KMMRB.phi s ->
  let s' := integrate_rb x0 x1 x2 INR INR INR INR true mt5 svT (/ 2) 1 4 None (fun U _ c j k i => Ci * U c j k i)%C (fun _ _ _ _ => C0)
     (ADD mt5) (BDD mt5) (cw 0) (cw 1) 5 (ADD mt5) (BDD mt5) uT OutFirst s in
  let temp := tfield x0 x1 x2 2 2 (fun _ _ => 1) INR INR 5 (KMMRB.phi s') in
  divergence_free (kvel x0 x1 x2 5 2 2 (fun _ _ => 1) INR INR (U_hat (base s'))) /\
  wall_temperatures x0 temp 3 1 /\
  is_grad temp (dTdxi 5 INR INR (field x0 x1 x2 2 2 (fun _ _ => 1) INR INR 5 T) (field x0 x1 x2 2 2 (fun _ _ => 1) INR INR 3 phiD)
     (gmat 5 cw 1 3 e_phi 5 dl) (fun r i => RtoC (/ cw i) * r i)%C (cw 0) (KMMRB.phi s')) /\
  (forall i u2 v2 df0, (i < 3)%nat -> nth_derivative 2 (series 5 (lift_basis 5) (KMMRB.phi s 0%nat 0%nat)) u2 ->
    nth_derivative 2 (series 5 (lift_basis 5) (KMMRB.phi s' 0%nat 0%nat)) v2 ->
    is_derivative (series 1 psi (uT (UCN (base s)) (phi_ab s) x0 0%nat 0%nat)) df0 ->
    exists r, Cwint (fun x => r x * RtoC (phiD i x))%C C0 /\
      forall x, r x = residual_d 4 1 0 (series 5 (lift_basis 5) (KMMRB.phi s 0%nat 0%nat)) u2
        (series 5 (lift_basis 5) (KMMRB.phi s' 0%nat 0%nat)) v2 (fun x => - df0 x)%C x).
Proof.
  intros HW E0 s' temp.
  assert (Hz : zero_mode_on_root 2 2 true INR INR).
  { intros j k Hj Hk. split.
    - intros (E1 & E2). change 0 with (INR 0) in E1, E2. apply INR_eq in E1, E2. auto.
    - intros (_ & -> & ->). simpl. auto. }
  assert (HS' : walls 5 2 2 3 1 (KMMRB.phi s')) by (apply (T5_walls (fun j k => snd (fst (ComputeRHS_rb x0 x1 x2 INR INR INR INR mt5
    (/ 2) 1 4 None (fun U _ c j k i => Ci * U c j k i)%C (cw 0) (cw 1) 5 (ADD mt5) (BDD mt5) uT s)) j k))).
  split; [|split; [|split]].
  - apply (C85_rb_divergence_free x0 x1 x2 ltac:(congruence) ltac:(congruence) ltac:(congruence) INR INR INR INR true mt5 svT (/ 2) 1 4 None
      _ _ cw 5 uT 2 2 _ ltac:(lia) mt5_galerkin tdma5 Hz ltac:(apply gmat_linear) ltac:(apply gmat_linear)).
  - apply C85_wall_temperatures; [lia|split; reflexivity|reflexivity|lia|exact HS'].
  - apply (C85_gradient INR INR 5 2 2 (fun _ _ => 1) cw 3 1); [lia|split; reflexivity| |reflexivity| |exact HS'].
    + apply gmat_rows; [apply (phi_coef 5)|apply T_coef].
    + intros i _. pose proof PI_RGT_0. unfold cw. destruct i; lra.
  - intros i u2 v2 df0 Hi A B D.
    destruct (C85_temperature x0 x1 x2 INR INR INR INR true mt5 svT (/ 2) 1 4 None
      (fun U _ c j k i => Ci * U c j k i)%C (fun _ _ _ _ => C0) cw 5 uT 2 2 3 1 ltac:(lia) mt5_galerkin ltac:(lra) ltac:(lra)
      s 0%nat 0%nat i u2 v2 df0 ltac:(split; reflexivity) ltac:(lia) ltac:(lia) Hi T5_solver T5_walls HW E0 A B D) as (_ & P).
    eexists. split; [apply (P eq_refl)|]. intros x. unfold residual_d, maskC. cbn [INR].
    replace (0 * 0 + 0 * 0) with 0 by ring. rewrite !RtoC_0. unfold s'. ring.
Qed.
