(** Theorems on the coupled velocity-pressure channel solvers: C72, C73. *)
From Coq Require Import Reals List Bool Arith Lia Lra FunctionalExtensionality.
From Verif Require Import Base.Cplx Base.Sums Base.Fin Model.Maths Model.LU Model.KMM Model.Coupled
  Spec.Chebyshev Spec.Channel Spec.ChannelField Spec.Coupled
  Proofs.ChebyshevProofs Proofs.LUProofs Proofs.KMMProofs Proofs.ChannelConvProofs Proofs.CoupledProofs.
Open Scope R_scope.

(** One row of the block system, solved for the change of the velocity *)
Lemma row_C nu0 nu dt k2 a (A A' E E' G f : C) : nu0 <> 0 -> nu <> 0 -> dt <> 0 -> a <> 0 ->
  ((RtoC (2 / nu0 / dt / a + k2) * E' - A') + RtoC (2 / nu0 / a) * G
   = RtoC 1 * A + RtoC (2 / nu0 / dt / a - k2) * E + RtoC (2 / nu / a) * f)%C ->
  (RtoC (/ dt) * (E' - E) = RtoC (nu0 / nu) * f
    + RtoC a * (RtoC (/ 2) * (RtoC nu0 * A + RtoC (- (nu0 * k2)) * E + (RtoC nu0 * A' + RtoC (- (nu0 * k2)) * E'))) - G)%C.
Proof.
  intros H1 H2 H3 H4 H. csplit H.
  ceq; [by_mult Hr (nu0 * a / 2) | by_mult Hi (nu0 * a / 2)]; field; auto.
Qed.

Lemma theta_pos rk : (rk < 3)%nat -> 0 < crk_a rk + crk_b rk.
Proof.
  intros H. destruct rk as [|[|[|rk]]]; [| | |lia]; unfold crk_a, crk_b; cbn [nth]; lra.
Qed.

Section Coupled.
Context (N n1 n2 : nat) (wt : nat -> nat -> R) (K1 K2 : nat -> R) (root : bool) (bl : blocks) (h : nat -> R).
Context (nu0 dt0 nu : R) (mask : option (nat -> nat -> R)) (conv : vfld -> vfld) (Sk : vfld).
Context (Msolve : R -> R -> vq -> vq).
Hypothesis HN : (2 <= N)%nat.
Hypothesis Hnu : 0 < nu0.
Hypothesis Hdt : 0 < dt0.
Hypothesis Hnu' : 0 < nu.
(** the matrices of the continuity equation *)
Hypothesis Hrows : pressure_rows N h (qdu bl) (qu bl).
Hypothesis Hroot : zero_mode_on_root n1 n2 root K1 K2.
(** BlockMatrix.solve, for the right hand sides without pressure part *)
Definition solves_blocks (alfa gam : R) : Prop := forall ru : vfld,
  block_solution N n1 n2 K1 K2 (Msolve alfa gam (ru, fun _ _ => czero))
    (Mact K1 K2 bl alfa gam (Msolve alfa gam (ru, fun _ _ => czero))) (ru, fun _ _ => czero).

Notation c_int := (c_integrate K1 K2 root bl nu0 dt0 nu mask conv Sk Msolve).
Notation cstep := (c_step K1 K2 root bl nu0 dt0 nu mask conv Sk Msolve).
Notation stage := (rk_stage K1 K2 bl nu0 dt0 nu mask conv Sk Msolve).
Notation r_int := (r_integrate K1 K2 bl nu0 dt0 nu mask conv Sk Msolve).
Notation vel u := (dvel N n1 n2 wt K1 K2 u).
Notation L j k := (visc nu0 (K1 j * K1 j + K2 k * K2 k) (vddu bl) (vu bl)).
Notation gp p j k := (grad_p (vdp bl) (vp bl) (K1 j) (K2 k) (p j%nat k%nat)).

(** ** C72: the velocity has no divergence, at any point, after every step and every stage *)
Lemma c_integrate_rhs s : exists ru,
  cUP (c_int s) = zero_mean_normal root (Msolve (alfa0 nu0 dt0) (2 / nu0) (ru, fun _ _ => czero)).
Proof. eexists. unfold c_integrate, cComputeRHS. cbn [fst snd cUP]. reflexivity. Qed.
Lemma stage_rhs s rk : exists ru,
  rUP (stage s rk) = Msolve (rk_alfa nu0 dt0 rk) (rk_gam nu0 rk) (ru, fun _ _ => czero).
Proof. eexists. unfold rk_stage, rComputeRHS. cbn [fst snd rUP]. reflexivity. Qed.

Lemma gam0 : 2 / nu0 <> 0.
Proof. apply Rgt_not_eq. apply Rdiv_lt_0_compat; lra. Qed.

(** u_hat[0, :, 0, 0] = 0 after the solve changes nothing: it is zero already. *)
Lemma zero_mean_normal_noop alfa gam ru : gam <> 0 -> solves_blocks alfa gam ->
  let x := Msolve alfa gam (ru, fun _ _ => czero) in
  forall c j k i, (j < n1)%nat -> (k < n2)%nat ->
    fst (zero_mean_normal root x) c j k i = fst x c j k i.
Proof.
  intros Hg HS x c j k i Hj Hk. unfold zero_mean_normal. cbn [fst].
  destruct (F3.(eqd) c x0) eqn:Ec.
  - destruct c; try discriminate. rewrite upd_same. 
    destruct (root && (j =? 0)%nat && (k =? 0)%nat) eqn:E; [|reflexivity].
    apply andb_prop in E. destruct E as (E & Ek). apply andb_prop in E. destruct E as (Er & Ej).
    apply Nat.eqb_eq in Ej, Ek. subst j k.
    destruct (proj2 (Hroot 0%nat 0%nat Hj Hk) (conj Er (conj eq_refl eq_refl))) as (E1 & E2).
    symmetry. unfold czero.
    apply (proj2 (solution_div N n1 n2 K1 K2 bl h alfa gam HN Hg Hrows x _ (HS ru) (fun _ _ _ => eq_refl)
      0%nat 0%nat 0%nat Hj Hk ltac:(lia)) E1 E2).
  - rewrite upd_other; [reflexivity|]. intros ->. discriminate.
Qed.

Theorem C72_coupled_divergence_free s : solves_blocks (alfa0 nu0 dt0) (2 / nu0) ->
  let u := fst (cUP (c_int s)) in
  divergence_free (vel u) /\ no_slip (vel u) /\
  exists ru, forall c j k i, (j < n1)%nat -> (k < n2)%nat ->
    u c j k i = fst (Msolve (alfa0 nu0 dt0) (2 / nu0) (ru, fun _ _ => czero)) c j k i.
Proof.
  intros HS u. destruct (c_integrate_rhs s) as (ru & E).
  assert (Z : forall c j k i, (j < n1)%nat -> (k < n2)%nat ->
    u c j k i = fst (Msolve (alfa0 nu0 dt0) (2 / nu0) (ru, fun _ _ => czero)) c j k i).
  { unfold u. rewrite E. apply zero_mean_normal_noop; [apply gam0 | exact HS]. }
  repeat split.
  - apply dvel_divergence_free; [exact HN|]. intros j k i Hj Hk Hi.
    assert (Zc : forall c, u c j k = fst (Msolve (alfa0 nu0 dt0) (2 / nu0) (ru, fun _ _ => czero)) c j k)
      by (intros c; extensionality q; apply Z; assumption).
    rewrite !Zc.
    apply (solution_div N n1 n2 K1 K2 bl h _ _ HN gam0 Hrows _ _ (HS ru) (fun _ _ _ => eq_refl) j k i Hj Hk Hi).
  - apply dvel_no_slip.
  - exists ru. exact Z.
Qed.

Lemma rk_gam0 rk : (rk < 3)%nat -> rk_gam nu0 rk <> 0.
Proof.
  intros H. unfold rk_gam. pose proof (theta_pos rk H). apply Rgt_not_eq.
  apply Rdiv_lt_0_compat; [apply Rdiv_lt_0_compat; lra | lra].
Qed.

Theorem C72_rk3_divergence_free s : (forall rk, (rk < 3)%nat -> solves_blocks (rk_alfa nu0 dt0 rk) (rk_gam nu0 rk)) ->
  (forall rk, (rk < 3)%nat ->
     divergence_free (vel (fst (rUP (stage s rk)))) /\ no_slip (vel (fst (rUP (stage s rk))))) /\
  divergence_free (vel (fst (rUP (r_int s)))) /\ no_slip (vel (fst (rUP (r_int s)))).
Proof.
  intros HS.
  assert (D : forall s rk, (rk < 3)%nat ->
     divergence_free (vel (fst (rUP (stage s rk)))) /\ no_slip (vel (fst (rUP (stage s rk))))).
  { intros s' rk Hrk. split; [|apply dvel_no_slip]. destruct (stage_rhs s' rk) as (ru & ->).
    apply dvel_divergence_free; [exact HN|]. intros j k i Hj Hk Hi.
    apply (solution_div N n1 n2 K1 K2 bl h _ _ HN (rk_gam0 rk Hrk) Hrows _ _ (HS rk Hrk ru)
      (fun _ _ _ => eq_refl) j k i Hj Hk Hi). }
  split; [intros rk Hrk; apply D, Hrk|]. unfold r_integrate. cbn [fold_left]. apply D. lia.
Qed.

(** ** C73: the momentum equation *)
(** the convection and the source of the step, tested *)
Definition force (H : vfld) (c : ax3) (j k : nat) : col := fun i =>
  (vu bl (H c j k) i - (match c with x1 => Sk x1 j k i | _ => C0 end))%C.


(** Coupled: Crank-Nicolson for the viscous term, with the pressure of the new time and the
    convection 3/2 H^n - 1/2 H^{n-1}.  The viscosity and the step are those read by get_context; the
    forces are multiplied by nu0/nu, where nu is params.nu at the time of the step. *)
Theorem C73_coupled_momentum s c j k : solves_blocks (alfa0 nu0 dt0) (2 / nu0) ->
  (j < n1)%nat -> (k < n2)%nat ->
  let H := mask_vfld mask (assembleAB (conv (fst (cUP s))) (cH1 s)) in
  let s' := c_int s in
  crank_nicolson (N - 2) (vu bl) (L j k) dt0
    (fun i => RtoC (nu0 / nu) * force H c j k i - gp (snd (cUP s')) j k c i)%C
    (fst (cUP s) c j k) (fst (cUP s') c j k).
Proof.
  intros HS Hj Hk H s' i Hi.
  set (ru := fst (fst (cComputeRHS K1 K2 bl nu0 dt0 nu mask conv Sk s))).
  assert (E : cUP s' = zero_mean_normal root (Msolve (alfa0 nu0 dt0) (2 / nu0) (ru, fun _ _ => czero))) by reflexivity.
  assert (Eu : fst (cUP s') c j k = fst (Msolve (alfa0 nu0 dt0) (2 / nu0) (ru, fun _ _ => czero)) c j k).
  { extensionality q. rewrite E. apply zero_mean_normal_noop; [apply gam0 | exact HS | exact Hj | exact Hk]. }
  assert (Ep : snd (cUP s') = snd (Msolve (alfa0 nu0 dt0) (2 / nu0) (ru, fun _ _ => czero))) by (rewrite E; reflexivity).
  rewrite Eu, Ep. destruct (HS ru j k Hj Hk) as (Hv & _). pose proof (Hv c i Hi) as Hr. clear Hv E Eu Ep.
  set (x := Msolve _ _ _) in *. clearbody x.
  assert (Er : ru c j k i = (RtoC 1 * vddu bl (fst (cUP s) c j k) i
             + RtoC (alfa0 nu0 dt0 - Ksq K1 K2 j k) * vu bl (fst (cUP s) c j k) i
             + RtoC (2 / nu) * force H c j k i)%C).
  { unfold ru, cComputeRHS, force. fold H. cbn [fst]. destruct c.
    - rewrite upd_other by congruence. unfold cAB, HelmholtzCoeff, cadd, rsc. ring.
    - rewrite upd_same. unfold cAB, HelmholtzCoeff, cadd, csub, rsc. ring.
    - rewrite upd_other by congruence. unfold cAB, HelmholtzCoeff, cadd, rsc. ring. }
  cbn [fst] in Hr. rewrite Er in Hr. unfold alfa0 in Hr.
  refine (eq_trans _ (eq_trans (row_C nu0 nu dt0 (Ksq K1 K2 j k) 1 (vddu bl (fst (cUP s) c j k) i) (vddu bl (fst x c j k) i) _ _ (gp (snd x) j k c i)
            (force H c j k i) ltac:(lra) ltac:(lra) ltac:(lra) ltac:(lra) _) _)).
  - reflexivity.
  - unfold Rdiv in *. rewrite !Rinv_1, !Rmult_1_r in *. rewrite <- Hr.
    unfold Mact, grad_p, cadd, csub, rsc, csc. cbn [fst]. destruct c; unfold Rdiv; ring.
  - unfold visc, comb2, Ksq. rewrite RtoC_1. ring.
Qed.

(** Over two passes of the loop the convection is that of the velocities one and two steps back. *)
Theorem C73_coupled_two_steps s c j k : nu = nu0 -> solves_blocks (alfa0 nu0 dt0) (2 / nu0) ->
  (j < n1)%nat -> (k < n2)%nat ->
  let s1 := cstep s in let s2 := cstep s1 in
  let H := mask_vfld mask (fun c j k i =>
      (RtoC (3/2) * conv (fst (cUP s1)) c j k i - RtoC (1/2) * conv (fst (cUP s)) c j k i)%C) in
  crank_nicolson (N - 2) (vu bl) (L j k) dt0
    (fun i => force H c j k i - gp (snd (cUP s2)) j k c i)%C
    (fst (cUP s1) c j k) (fst (cUP s2) c j k) /\
  cUP0 s2 = cUP s2.
Proof.
  intros En HS Hj Hk s1 s2 H. split; [|reflexivity].
  pose proof (C73_coupled_momentum s1 c j k HS Hj Hk) as P. intros i Hi. specialize (P i Hi).
  change (cUP (c_int s1)) with (cUP s2) in P.
  replace (nu0 / nu) with 1 in P by (rewrite En; field; lra). rewrite RtoC_1 in P.
  refine (eq_trans P _). unfold H, force, assembleAB, csub, rsc. cbn [cH1 c_step c_end_of_tstep s1].
  match goal with |- (_ * ?f - _ + _ = ?f' - _ + _)%C => change f' with f end. ring.
Qed.

(** *** CoupledRK3 *)
Notation theta rk := (crk_a rk + crk_b rk).
Notation hforce s := (force (mask_vfld mask (conv (fst (rUP s))))).

Lemma stage_hv s rk c j k i : hv0 (stage s rk) c j k i = hforce s c j k i.
Proof.
  unfold rk_stage, rComputeRHS, force. cbn [hv0]. destruct c.
  - rewrite upd_other by congruence. ring.
  - rewrite upd_same. reflexivity.
  - rewrite upd_other by congruence. ring.
Qed.

Lemma stage_row s rk c j k i : (rk < 3)%nat -> solves_blocks (rk_alfa nu0 dt0 rk) (rk_gam nu0 rk) ->
  (j < n1)%nat -> (k < n2)%nat -> (i < N - 2)%nat ->
  let s' := stage s rk in
  (RtoC (/ dt0) * (vu bl (fst (rUP s') c j k) i - vu bl (fst (rUP s) c j k) i)
   = RtoC (nu0 / nu) * (RtoC (crk_a rk) * hforce s c j k i + RtoC (crk_b rk) * hv0 s c j k i)
     + RtoC (theta rk) * (RtoC (/ 2) * (L j k (fst (rUP s) c j k) i + L j k (fst (rUP s') c j k) i))
     - gp (snd (rUP s')) j k c i)%C.
Proof.
  intros Hrk HS Hj Hk Hi s'. pose proof (theta_pos rk Hrk) as Ht.
  set (ru := fst (fst (rComputeRHS K1 K2 bl nu0 dt0 nu mask conv Sk rk s))).
  assert (E : rUP s' = Msolve (rk_alfa nu0 dt0 rk) (rk_gam nu0 rk) (ru, fun _ _ => czero)) by reflexivity.
  rewrite E. destruct (HS ru j k Hj Hk) as (Hv & _). pose proof (Hv c i Hi) as Hr. clear Hv.
  set (x := Msolve _ _ _) in *. clearbody x. clear E.
  assert (Er : ru c j k i = (RtoC 1 * vddu bl (fst (rUP s) c j k) i
             + RtoC (rk_alfa nu0 dt0 rk - Ksq K1 K2 j k) * vu bl (fst (rUP s) c j k) i
             + RtoC (2 / nu / theta rk) * (RtoC (crk_a rk) * hforce s c j k i + RtoC (crk_b rk) * hv0 s c j k i))%C).
  { unfold ru. rewrite <- (stage_hv s rk). unfold rk_stage, rComputeRHS. cbn [fst snd hv0].
    unfold HelmholtzCoeff, cadd at 1 2 3, rsc at 1 2 3 4 5.
    replace (- (Ksq K1 K2 j k - rk_alfa nu0 dt0 rk)) with (rk_alfa nu0 dt0 rk - Ksq K1 K2 j k) by ring.
    reflexivity. }
  cbn [fst] in Hr. rewrite Er in Hr. unfold rk_alfa, rk_gam in Hr.
  refine (eq_trans _ (eq_trans (row_C nu0 nu dt0 (Ksq K1 K2 j k) (theta rk) (vddu bl (fst (rUP s) c j k) i) (vddu bl (fst x c j k) i) _ _ (gp (snd x) j k c i)
            _ ltac:(lra) ltac:(lra) ltac:(lra) ltac:(lra) _) _)).
  - reflexivity.
  - rewrite <- Hr.
    unfold Mact, grad_p, cadd, csub, rsc, csc. cbn [fst]. destruct c; unfold Rdiv; ring.
  - unfold visc, comb2, Ksq. ring.
Qed.

(** The state after m of the three stages *)
Definition st (s : crst) (m : nat) : crst :=
  match m with
  | O => s
  | 1%nat => stage s 0
  | 2%nat => stage (stage s 0) 1
  | _ => stage (stage (stage s 0) 1) 2
  end.

(** The velocities after the stages are those of the third order additive Runge-Kutta method of the
    KMMRK3 solver; every stage adds the impulse dt * grad(P_hat). *)
Theorem C73_rk3_momentum s c j k : nu = nu0 ->
  (forall rk, (rk < 3)%nat -> solves_blocks (rk_alfa nu0 dt0 rk) (rk_gam nu0 rk)) ->
  (j < n1)%nat -> (k < n2)%nat ->
  r_int s = st s 3 /\
  forall m, (m <= 3)%nat ->
    ark_stage_impulse (N - 2) (vu bl) (L j k) dt0 rk3_ae rk3_ai 3
      (fun m => hforce (st s m) c j k) (fun m => fst (rUP (st s m)) c j k)
      (fun m => gp (snd (rUP (st s m))) j k c) m.
Proof.
  intros En HS Hj Hk. split; [reflexivity|]. intros m Hm i Hi.
  pose proof (stage_row (st s 0) 0 c j k i ltac:(lia) (HS 0%nat ltac:(lia)) Hj Hk Hi) as R1.
  pose proof (stage_row (st s 1) 1 c j k i ltac:(lia) (HS 1%nat ltac:(lia)) Hj Hk Hi) as R2.
  pose proof (stage_row (st s 2) 2 c j k i ltac:(lia) (HS 2%nat ltac:(lia)) Hj Hk Hi) as R3.
  cbv zeta in R1, R2, R3.
  change (stage (st s 0) 0) with (st s 1) in R1.
  change (stage (st s 1) 1) with (st s 2) in R2.
  change (stage (st s 2) 2) with (st s 3) in R3.
  rewrite (stage_hv (st s 0) 0 c j k i : hv0 (st s 1) c j k i = _) in R2.
  rewrite (stage_hv (st s 1) 1 c j k i : hv0 (st s 2) c j k i = _) in R3.
  replace (nu0 / nu) with 1 in R1, R2, R3 by (rewrite En; field; lra).
  unfold crk_a, crk_b in R1, R2, R3. cbn [nth] in R1, R2, R3.
  cbv beta.
  generalize dependent (hv0 (st s 0) c j k i). intros z0.
  assert (Sel : (m = 0 \/ m = 1 \/ m = 2 \/ m = 3)%nat) by lia.
  cbn [Csum].
  set (e0 := vu bl (fst (rUP (st s 0)) c j k) i) in *. set (e1 := vu bl (fst (rUP (st s 1)) c j k) i) in *.
  set (e2 := vu bl (fst (rUP (st s 2)) c j k) i) in *. set (e3 := vu bl (fst (rUP (st s 3)) c j k) i) in *.
  set (l0 := L j k (fst (rUP (st s 0)) c j k) i) in *. set (l1 := L j k (fst (rUP (st s 1)) c j k) i) in *.
  set (l2 := L j k (fst (rUP (st s 2)) c j k) i) in *. set (l3 := L j k (fst (rUP (st s 3)) c j k) i) in *.
  set (f0 := hforce (st s 0) c j k i) in *. set (f1 := hforce (st s 1) c j k i) in *.
  set (f2 := hforce (st s 2) c j k i) in *. set (f3 := hforce (st s 3) c j k i) in *.
  intros Q1.
  assert (S : forall a b r, (RtoC (/ dt0) * (a - b) = r -> a = b + RtoC dt0 * r)%C).
  { intros a b r <-. ceq; field; lra. }
  apply S in Q1. apply S in R2. apply S in R3.
  destruct Sel as [-> | [-> | [-> | ->]]]; cbn [Csum nth rk3_ae rk3_ai];
    [ fold e0 | fold e1; rewrite Q1 | fold e2; rewrite R2, Q1 | fold e3; rewrite R3, R2, Q1];
    unfold rk3_ae, rk3_ai; cbn [nth]; generalize e0, l0, l1, l2, l3, f0, f1, f2, f3; intros; ceq; try field.
Qed.

(** *** The pressure *)
(** Coupled: in a steady state the stored pressure balances the forces and the viscous term. *)
Theorem C73_coupled_pressure s c j k : nu = nu0 -> solves_blocks (alfa0 nu0 dt0) (2 / nu0) ->
  (j < n1)%nat -> (k < n2)%nat ->
  let u := fst (cUP s) in let s' := c_int s in
  fst (cUP s') c j k = u c j k -> cH1 s = conv u ->
  agree (N - 2) (gp (snd (cUP s')) j k c)
    (fun i => force (mask_vfld mask (conv u)) c j k i + L j k (u c j k) i)%C.
Proof.
  intros En HS Hj Hk u s' Eu EH i Hi.
  pose proof (C73_coupled_momentum s c j k HS Hj Hk i Hi) as P. fold s' in P. rewrite Eu in P.
  replace (nu0 / nu) with 1 in P by (rewrite En; field; lra).
  assert (EA : assembleAB (conv (fst (cUP s))) (cH1 s) = conv u).
  { rewrite EH. fold u. extensionality d; extensionality j'; extensionality k'; extensionality q.
    unfold assembleAB, csub, rsc. ceq; field. }
  rewrite EA in P. fold u in P.
  set (f := force _ c j k i) in *. set (l := L j k (u c j k) i) in *. set (g := gp _ j k c i) in *.
  transitivity (RtoC 1 * f - g + RtoC (/ 2) * (l + l) - (RtoC (/ dt0) * (vu bl (u c j k) i - vu bl (u c j k) i)) + g)%C.
  - rewrite <- P. ring.
  - ceq; field; lra.
Qed.

(** CoupledRK3 stores (a+b) times the pressure of the stage: over the substep (a+b)*dt the
    momentum equation holds with the pressure P_hat/(a+b) ... *)
Theorem C73_rk3_pressure s rk c j k : nu = nu0 -> (rk < 3)%nat ->
  solves_blocks (rk_alfa nu0 dt0 rk) (rk_gam nu0 rk) ->
  (j < n1)%nat -> (k < n2)%nat ->
  let s' := stage s rk in
  crank_nicolson (N - 2) (vu bl) (L j k) (theta rk * dt0)
    (fun i => RtoC (/ theta rk) * (RtoC (crk_a rk) * hforce s c j k i + RtoC (crk_b rk) * hv0 s c j k i)
              - RtoC (/ theta rk) * gp (snd (rUP s')) j k c i)%C
    (fst (rUP s) c j k) (fst (rUP s') c j k).
Proof.
  intros En Hrk HS Hj Hk s' i Hi. pose proof (theta_pos rk Hrk) as Ht.
  pose proof (stage_row s rk c j k i Hrk HS Hj Hk Hi) as P. fold s' in P. cbv zeta in P.
  replace (nu0 / nu) with 1 in P by (rewrite En; field; lra).
  set (e := vu bl (fst (rUP s) c j k) i) in *. set (e' := vu bl (fst (rUP s') c j k) i) in *.
  transitivity (RtoC (/ theta rk) * (RtoC (/ dt0) * (e' - e)))%C.
  - ceq; field; lra.
  - rewrite P.
    generalize (gp (snd (rUP s')) j k c i), (L j k (fst (rUP s) c j k) i), (L j k (fst (rUP s') c j k) i),
      (hforce s c j k i), (hv0 s c j k i).
    intros. ceq; field; lra.
Qed.

(** ... so that after a step from a steady state the stored pressure is a third of the pressure
    (the last stage has a + b = 1/3), unlike that of Coupled. *)
Theorem C73_rk3_pressure_refuted s c j k : nu = nu0 ->
  (forall rk, (rk < 3)%nat -> solves_blocks (rk_alfa nu0 dt0 rk) (rk_gam nu0 rk)) ->
  (j < n1)%nat -> (k < n2)%nat ->
  let u := fst (rUP s) in
  (forall m, (m <= 3)%nat -> fst (rUP (st s m)) = u) ->
  agree (N - 2) (gp (snd (rUP (r_int s))) j k c)
    (fun i => RtoC (/ 3) * (force (mask_vfld mask (conv u)) c j k i + L j k (u c j k) i))%C.
Proof.
  intros En HS Hj Hk u Eu i Hi. change (r_int s) with (st s 3).
  pose proof (stage_row (st s 2) 2 c j k i ltac:(lia) (HS 2%nat ltac:(lia)) Hj Hk Hi) as R3. cbv zeta in R3.
  change (stage (st s 2) 2) with (st s 3) in R3.
  rewrite (stage_hv (st s 1) 1 c j k i : hv0 (st s 2) c j k i = _) in R3.
  rewrite (Eu 3%nat), (Eu 2%nat), (Eu 1%nat) in R3 by lia.
  replace (nu0 / nu) with 1 in R3 by (rewrite En; field; lra).
  unfold crk_a, crk_b in R3. cbn [nth] in R3.
  set (f := force _ c j k i) in *. set (l := L j k (u c j k) i) in *. set (g := gp _ j k c i) in *.
  set (e := vu bl (u c j k) i) in *.
  match type of R3 with _ = ?r => transitivity (r - RtoC (/ dt0) * (e - e) + g)%C end.
  - rewrite <- R3. ring.
  - ceq; field; lra.
Qed.
End Coupled.

Print Assumptions C72_coupled_divergence_free.
Print Assumptions C72_rk3_divergence_free.
Print Assumptions C73_coupled_momentum.
Print Assumptions C73_coupled_two_steps.
Print Assumptions C73_rk3_momentum.
Print Assumptions C73_coupled_pressure.
Print Assumptions C73_rk3_pressure.
Print Assumptions C73_rk3_pressure_refuted.
