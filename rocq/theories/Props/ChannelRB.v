(** Theorems on the Rayleigh-Benard channel solvers: C53 (history), C59 (argument order of the
    temperature solve), C60 (time stepping of the temperature). *)
From Coq Require Import Reals List Bool Arith Lia Lra FunctionalExtensionality.
From Verif Require Import Base.Cplx Base.Sums Base.Fin Model.KMM Model.KMMRB Spec.Channel Spec.Lift
  Proofs.KMMProofs Props.Channel.
Open Scope R_scope.

(** ** C59 *)
(** Whichever argument order the Helmholtz solver has, one of the two arrays g_hat and
    phi_hat comes out of solve_linear exactly as it went in. *)
Theorem rb_one_field_is_frozen (o : order) SG ST (rhs1 rhs2 gh ph : col) :
  let '(gh', ph') := two_calls o SG ST rhs1 rhs2 gh ph in
  (o = RhsFirst /\ gh' = SG rhs1 /\ ph' = ph) \/ (o = OutFirst /\ gh' = gh /\ ph' = ST rhs2).
Proof. destruct o; simpl; auto. Qed.

Definition solves_rows (n : nat) (M S : column -> column) : Prop := forall b, agree n (M (S b)) b.
Lemma helm_cn_rows n A B S nu k2 tau (h x : column) :
  nu <> 0 -> tau <> 0 ->
  solves_rows n (comb2 (- 1) A (k2 + 2 / nu / tau) B) S ->
  crank_nicolson n B (visc nu k2 A B) tau h x
    (S (cadd (rsc (2 / nu) h) (HelmholtzCoeff A B 1 (- (k2 - 2 / nu / tau)) x))).
Proof.
  intros Hn Ht HS i Hi.
  pose proof (HS (cadd (rsc (2 / nu) h) (HelmholtzCoeff A B 1 (- (k2 - 2 / nu / tau)) x)) i Hi) as E.
  revert E. generalize (S (cadd (rsc (2 / nu) h) (HelmholtzCoeff A B 1 (- (k2 - 2 / nu / tau)) x))).
  intros x' E.
  unfold comb2, cadd, rsc, HelmholtzCoeff in E. unfold cadd, rsc in E. csplit E.
  unfold visc, comb2. ceq; apply helm_real; assumption.
Qed.

Section RB.
Context (cn c1 c2 : ax3).
Hypothesis Hn1 : cn <> c1.
Hypothesis Hn2 : cn <> c2.
Hypothesis H12 : c1 <> c2.
Context (K1 K2 Kx1 Kx2 : nat -> R) (root : bool) (mt : mats) (sv : solvers) (nu dt kappa : R).
Context (mask : option (nat -> nat -> R)) (conv : vfld -> fld -> vfld) (Sk : vfld).
Context (ADDT BDDT : col -> col) (btt0 btt1 : R) (Nx : nat) (AS BS : col -> col).
Context (uT : vfld -> fld -> vfld).
Context (nd nb : nat).

Notation integrate_rb' o := (integrate_rb cn c1 c2 K1 K2 Kx1 Kx2 root mt sv nu dt kappa mask conv Sk
   ADDT BDDT btt0 btt1 Nx AS BS uT o).
Notation step_rb' o := (step_rb cn c1 c2 K1 K2 Kx1 Kx2 root mt sv nu dt kappa mask conv Sk
   ADDT BDDT btt0 btt1 Nx AS BS uT o).
Notation run o n s := (Nat.iter n (step_rb' o) s).
Notation ksq j k := (K1 j * K1 j + K2 k * K2 k).

Lemma base_int o s : base (integrate_rb' o s)
  = solve_linear cn c1 c2 K1 K2 root mt sv nu dt Sk
      (fst (fst (ComputeRHS_rb cn c1 c2 K1 K2 Kx1 Kx2 mt nu dt kappa mask conv btt0 btt1 Nx AS BS uT s)))
      (base (snd (ComputeRHS_rb cn c1 c2 K1 K2 Kx1 Kx2 mt nu dt kappa mask conv btt0 btt1 Nx AS BS uT s))).
Proof. reflexivity. Qed.

(** With the argument order of all the other calls the temperature never changes, over any
    number of steps, whatever the flow, the diffusivity and the initial state. *)
Theorem rb_temperature_frozen (s : rbst) (n : nat) :
  phi (run RhsFirst n s) = phi s.
Proof.
  induction n as [|n IH]; [reflexivity|].
  change (run RhsFirst (S n) s) with (step_rb' RhsFirst (run RhsFirst n s)).
  rewrite <- IH. reflexivity.
Qed.

(** ** C53 for KMM_RB *)
(** From the second step on: phi_hat0 is the temperature of the current level, phi_hat1 that of
    the level before, U_hat0 the current velocity, H_hat1 the convection of the level before,
    N_hat0 the temperature convection computed in the last step. *)
Theorem rb_history (o : order) (s0 : rbst) (n : nat) :
  let s := run o (S n) s0 in
  let p := run o n s0 in
  phi0 s = phi s /\
  phi1 s = phi0 p /\ (n <> O -> phi1 s = phi p) /\
  U_hat0 (base s) = U_hat (base s) /\
  H_hat1 (base s) = conv (U_hat (base p)) (g (base p)) /\
  Nt0 s = Nt s.
Proof.
  intros s p.
  assert (E : s = step_rb' o p) by reflexivity.
  repeat split; try (rewrite E; reflexivity).
  intros Hn. destruct n as [|n]; [contradiction|]. rewrite E. reflexivity.
Qed.

(** Consequence: from the third level on, the extrapolation used for the buoyancy and the
    convection of the temperature is the second order one, and the velocity that convects
    the temperature is the one at the current level (not the average over the step that
    KMM_RB.py:106 writes). *)
Theorem rb_extrapolation (o : order) (s0 : rbst) (n : nat) :
  let s := run o (S (S n)) s0 in
  let p := run o (S n) s0 in
  (forall j k i, phi_ab s j k i = (RtoC (3/2) * phi s j k i - RtoC (1/2) * phi p j k i)%C) /\
  (forall c j k i, UCN (base s) c j k i = U_hat (base s) c j k i).
Proof.
  intros s p.
  destruct (rb_history o s0 (S n)) as (E1 & _ & E2 & E3 & _ & _).
  fold s p in E1, E2, E3. split.
  - intros j k i. unfold phi_ab. rewrite E1, E2 by discriminate. reflexivity.
  - intros c j k i. unfold UCN, rsc, cadd. rewrite E3. clear.
    ceq; field.
Qed.

(** ** C60 *)
(** the temperature solver solves the rows of the system; its last two entries, the wall values, are free *)
Definition T_solver_ok : Prop :=
  forall j k, solves_rows nd (comb2 (- 1) ADDT (ksq j k + 2 / kappa / dt) BDDT)
     (Helmholtz sv ADDT BDDT (- 1) (ksq j k + 2 / kappa / dt)).

(** With the other order ([OutFirst]) one step from a state whose phi_hat0 is phi_hat is
    Crank-Nicolson for the diffusion of temperature, with minus the (masked) convection as
    forcing, provided the matrices in the explicit operator are those of the implicit one. *)
Theorem rb_temperature_crank_nicolson (s : rbst) :
  kappa <> 0 -> dt <> 0 -> T_solver_ok -> AS = ADDT -> BS = BDDT -> phi0 s = phi s ->
  let s' := integrate_rb' OutFirst s in
  forall j k, crank_nicolson nd BDDT (visc kappa (ksq j k) ADDT BDDT) dt
     (fun i => (- (match mask with None => 1 | Some m => RtoC (m j k) end) * Nt s' j k i)%C)
     (phi s j k) (phi s' j k).
Proof.
  intros Hk Hdt HT -> -> E0 s' j k.
  pose proof (helm_cn_rows nd ADDT BDDT _ kappa (ksq j k) dt
     (fun i => (- (match mask with None => 1 | Some m => RtoC (m j k) end) * Nt s' j k i)%C)
     (phi s j k) Hk Hdt (HT j k)) as P.
  match type of P with crank_nicolson _ _ _ _ _ _ ?x => assert (Ex : phi s' j k = x) end.
  { unfold s', integrate_rb, ComputeRHS_rb, ComputeRHS, solve_linear_rb, TC, HelmholtzSolverT. cbn -[Helmholtz].
    unfold KMM.Ksq. rewrite E0. f_equal. extensionality i.
    unfold mask_fld. destruct mask; unfold cadd, rsc, HelmholtzCoeff, cadd, rsc;
    replace (2 / kappa / dt - ksq j k) with (- (ksq j k - 2 / kappa / dt)) by ring;
    replace (- 2 / kappa) with (- (2 / kappa)) by (field; exact Hk); rewrite RtoC_opp; ring. }
  rewrite Ex. exact P.
Qed.

(** The wall normal velocity: as in KMM (kmm_crank_nicolson) with the buoyancy added to the
    forcing. *)
Theorem rb_velocity_crank_nicolson (o : order) (s : rbst) :
  nu <> 0 -> dt <> 0 -> kmm_solvers_ok K1 K2 mt sv nu dt nd nb ->
  let s' := integrate_rb' o s in
  let N := extrap mask (conv (U_hat (base s)) (g (base s))) (H_hat1 (base s)) in
  forall j k, ~ mean_mode root j k ->
    crank_nicolson nb (lap (ksq j k) (ABB mt) (BBB mt)) (bih nu (ksq j k) (SBB mt) (ABB mt) (BBB mt)) dt
      (fun i => (rhs_u (Kx1 j) (Kx2 k) (ksq j k) (BBD mt) (CBD mt) (N cn j k) (N c1 j k) (N c2 j k) i
                 + buoyancy K1 K2 mt btt0 btt1 Nx (phi_ab s) j k i)%C)
      (U_hat (base s) cn j k) (U_hat (base s') cn j k).
Proof.
  intros Hnu Hdt (_ & HU & _) s' N j k Hm.
  pose proof (bih_cn nb (SBB mt) (ABB mt) (BBB mt) _ nu (ksq j k) dt
     (fun i => (rhs_u (Kx1 j) (Kx2 k) (ksq j k) (BBD mt) (CBD mt) (N cn j k) (N c1 j k) (N c2 j k) i
                 + buoyancy K1 K2 mt btt0 btt1 Nx (phi_ab s) j k i)%C)
     (U_hat (base s) cn j k) Hdt (HU j k)) as P.
  match type of P with crank_nicolson _ _ _ _ _ _ ?x => assert (Ex : U_hat (base s') cn j k = x) end.
  { unfold s'. rewrite base_int. unfold ComputeRHS_rb, ComputeRHS, solve_linear. cbv zeta.
    cbn -[Biharmonic buoyancy mask_vfld assembleAB hv_of set00 compute_vw upd phi_ab].
    rewrite extrap_eq. fold N.
    match goal with |- ?L = _ => set (lhs := L) end.
    assert (EL : lhs = BiharmonicSolverU K1 K2 mt sv nu dt j k
       (cadd (cadd (rsc dt (hv_of cn c1 c2 K1 K2 Kx1 Kx2 mt N j k)) (AC K1 K2 mt nu dt j k (U_hat (base s) cn j k)))
             (rsc dt (buoyancy K1 K2 mt btt0 btt1 Nx (phi_ab s) j k)))).
    { unfold lhs. destruct root eqn:R.
      - rewrite mean3_cn by assumption.
        destruct ((j =? 0) && (k =? 0)) eqn:Eb.
        { apply at00 in Eb. exfalso. apply Hm. split; [reflexivity | exact Eb]. }
        unfold compute_vw. rewrite !upd_other by congruence. rewrite upd_same. reflexivity.
      - unfold compute_vw. rewrite !upd_other by congruence. rewrite upd_same. reflexivity. }
    rewrite EL. unfold BiharmonicSolverU, AC, KMM.K4, KMM.Ksq.
    f_equal. extensionality i. rewrite hv_spec. unfold cadd, rsc. ring. }
  rewrite Ex. exact P.
Qed.

(** What the buoyancy is: -(ky^2+kz^2) times the product of each test function psi_i of the velocity equation with the
    temperature, the wall values included.  [L i] is the product with psi_i, [f m] the basis functions of the temperature;
    the constant is orthogonal to all psi_i but the first, x to all but the second. *)
Theorem rb_buoyancy (L : nat -> (R -> C) -> C) (f : nat -> R -> R) (p : fld) j k i : (3 <= Nx)%nat ->
  (forall i, linear_functional (L i)) ->
  (forall q i, BBD mt q i = Csum (Nx - 2) (fun m => q m * L i (fun x => RtoC (f m x)))%C) ->
  (forall i, L i (fun _ => C1) = if (i =? 0)%nat then RtoC btt0 else C0) ->
  (forall i, L i (fun x => RtoC x) = if (i =? 1)%nat then RtoC btt1 else C0) ->
  buoyancy K1 K2 mt btt0 btt1 Nx p j k i = (- RtoC (ksq j k) * L i (lifted Nx f (p j k)))%C /\
  ((forall m, f m 1 = 0 /\ f m (- 1) = 0) ->
   lifted Nx f (p j k) 1 = p j k (Nx - 2)%nat /\ lifted Nx f (p j k) (- 1) = p j k (Nx - 1)%nat).
Proof.
  intros HNx HL HB H0 H1. set (q := p j k). split.
  - assert (Z : L i (fun _ => C0) = C0).
    { transitivity (L i (fun _ => C0 * C0 + C0 * C0)%C); [f_equal; extensionality x; ring|]. rewrite (HL i). ring. }
    assert (S : forall n, L i (fun x => Csum n (fun m => q m * RtoC (f m x)))%C = Csum n (fun m => q m * L i (fun x => RtoC (f m x)))%C).
    { induction n as [|n IH]; cbn [Csum]; [exact Z|]. rewrite <- IH.
      transitivity (L i (fun x => C1 * Csum n (fun m => q m * RtoC (f m x)) + q n * RtoC (f n x))%C); [f_equal; extensionality x; ring|].
      rewrite (HL i C1 (q n) (fun x => Csum n (fun m => q m * RtoC (f m x)))%C (fun x => RtoC (f n x))). ring. }
    assert (E : L i (lifted Nx f q) = (BBD mt q i + (RtoC (/ 2) * (q (Nx - 2)%nat + q (Nx - 1)%nat) * L i (fun _ => C1)
                 + RtoC (/ 2) * (q (Nx - 2)%nat - q (Nx - 1)%nat) * L i (fun x => RtoC x)))%C).
    { rewrite HB, <- S, <- (HL i). transitivity (L i (fun x => C1 * Csum (Nx - 2) (fun m => q m * RtoC (f m x)) + C1 *
         (RtoC (/ 2) * (q (Nx - 2)%nat + q (Nx - 1)%nat) * C1 + RtoC (/ 2) * (q (Nx - 2)%nat - q (Nx - 1)%nat) * RtoC x))%C).
      - f_equal. extensionality x. unfold lifted.
        replace ((1 + x) / 2) with (/ 2 + / 2 * x) by lra. replace ((1 - x) / 2) with (/ 2 - / 2 * x) by lra.
        rewrite RtoC_add, RtoC_sub, RtoC_mul. ring.
      - rewrite (HL i C1 C1 (fun x => Csum (Nx - 2) (fun m => q m * RtoC (f m x)))%C
          (fun x => RtoC (/ 2) * (q (Nx - 2)%nat + q (Nx - 1)%nat) * C1 + RtoC (/ 2) * (q (Nx - 2)%nat - q (Nx - 1)%nat) * RtoC x)%C). ring. }
    rewrite E, H0, H1. unfold buoyancy. fold q. unfold rsc, KMM.Ksq. destruct i as [|[|i]]; cbn [Nat.eqb]; rewrite ?RtoC_mul, ?RtoC_opp; ring.
  - intros Hf. unfold lifted. fold q.
    rewrite !Csum_0 by (intros m _; rewrite ?(proj1 (Hf m)), ?(proj2 (Hf m)), RtoC_0; ring).
    replace ((1 + 1) / 2) with 1 by lra. replace ((1 - 1) / 2) with 0 by lra.
    replace ((1 + - 1) / 2) with 0 by lra. replace ((1 - - 1) / 2) with 1 by lra. rewrite RtoC_1, RtoC_0. split; ring.
Qed.

(** ** KMMRK3_RB *)
Context (convT : vfld -> fld -> fld).
Notation stage_rkrb' := (stage_rkrb cn c1 c2 K1 K2 Kx1 Kx2 root mt sv nu dt kappa mask conv Sk
   ADDT BDDT btt0 btt1 Nx AS BS convT).
Notation theta rk := (rk_a rk + rk_b rk).
Definition T_solver_rk_ok : Prop :=
  forall rk j k, (rk < 3)%nat -> solves_rows nd (comb2 (- 1) ADDT (ksq j k + 2 / kappa / theta rk / dt) BDDT)
     (Helmholtz sv ADDT BDDT (- 1) (ksq j k + 2 / kappa / theta rk / dt)).

(** Each stage is a Crank-Nicolson substep of length (a+b) dt with the forcing
    -(a N + b N_previous)/(a+b); the next stage finds N in N_hat0. *)
Theorem rkrb_temperature_stage rk (s : rkrb) : (rk < 3)%nat ->
  kappa <> 0 -> dt <> 0 -> T_solver_rk_ok -> AS = ADDT -> BS = BDDT ->
  let s' := stage_rkrb' rk s in
  let N := fun j k i => (match mask with None => 1 | Some m => RtoC (m j k) end
                         * convT (r_U (rbase s)) (rphi s) j k i)%C in
  rN0 s' = N /\
  forall j k, crank_nicolson nd BDDT (visc kappa (ksq j k) ADDT BDDT) (theta rk * dt)
     (fun i => (- (RtoC (rk_a rk / theta rk) * N j k i + RtoC (rk_b rk / theta rk) * rN0 s j k i))%C)
     (rphi s j k) (rphi s' j k).
Proof.
  intros Hrk Hk Hdt HT -> -> s' N.
  pose proof (theta_pos rk Hrk) as Hth.
  assert (EN : mask_fld mask (convT (r_U (rbase s)) (rphi s)) = N).
  { unfold mask_fld, N. destruct mask; extensionality j; extensionality k; extensionality i;
    unfold rsc; [reflexivity | ring]. }
  split; [exact EN|]. intros j k.
  assert (Hs : solves_rows nd (comb2 (- 1) ADDT (ksq j k + 2 / kappa / (theta rk * dt)) BDDT)
     (Helmholtz sv ADDT BDDT (- 1) (ksq j k + 2 / kappa / theta rk / dt))).
  { replace (2 / kappa / (theta rk * dt)) with (2 / kappa / theta rk / dt) by (field; repeat split; auto; lra).
    apply HT, Hrk. }
  assert (Htd : theta rk * dt <> 0) by (apply Rmult_integral_contrapositive; split; [lra | exact Hdt]).
  pose proof (helm_cn_rows nd ADDT BDDT _ kappa (ksq j k) (theta rk * dt)
     (fun i => (- (RtoC (rk_a rk / theta rk) * N j k i + RtoC (rk_b rk / theta rk) * rN0 s j k i))%C)
     (rphi s j k) Hk Htd Hs) as P.
  match type of P with crank_nicolson _ _ _ _ _ _ ?x => assert (Ex : rphi s' j k = x) end.
  { unfold s', stage_rkrb, ComputeRHS_rkrb, ComputeRHS_rk, solve_linear_rkrb, TC_rk, HelmholtzSolverT_rk.
    cbn -[Helmholtz rk_a rk_b mask_fld mask_vfld]. rewrite EN. clear - Hk Hdt Hth Htd.
    unfold KMM.Ksq. f_equal. extensionality i.
    unfold cadd, rsc, HelmholtzCoeff, cadd, rsc. set (a := rk_a rk) in *. set (b := rk_b rk) in *.
    replace (2 / kappa / dt / (a + b) - ksq j k) with (- (ksq j k - 2 / kappa / ((a + b) * dt)))
      by (field; repeat split; auto; lra).
    rewrite RtoC_1. ceq; unfold Copp; cbn [fst snd]; cparts; field; repeat split; auto; lra. }
  rewrite Ex. exact P.
Qed.

(** The wall normal velocity in a stage: that of KMMRK3 (the convection enters with the weights a and b of the stages)
    and the buoyancy of the temperature at the start of the stage, with the weight a+b. *)
Theorem rkrb_velocity_stage rk (s : rkrb) : (rk < 3)%nat -> nu <> 0 -> dt <> 0 ->
  rk_solvers_ok K1 K2 mt sv nu dt nd nb ->
  let s' := stage_rkrb' rk s in
  let F := Fu cn c1 c2 K1 K2 Kx1 Kx2 mt mask conv (rbase s) in
  (forall j k, ~ mean_mode root j k -> forall i, (i < nb)%nat ->
     (lap (ksq j k) (ABB mt) (BBB mt) (r_U (rbase s') cn j k) i
      = lap (ksq j k) (ABB mt) (BBB mt) (r_U (rbase s) cn j k) i
        + RtoC dt * (RtoC (rk_a rk) * F j k i + RtoC (rk_b rk) * r_hv0 (rbase s) j k i
           + RtoC (theta rk) * buoyancy K1 K2 mt btt0 btt1 Nx (rphi s) j k i
           + RtoC (theta rk / 2) * (bih nu (ksq j k) (SBB mt) (ABB mt) (BBB mt) (r_U (rbase s) cn j k) i
                                   + bih nu (ksq j k) (SBB mt) (ABB mt) (BBB mt) (r_U (rbase s') cn j k) i)))%C) /\
  (forall j k, r_hv0 (rbase s') j k = F j k).
Proof.
  intros Hrk Hnu Hdt Hs s' F. destruct (Hs rk Hrk) as (_ & HU & _).
  pose proof (theta_pos rk Hrk) as Hth. assert (Ht : theta rk <> 0) by lra.
  assert (Htau : theta rk * dt <> 0) by (apply Rmult_integral_contrapositive_currified; assumption).
  set (a := rk_a rk) in *. set (b := rk_b rk) in *. split.
  - intros j k Hm. set (B := buoyancy K1 K2 mt btt0 btt1 Nx (rphi s) j k).
    assert (Es : r_U (rbase s') cn j k = BiharmonicSolverU_rk K1 K2 mt sv nu dt rk j k
        (cadd (cadd (rsc dt (cadd (rsc a (F j k)) (rsc b (r_hv0 (rbase s) j k))))
              (AC_rk K1 K2 mt nu dt rk j k (r_U (rbase s) cn j k))) (rsc (dt * (a + b)) B))).
    { unfold s', stage_rkrb, ComputeRHS_rkrb, ComputeRHS_rk, solve_linear_rkrb, solve_linear_rk. cbv zeta.
      cbn -[buoyancy BiharmonicSolverU_rk AC_rk hv_of hg_of mask_vfld compute_vw set00 mean_solve_rk upd].
      rewrite Nrk_eq.
      set (v := compute_vw _ _ _ _ _ _ _).
      assert (Ev : v cn j k = BiharmonicSolverU_rk K1 K2 mt sv nu dt rk j k
        (cadd (cadd (rsc dt (cadd (rsc a (F j k)) (rsc b (r_hv0 (rbase s) j k))))
              (AC_rk K1 K2 mt nu dt rk j k (r_U (rbase s) cn j k))) (rsc (dt * (a + b)) B))).
      { unfold v, compute_vw. rewrite !upd_other by congruence. rewrite upd_same.
        rewrite hv_spec. reflexivity. }
      destruct root eqn:R; cbn [r_U].
      - rewrite mean3_cn by assumption. destruct ((j =? 0) && (k =? 0))%nat%bool eqn:Eb; [|exact Ev].
        apply at00 in Eb. exfalso. apply Hm. split; [reflexivity | exact Eb].
      - exact Ev. }
    rewrite Es. 
    pose proof (cn_substep nb (lap (ksq j k) (ABB mt) (BBB mt)) (bih nu (ksq j k) (SBB mt) (ABB mt) (BBB mt)) dt) as CS.
    assert (HU' := HU j k). fold a b in HU'.
    replace (nu * (a + b) * dt) with (nu * ((a + b) * dt)) in HU' by ring.
    pose proof (bih_cn nb (SBB mt) (ABB mt) (BBB mt) _ nu (ksq j k) ((a + b) * dt)
       (fun i => (RtoC (/ (a + b)) * (RtoC a * F j k i + RtoC b * r_hv0 (rbase s) j k i) + B i)%C)
       (r_U (rbase s) cn j k) Htau HU') as E.
    match goal with |- context [BiharmonicSolverU_rk ?K1 ?K2 ?mt ?sv ?nu ?dt ?rk ?j ?k ?r] =>
        match type of E with crank_nicolson _ _ _ _ _ _ ?w' => replace (BiharmonicSolverU_rk K1 K2 mt sv nu dt rk j k r) with w' end end.
    + intros i Hi. specialize (E i Hi). cbv beta in E. revert E. generalize (lap (ksq j k) (ABB mt) (BBB mt) (r_U (rbase s) cn j k) i).
      match goal with |- context [lap _ _ _ ?w i] => generalize (lap (ksq j k) (ABB mt) (BBB mt) w i); generalize (bih nu (ksq j k) (SBB mt) (ABB mt) (BBB mt) w i) end.
      generalize (bih nu (ksq j k) (SBB mt) (ABB mt) (BBB mt) (r_U (rbase s) cn j k) i) (F j k i) (r_hv0 (rbase s) j k i) (B i).
      intros z1 z2 z3 z4 z5 z6 z7 E.
      assert (E' : (z6 - z7)%C = (RtoC ((a + b) * dt) * (RtoC (/ (a + b)) * (RtoC a * z2 + RtoC b * z3) + z4 + RtoC (/ 2) * (z1 + z5)))%C).
      { rewrite <- E. ceq; field; auto. }
      transitivity (z7 + (z6 - z7))%C; [ring|]. rewrite E'. ceq; field; auto.
    + unfold BiharmonicSolverU_rk, AC_rk, KMM.K4, KMM.Ksq. fold a b.
      replace (nu * (a + b) * dt) with (nu * ((a + b) * dt)) by ring.
      f_equal. extensionality i. unfold cadd, rsc.
      generalize (BiharmonicCoeff (SBB mt) (ABB mt) (BBB mt) (nu * ((a + b) * dt) / 2) (1 - nu * ((a + b) * dt) * ksq j k)
        (- (ksq j k - nu * ((a + b) * dt) / 2 * (ksq j k * ksq j k))) (r_U (rbase s) cn j k) i).
      intros z. ceq; field; auto.
  - unfold s', stage_rkrb, ComputeRHS_rkrb, ComputeRHS_rk, solve_linear_rkrb, solve_linear_rk. cbv zeta.
    cbn -[buoyancy BiharmonicSolverU_rk AC_rk hv_of hg_of mask_vfld compute_vw set00 mean_solve_rk upd]. rewrite Nrk_eq.
    intros j k. destruct root; apply hv_spec.
Qed.
(** Over one step: the convection and the diffusion enter with the tableau of KMMRK3, the buoyancy with other weights. *)
Theorem rkrb_velocity_step (s : rkrb) : nu <> 0 -> dt <> 0 -> rk_solvers_ok K1 K2 mt sv nu dt nd nb ->
  let S := fun m => match m with O => s | 1%nat => stage_rkrb' 0 s | 2%nat => stage_rkrb' 1 (stage_rkrb' 0 s)
     | _ => integrate_rkrb cn c1 c2 K1 K2 Kx1 Kx2 root mt sv nu dt kappa mask conv Sk ADDT BDDT btt0 btt1 Nx AS BS convT s end in
  forall j k, ~ mean_mode root j k -> forall i, (i < nb)%nat ->
    (lap (ksq j k) (ABB mt) (BBB mt) (r_U (rbase (S 3%nat)) cn j k) i
     = lap (ksq j k) (ABB mt) (BBB mt) (r_U (rbase s) cn j k) i
       + RtoC dt * Csum 4 (fun l => RtoC (rk3_ae 3 l) * Fu cn c1 c2 K1 K2 Kx1 Kx2 mt mask conv (rbase (S l)) j k i
           + RtoC (nth l (8/15 :: 2/15 :: 1/3 :: nil)%R 0%R) * buoyancy K1 K2 mt btt0 btt1 Nx (rphi (S l)) j k i
           + RtoC (rk3_ai 3 l) * bih nu (ksq j k) (SBB mt) (ABB mt) (BBB mt) (r_U (rbase (S l)) cn j k) i))%C.
Proof.
  intros Hnu Hdt Hs S j k Hm i Hi.
  destruct (rkrb_velocity_stage 0 (S 0%nat) ltac:(lia) Hnu Hdt Hs) as [A1 A2].
  destruct (rkrb_velocity_stage 1 (S 1%nat) ltac:(lia) Hnu Hdt Hs) as [B1 B2].
  destruct (rkrb_velocity_stage 2 (S 2%nat) ltac:(lia) Hnu Hdt Hs) as [D1 _].
  specialize (A1 j k Hm i Hi). specialize (B1 j k Hm i Hi). specialize (D1 j k Hm i Hi).
  change (stage_rkrb' 0 (S 0%nat)) with (S 1%nat) in *. change (stage_rkrb' 1 (S 1%nat)) with (S 2%nat) in *.
  change (stage_rkrb' 2 (S 2%nat)) with (S 3%nat) in *. change s with (S 0%nat). clearbody S.
  rewrite D1, B1, A1, A2, B2. unfold rk3_ae, rk3_ai, rk_a, rk_b. cbn [Csum nth].
  repeat match goal with |- context [lap ?a ?b ?c ?d i] => generalize (lap a b c d i); intro end.
  repeat match goal with |- context [bih ?a ?b ?c ?d ?e ?f i] => generalize (bih a b c d e f i); intro end.
  repeat match goal with |- context [buoyancy ?a ?b ?c ?d ?e ?f ?g j k i] => generalize (buoyancy a b c d e f g j k i); intro end.
  repeat match goal with |- context [Fu ?a ?b ?c ?d ?e ?f ?g ?h ?o ?l ?m j k i] => generalize (Fu a b c d e f g h o l m j k i); intro end.
  generalize (r_hv0 (rbase (S 0%nat)) j k i). intro.
  ceq; cbn [C0 fst snd]; field.
Qed.
End RB.

(** The order that the temperature call needs is not the one that the vorticity call needs. *)
Example rb_orders_conflict (SG ST : col -> col) (rhs1 rhs2 gh ph : col) :
  SG rhs1 <> gh -> ST rhs2 <> ph ->
  forall o, two_calls o SG ST rhs1 rhs2 gh ph <> (SG rhs1, ST rhs2).
Proof. intros H1 H2 [|]; simpl; intros E; injection E; congruence. Qed.

(** The weights of the buoyancy sum to one step, but a temperature linear in time is not integrated exactly: the coupling is
    of first order only, in a solver of third order for the convection. *)
Theorem rkrb_buoyancy_order_refuted :
  let w := fun m l => if (m =? 3)%nat then nth l (8/15 :: 2/15 :: 1/3 :: nil) 0 else 0 in
  weight_moment 3 rk3_c w 0 = 1 /\ weight_moment 3 rk3_c w 1 = 22 / 75 /\ ~ order2 3 rk3_c w.
Proof.
  intros w. assert (E0 : weight_moment 3 rk3_c w 0 = 1) by (unfold weight_moment, w, rk3_c; cbn [Rsum nth Nat.eqb]; lra).
  assert (E1 : weight_moment 3 rk3_c w 1 = 22 / 75) by (unfold weight_moment, w, rk3_c; cbn [Rsum nth Nat.eqb]; lra).
  split; [exact E0|split; [exact E1|]]. intros [_ H]. rewrite E1 in H. lra.
Qed.

(** three coefficients, basis function 1 - x^2, wall values 5 and 1: T(0) = 2 + 3, (T(1) - T(-1))/2 = 2 *)
Example rb_buoyancy_example (M : mats) : (forall q i, BBD M q i = if (i =? 0)%nat then q 0%nat else C0) ->
  let p := fun (_ _ i : nat) => RtoC (nth i (2 :: 5 :: 1 :: nil) 0) in
  let L := fun (i : nat) (u : R -> C) => match i with O => u 0 | 1%nat => (RtoC (/ 2) * (u 1%R - u (- 1)%R))%C | _ => C0 end in
  (forall i, linear_functional (L i)) /\
  (forall q i, BBD M q i = Csum (3 - 2) (fun m => q m * L i (fun x => RtoC (1 - x * x)%R))%C) /\
  (forall i, L i (fun _ => C1) = if (i =? 0)%nat then RtoC 1 else C0) /\
  (forall i, L i (fun x => RtoC x) = if (i =? 1)%nat then RtoC 1 else C0) /\
  buoyancy (fun _ => 1) (fun _ => 2) M 1 1 3 p 0%nat 0%nat 0%nat = RtoC (- 25) /\
  buoyancy (fun _ => 1) (fun _ => 2) M 1 1 3 p 0%nat 0%nat 1%nat = RtoC (- 10).
Proof.
  intros HB p L. repeat match goal with |- _ /\ _ => split end.
  - intros i a b u v. destruct i as [|[|i]]; unfold L; ring.
  - intros q i. rewrite HB. cbn [Nat.sub Csum]. destruct i as [|[|i]]; unfold L; cbn [Nat.eqb]; apply C_eq; unfold RtoC, Cmul, Csub, Cadd, Copp, C0; cbn [fst snd]; field.
  - intros i. destruct i as [|[|i]]; unfold L; cbn [Nat.eqb]; apply C_eq; unfold RtoC, Cmul, Csub, Cadd, Copp, C0, C1; cbn [fst snd]; field.
  - intros i. destruct i as [|[|i]]; unfold L; cbn [Nat.eqb]; apply C_eq; unfold RtoC, Cmul, Csub, Cadd, Copp, C0, C1; cbn [fst snd]; field.
  - unfold buoyancy, rsc, Ksq. rewrite HB. unfold p. cbn [Nat.eqb nth Nat.sub]. apply C_eq; unfold RtoC, Cmul, Csub, Cadd, Copp, C0; cbn [fst snd]; field.
  - unfold buoyancy, rsc, Ksq. rewrite HB. unfold p. cbn [Nat.eqb nth Nat.sub]. apply C_eq; unfold RtoC, Cmul, Csub, Cadd, Copp, C0; cbn [fst snd]; field.
Qed.

Print Assumptions rb_buoyancy.
Print Assumptions rkrb_velocity_stage.
Print Assumptions rkrb_velocity_step.
Print Assumptions rkrb_buoyancy_order_refuted.
Print Assumptions rb_one_field_is_frozen.
Print Assumptions rb_temperature_frozen.
Print Assumptions rb_history.
Print Assumptions rb_extrapolation.
Print Assumptions rb_temperature_crank_nicolson.
Print Assumptions rb_velocity_crank_nicolson.
Print Assumptions rkrb_temperature_stage.
