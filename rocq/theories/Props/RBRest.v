(** Theorems on the fluid at rest in the Rayleigh-Benard solvers and on demo/RayleighBenard.py initialize: C87. *)
From Coq Require Import Reals List Bool Arith Lia Lra FunctionalExtensionality.
From Verif Require Import Base.Cplx Base.Sums Base.Fin Model.KMM Model.KMMRB Model.RBInit Spec.Channel Spec.Lift
  Proofs.KMMProofs Props.Channel Props.ChannelRB.
Open Scope R_scope.

Notation zero3 := (fun (_ : ax3) (_ _ : nat) => czero).
Notation zero1 := (fun (_ _ : nat) => czero).

Lemma rsc_zero a : rsc a czero = czero.
Proof. extensionality i. unfold rsc, czero. ring. Qed.
Lemma csc_zero a : csc a czero = czero.
Proof. extensionality i. unfold csc, czero. ring. Qed.
Lemma cadd_zero : cadd czero czero = czero.
Proof. extensionality i. unfold cadd, czero. ring. Qed.
Lemma csub_zero : csub czero czero = czero.
Proof. extensionality i. unfold csub, czero. ring. Qed.
Lemma cadd_zero_l u : cadd czero u = u.
Proof. extensionality i. unfold cadd, czero. ring. Qed.

Section Rest.
Context (cn c1 c2 : ax3) (K1 K2 Kx1 Kx2 : nat -> R) (root : bool) (mt : mats) (sv : solvers) (nu dt kappa : R).
Context (mask : option (nat -> nat -> R)) (conv : vfld -> fld -> vfld) (Sk : vfld).
Context (ADDT BDDT : col -> col) (btt0 btt1 : R) (Nx : nat) (AS BS : col -> col).
Context (uT : vfld -> fld -> vfld) (convT : vfld -> fld -> fld).
Notation integrate_rb' := (integrate_rb cn c1 c2 K1 K2 Kx1 Kx2 root mt sv nu dt kappa mask conv Sk ADDT BDDT btt0 btt1 Nx AS BS uT OutFirst).
Notation step_rb' := (step_rb cn c1 c2 K1 K2 Kx1 Kx2 root mt sv nu dt kappa mask conv Sk ADDT BDDT btt0 btt1 Nx AS BS uT OutFirst).
Notation stage_rb' := (stage_rkrb cn c1 c2 K1 K2 Kx1 Kx2 root mt sv nu dt kappa mask conv Sk ADDT BDDT btt0 btt1 Nx AS BS convT).
Notation integrate_rk' := (integrate_rkrb cn c1 c2 K1 K2 Kx1 Kx2 root mt sv nu dt kappa mask conv Sk ADDT BDDT btt0 btt1 Nx AS BS convT).
Notation ksq j k := (K1 j * K1 j + K2 k * K2 k).
Notation theta rk := (rk_a rk + rk_b rk).

(** matrices and solvers give zero for zero; the convections vanish without velocity; no pressure gradient *)
Definition quiet : Prop :=
  (CBD mt czero = czero /\ ABB mt czero = czero /\ BBB mt czero = czero /\ SBB mt czero = czero /\ ADD mt czero = czero /\
   BDD mt czero = czero /\ BBD mt czero = czero /\ CDB mt czero = czero /\ ADD0 mt czero = czero /\ BDD0 mt czero = czero) /\
  (forall b, Helmholtz sv (ADD mt) (BDD mt) (- 1) b czero = czero) /\
  (forall b, Helmholtz sv (ADD0 mt) (BDD0 mt) (- 1) b czero = czero) /\
  (forall a b d, Biharmonic sv (SBB mt) (ABB mt) (BBB mt) a b d czero = czero) /\
  TDMA sv (BDD mt) czero = czero /\
  conv zero3 zero1 = zero3 /\ Sk c1 0%nat 0%nat = czero.
(** the temperature has no modes but the mean one *)
Definition layered (p : fld) : Prop := forall j k, (j, k) <> (0%nat, 0%nat) -> p j k = czero.
(** the temperature solver gives zero for zero except in the mean mode, which carries the wall values *)
Definition T_quiet (beta : R) : Prop :=
  AS czero = czero /\ BS czero = czero /\
  forall j k, (j, k) <> (0%nat, 0%nat) -> Helmholtz sv ADDT BDDT (- 1) (ksq j k + beta) czero = czero.

Hypothesis HK : K1 0%nat = 0 /\ K2 0%nat = 0.
Hypothesis HQ : quiet.

Lemma ksq00 : ksq 0%nat 0%nat = 0.
Proof. rewrite (proj1 HK), (proj2 HK). ring. Qed.

Lemma buoyancy_layered p : layered p -> buoyancy K1 K2 mt btt0 btt1 Nx p = zero1.
Proof.
  intros Hp. destruct HQ as ((_ & _ & _ & _ & _ & _ & HB & _) & _).
  extensionality j. extensionality k. extensionality i. unfold buoyancy, Ksq.
  destruct (Nat.eq_dec j 0) as [->|Hj]; [destruct (Nat.eq_dec k 0) as [->|Hk]|].
  - rewrite ksq00. unfold rsc, czero. rewrite Ropp_0, RtoC_0. destruct i as [|[|i]]; ring.
  - rewrite (Hp 0%nat k) by congruence. rewrite HB, rsc_zero. unfold czero. destruct i as [|[|i]]; ring.
  - rewrite (Hp j k) by congruence. rewrite HB, rsc_zero. unfold czero. destruct i as [|[|i]]; ring.
Qed.
Lemma mask_zero3 : mask_vfld mask zero3 = zero3.
Proof. unfold mask_vfld. destruct mask; [|reflexivity]. extensionality c. extensionality j. extensionality k. apply rsc_zero. Qed.
Lemma mask_zero1 : mask_fld mask zero1 = zero1.
Proof. unfold mask_fld. destruct mask; [|reflexivity]. extensionality j. extensionality k. apply rsc_zero. Qed.
Lemma assemble_zero : assembleAB zero3 zero3 = zero3.
Proof. extensionality c. extensionality j. extensionality k. unfold assembleAB. rewrite !rsc_zero. apply csub_zero. Qed.
Lemma hv_zero : hv_of cn c1 c2 K1 K2 Kx1 Kx2 mt zero3 = zero1.
Proof.
  destruct HQ as ((HC & _ & _ & _ & _ & _ & HB & _) & _). extensionality j. extensionality k. unfold hv_of.
  rewrite HC, HB, rsc_zero, !csc_zero, !csub_zero. reflexivity.
Qed.
Lemma hg_zero : hg_of c1 c2 Kx1 Kx2 mt zero3 = zero1.
Proof.
  destruct HQ as ((_ & _ & _ & _ & _ & HB & _) & _). extensionality j. extensionality k. unfold hg_of.
  rewrite HB, !csc_zero. apply csub_zero.
Qed.
Lemma vw_zero : compute_vw c1 c2 K1 K2 zero3 zero1 zero1 = zero3.
Proof.
  extensionality c. extensionality j. extensionality k. unfold compute_vw, upd.
  repeat match goal with |- context [if ?b then _ else _] => destruct b end; rewrite ?rsc_zero, ?csub_zero, ?cadd_zero, ?csc_zero; reflexivity.
Qed.
Lemma set00_zero c : set00 zero3 c czero = zero3.
Proof.
  extensionality d. unfold set00, upd. destruct (eqd F3 d c); [|reflexivity].
  extensionality j. extensionality k. destruct ((j =? 0) && (k =? 0))%nat; reflexivity.
Qed.
Lemma upd_zero c : upd F3 zero3 c zero1 = zero3.
Proof. extensionality d. unfold upd. repeat match goal with |- context [if ?b then _ else _] => destruct b end; reflexivity. Qed.

(** no velocity, no vorticity and no convection in the history *)
Definition at_rest (s : kst) : Prop := U_hat s = zero3 /\ g s = zero1 /\ U_hat0 s = zero3 /\ H_hat1 s = zero3.

Lemma AC_zero j k : AC K1 K2 mt nu dt j k czero = czero.
Proof.
  destruct HQ as ((_ & HA & HB & HS & _) & _). unfold AC, BiharmonicCoeff. rewrite HA, HB, HS, !rsc_zero, !cadd_zero. reflexivity.
Qed.
Lemma AB_zero j k : AB K1 K2 mt nu dt j k czero = czero.
Proof. destruct HQ as ((_ & _ & _ & _ & HA & HB & _) & _). unfold AB, HelmholtzCoeff. rewrite HA, HB, !rsc_zero. apply cadd_zero. Qed.

Lemma solve_zero rhs (b : kst) : rhs = (zero1, zero1) -> U_hat b = zero3 -> U_hat0 b = zero3 -> H_hat0 b = zero3 ->
  solve_linear cn c1 c2 K1 K2 root mt sv nu dt Sk rhs b = mkK zero3 zero1 (H_hat b) zero3 (H_hat1 b) zero3.
Proof.
  intros -> EU E0 EH. destruct HQ as ((HC & HA & HB & HS & HAD & HBD & HBB & HCD & HA0 & HB0) & HG & HM & HBi & HT & _ & HSk).
  unfold solve_linear. rewrite EU, E0, EH. cbn [fst snd].
  unfold BiharmonicSolverU, HelmholtzSolverG, TDMASolverD, mean_solve, HelmholtzSolverU0.
  replace (fun j k : nat => Biharmonic sv (SBB mt) (ABB mt) (BBB mt) (- (nu * dt / 2)) (1 + nu * dt * Ksq K1 K2 j k)
     (- (Ksq K1 K2 j k + nu * dt / 2 * K4 K1 K2 j k)) czero) with zero1
    by (extensionality j; extensionality k; rewrite HBi; reflexivity).
  replace (fun j k : nat => Helmholtz sv (ADD mt) (BDD mt) (- 1) (Ksq K1 K2 j k + 2 / nu / dt) czero) with zero1
    by (extensionality j; extensionality k; rewrite HG; reflexivity).
  rewrite upd_zero. rewrite !rsc_zero, HCD, HT, vw_zero, HSk, !rsc_zero, HB0, HA0, !rsc_zero, csub_zero, !cadd_zero, HM.
  rewrite !set00_zero. destruct root; reflexivity.
Qed.
Lemma DivRB_zero p : uT zero3 p = zero3 -> DivRB cn c1 c2 K1 K2 mt uT zero3 p = zero1.
Proof.
  intros E. destruct HQ as ((_ & _ & _ & _ & _ & HB & _ & HCD & _) & _).
  extensionality j. extensionality k. unfold DivRB. rewrite E, !csc_zero, HB, HCD, !cadd_zero. reflexivity.
Qed.

(** one step *)
Lemma rest_integrate (s : rbst) : (forall p, uT zero3 p = zero3) -> at_rest (base s) -> layered (phi0 s) -> layered (phi1 s) ->
  let s' := integrate_rb' s in
  base s' = mkK zero3 zero1 zero3 zero3 zero3 zero3 /\ Nt s' = zero1 /\ phi0 s' = phi0 s /\
  forall j k, KMMRB.phi s' j k = Helmholtz sv ADDT BDDT (- 1) (ksq j k + 2 / kappa / dt) (TC K1 K2 dt kappa AS BS j k (phi0 s j k)).
Proof.
  intros Hu (E1 & E2 & E3 & E4) L0 L1 s'. destruct HQ as (_ & _ & _ & _ & _ & HC & _).
  assert (Lab : layered (phi_ab s)).
  { intros j k Hjk. unfold phi_ab. rewrite (L0 j k Hjk), (L1 j k Hjk), !rsc_zero. apply csub_zero. }
  assert (EC : ComputeRHS cn c1 c2 K1 K2 Kx1 Kx2 mt nu dt mask conv (base s) = ((zero1, zero1), mkK zero3 zero1 zero3 zero3 zero3 zero3)).
  { unfold ComputeRHS. rewrite E1, E2, E3, E4, HC, assemble_zero, mask_zero3, hv_zero, hg_zero. unfold add_linear. cbn [fst snd].
    f_equal. f_equal; extensionality j; extensionality k; rewrite rsc_zero, ?AC_zero, ?AB_zero; apply cadd_zero. }
  assert (EU : UCN (mkK zero3 zero1 zero3 zero3 zero3 zero3) = zero3).
  { extensionality c. extensionality j. extensionality k. unfold UCN. cbn [U_hat U_hat0]. rewrite cadd_zero. apply rsc_zero. }
  unfold s', integrate_rb, ComputeRHS_rb. rewrite EC. cbv zeta. cbn [fst snd].
  rewrite EU, DivRB_zero, mask_zero1, buoyancy_layered by auto. unfold solve_linear_rb. cbn [fst snd base Nt phi0 KMMRB.phi].
  split; [|split; [|split]]; try reflexivity.
  - apply solve_zero; try reflexivity.
    f_equal; extensionality j; extensionality k; rewrite rsc_zero; apply cadd_zero.
  - intros j k. unfold call. cbn [fst]. unfold HelmholtzSolverT, Ksq. rewrite rsc_zero, cadd_zero_l. reflexivity.
Qed.
(** what is known of a state after any number of steps *)
Definition rest_rb (s : rbst) : Prop :=
  at_rest (base s) /\ layered (KMMRB.phi s) /\ layered (phi0 s) /\ layered (phi1 s).
Lemma T_layered (p : fld) : T_quiet (2 / kappa / dt) -> layered p ->
  layered (fun j k => Helmholtz sv ADDT BDDT (- 1) (ksq j k + 2 / kappa / dt) (TC K1 K2 dt kappa AS BS j k (p j k))).
Proof.
  intros (HA & HB & HT) Hp j k Hjk. rewrite (Hp j k Hjk). unfold TC, HelmholtzCoeff. rewrite HA, HB, !rsc_zero, cadd_zero. apply HT, Hjk.
Qed.
Theorem C87_rest (s : rbst) (n : nat) : (forall p, uT zero3 p = zero3) -> T_quiet (2 / kappa / dt) -> rest_rb s ->
  rest_rb (Nat.iter n step_rb' s).
Proof.
  intros Hu HT Hs. induction n as [|n IH]; [exact Hs|].
  change (Nat.iter (S n) step_rb' s) with (step_rb' (Nat.iter n step_rb' s)). revert IH. generalize (Nat.iter n step_rb' s). clear s Hs.
  intros s (Hr & Lp & L0 & L1). destruct (rest_integrate s Hu Hr L0 L1) as (EB & EN & E0 & EP).
  assert (L : layered (KMMRB.phi (integrate_rb' s))).
  { intros j k Hjk. rewrite EP. exact (T_layered (phi0 s) HT L0 j k Hjk). }
  unfold rest_rb, step_rb, end_of_tstep_rb. cbn [base KMMRB.phi phi0 phi1]. rewrite E0. unfold at_rest. cbn [U_hat g U_hat0 H_hat1].
  rewrite EB. repeat split; assumption.
Qed.
(** The mean temperature diffuses as in a solid: Crank-Nicolson without forcing *)
Theorem C87_diffusion (s : rbst) nd : kappa <> 0 -> dt <> 0 -> (forall p, uT zero3 p = zero3) -> AS = ADDT -> BS = BDDT ->
  T_solver_ok K1 K2 sv dt kappa ADDT BDDT nd -> rest_rb s -> phi0 s = KMMRB.phi s ->
  crank_nicolson nd BDDT (visc kappa 0 ADDT BDDT) dt czero (KMMRB.phi s 0%nat 0%nat) (KMMRB.phi (integrate_rb' s) 0%nat 0%nat).
Proof.
  intros Hk Hd Hu HA HB HT (Hr & Lp & L0 & L1) E0.
  pose proof (rb_temperature_crank_nicolson cn c1 c2 K1 K2 Kx1 Kx2 root mt sv nu dt kappa mask conv Sk ADDT BDDT btt0 btt1 Nx AS BS uT nd s
    Hk Hd HT HA HB E0 0%nat 0%nat) as P.
  destruct (rest_integrate s Hu Hr L0 L1) as (_ & EN & _ & _). rewrite EN in P. rewrite ksq00 in P.
  intros i Hi. rewrite (P i Hi). unfold czero. f_equal. destruct mask; ring.
Qed.
(** A temperature that the solver returns for zero, with no Dirichlet part, does not change *)
Definition conductive (c : col) (p : fld) : Prop := forall j k, p j k = if ((j =? 0) && (k =? 0))%nat then c else czero.
Definition T_conducts (c : col) (beta : R) : Prop := AS c = czero /\ BS c = czero /\ Helmholtz sv ADDT BDDT (- 1) beta czero = c.
Lemma conductive_layered c p : conductive c p -> layered p.
Proof.
  intros H j k Hjk. rewrite H. destruct (Nat.eqb_spec j 0) as [->|]; [destruct (Nat.eqb_spec k 0) as [->|]|]; try reflexivity. contradiction.
Qed.
Theorem C87_conduction (s : rbst) (c : col) (n : nat) : (forall p, uT zero3 p = zero3) -> T_quiet (2 / kappa / dt) ->
  T_conducts c (2 / kappa / dt) -> at_rest (base s) -> conductive c (KMMRB.phi s) -> conductive c (phi0 s) -> conductive c (phi1 s) ->
  let s' := Nat.iter n step_rb' s in at_rest (base s') /\ conductive c (KMMRB.phi s').
Proof.
  intros Hu HT (HA & HB & HS) Hr Cp C0' C1' s'.
  assert (G : at_rest (base s') /\ conductive c (KMMRB.phi s') /\ conductive c (phi0 s') /\ conductive c (phi1 s')).
  2: { destruct G as (G1 & G2 & _). split; assumption. }
  unfold s'. clear s'. induction n as [|n IH]; [repeat (split; [assumption|]); assumption|].
  change (Nat.iter (S n) step_rb' s) with (step_rb' (Nat.iter n step_rb' s)). revert IH. generalize (Nat.iter n step_rb' s). clear s Hr Cp C0' C1'.
  intros s (Hr & Cp & C0' & C1').
  destruct (rest_integrate s Hu Hr (conductive_layered _ _ C0') (conductive_layered _ _ C1')) as (EB & EN & E0 & EP).
  assert (L : conductive c (KMMRB.phi (integrate_rb' s))).
  { intros j k. rewrite EP. destruct ((j =? 0) && (k =? 0))%nat eqn:Eb.
    - apply andb_prop in Eb. destruct Eb as (Ej & Ek). apply Nat.eqb_eq in Ej, Ek. subst j k.
      rewrite C0'. cbn [Nat.eqb andb]. unfold TC, HelmholtzCoeff. rewrite HA, HB, !rsc_zero, cadd_zero, ksq00, Rplus_0_l. exact HS.
    - apply (T_layered (phi0 s) HT (conductive_layered _ _ C0')). intros E. injection E as -> ->. discriminate. }
  unfold step_rb, end_of_tstep_rb. cbn [base KMMRB.phi phi0 phi1]. rewrite E0. unfold at_rest. cbn [U_hat g U_hat0 H_hat1].
  rewrite EB. repeat split; assumption.
Qed.
(** a mode whose temperature has buoyancy sets the fluid in motion in the first step *)
Theorem C87_onset (s : rbst) nd nb j k i : cn <> c1 -> cn <> c2 -> nu <> 0 -> dt <> 0 ->
  kmm_solvers_ok K1 K2 mt sv nu dt nd nb -> at_rest (base s) -> ~ mean_mode root j k -> (i < nb)%nat ->
  buoyancy K1 K2 mt btt0 btt1 Nx (phi_ab s) j k i <> C0 -> U_hat (base (integrate_rb' s)) cn j k <> czero.
Proof.
  intros A1 A2 Hnu Hdt HS (E1 & E2 & E3 & E4) Hm Hi Hb E.
  pose proof (rb_velocity_crank_nicolson cn c1 c2 A1 A2 K1 K2 Kx1 Kx2 root mt sv nu dt kappa mask conv Sk ADDT BDDT btt0 btt1 Nx AS BS uT nd nb
    OutFirst s Hnu Hdt HS j k Hm i Hi) as P.
  destruct HQ as ((HC & HA & HB & HSB & HAD & HBD & HBB & HCD & HA0 & HB0) & _ & _ & _ & _ & HCv & _).
  rewrite E in P. rewrite E1, E2, E4, HCv in P.
  assert (EX : extrap mask zero3 zero3 = zero3).
  { rewrite <- extrap_eq, assemble_zero. apply mask_zero3. }
  rewrite EX in P. unfold lap, bih, rhs_u, comb3 in P. repeat (unfold comb2 in P; cbv beta in P). rewrite ?HC, ?HA, ?HB, ?HSB, ?HBB in P. unfold czero in P.
  apply Hb. revert P. generalize (buoyancy K1 K2 mt btt0 btt1 Nx (phi_ab s) j k i). intros (qa, qb) P.
  unfold Cmul, Cadd, Csub, Copp, RtoC, C0, Ci in *. cbn [fst snd] in *. injection P as P1 P2. f_equal; lra.
Qed.

(** ** KMMRK3_RB *)
Lemma AC_rk_zero rk j k : AC_rk K1 K2 mt nu dt rk j k czero = czero.
Proof.
  destruct HQ as ((_ & HA & HB & HS & _) & _). unfold AC_rk, BiharmonicCoeff. rewrite HA, HB, HS, !rsc_zero, !cadd_zero. reflexivity.
Qed.
Lemma AB_rk_zero rk j k : AB_rk K1 K2 mt nu dt rk j k czero = czero.
Proof. destruct HQ as ((_ & _ & _ & _ & HA & HB & _) & _). unfold AB_rk, HelmholtzCoeff. rewrite HA, HB, !rsc_zero. apply cadd_zero. Qed.
(** no velocity and no vorticity; the arrays of the stage before matter only if the stage reads them *)
Definition rest_rk (rk : nat) (s : rkrb) : Prop :=
  r_U (rbase s) = zero3 /\ r_g (rbase s) = zero1 /\
  (rk_b rk <> 0 -> r_hv0 (rbase s) = zero1 /\ r_hg0 (rbase s) = zero1 /\ rN0 s = zero1 /\ (root = true -> r_h1 (rbase s) = (czero, czero))).
Lemma old_zero rk (q : col) : (rk_b rk <> 0 -> q = czero) -> rsc (rk_b rk) q = czero.
Proof.
  intros H. destruct (Req_EM_T (rk_b rk) 0) as [E|E]; [|rewrite H by assumption; apply rsc_zero].
  rewrite E. extensionality i. unfold rsc, czero. rewrite RtoC_0. ring.
Qed.
Lemma rest_stage rk rk' (s : rkrb) : (forall p, convT zero3 p = zero1) -> rest_rk rk s -> layered (rphi s) ->
  let s' := stage_rb' rk s in rest_rk rk' s' /\
  forall j k, rphi s' j k = Helmholtz sv ADDT BDDT (- 1) (ksq j k + 2 / kappa / theta rk / dt) (TC_rk K1 K2 dt kappa AS BS rk j k (rphi s j k)).
Proof.
  intros Hu (E1 & E2 & E3) Lp s'. destruct HQ as ((HC & HA & HB & HS & HAD & HBD & HBB & HCD & HA0 & HB0) & HG & HM & HBi & HT & HCv & HSk).
  assert (EC : exists rhs, ComputeRHS_rk cn c1 c2 K1 K2 Kx1 Kx2 mt nu dt mask conv rk (rbase s) = (rhs, mkRst zero3 zero1 zero3 zero1 zero1 (r_h1 (rbase s)))
     /\ rhs = (zero1, zero1)).
  { eexists. split. { unfold ComputeRHS_rk. rewrite E1, E2, HCv, mask_zero3, hv_zero, hg_zero. reflexivity. }
    f_equal; extensionality j; extensionality k; rewrite ?AC_rk_zero, ?AB_rk_zero, rsc_zero, old_zero, cadd_zero, rsc_zero; try apply cadd_zero;
    intros Hb; destruct (E3 Hb) as (Q1 & Q2 & _); rewrite ?Q1, ?Q2; reflexivity. }
  destruct EC as (rhs & EC & ->).
  unfold s', stage_rkrb, ComputeRHS_rkrb. rewrite EC. cbv zeta. cbn [fst snd].
  rewrite buoyancy_layered by assumption. cbn [r_U]. rewrite Hu, mask_zero1. unfold solve_linear_rkrb. cbn [fst snd rbase rphi rN0].
  set (R := solve_linear_rk _ _ _ _ _ _ _ _ _ _ _ _ _ _).
  assert (ER : R = mkRst zero3 zero1 zero3 zero1 zero1 (if root then (czero, czero) else r_h1 (rbase s))).
  { unfold R, solve_linear_rk. cbn [fst snd r_U r_g r_H r_hv0 r_hg0 r_h1].
    unfold BiharmonicSolverU_rk, HelmholtzSolverG_rk, TDMASolverD.
    assert (Z : (fun j k : nat => Biharmonic sv (SBB mt) (ABB mt) (BBB mt) (- (nu * theta rk * dt / 2)) (1 + nu * theta rk * dt * Ksq K1 K2 j k)
     (- (Ksq K1 K2 j k + nu * theta rk * dt / 2 * K4 K1 K2 j k)) (cadd czero (rsc (dt * theta rk) czero))) = zero1)
      by (extensionality j; extensionality k; rewrite rsc_zero, cadd_zero; apply HBi).
    rewrite Z.
    replace (fun j k : nat => Helmholtz sv (ADD mt) (BDD mt) (- 1) (Ksq K1 K2 j k + 2 / nu / theta rk / dt) czero) with zero1
      by (extensionality j; extensionality k; rewrite HG; reflexivity).
    rewrite upd_zero, HCD, csub_zero, HT, vw_zero. destruct root eqn:Er; [|reflexivity].
    rewrite HB0, HSk, csub_zero.
    assert (M : forall h0, (rk_b rk <> 0 -> h0 = czero) -> mean_solve_rk mt sv nu dt rk czero h0 czero = czero).
    { intros h0 H0. unfold mean_solve_rk, HelmholtzSolverU0_rk. rewrite old_zero, HA0, HB0, !rsc_zero, !cadd_zero, !rsc_zero, !cadd_zero by exact H0. apply HM. }
    rewrite !M by (intros Hb; destruct (E3 Hb) as (_ & _ & _ & E); rewrite (E eq_refl); reflexivity).
    rewrite !set00_zero. reflexivity. }
  split.
  - unfold rest_rk. cbn [rbase rN0]. rewrite ER. cbn [r_U r_g r_hv0 r_hg0 r_h1]. repeat split. intros ->. reflexivity.
  - intros j k. unfold call. cbn [fst rphi]. unfold HelmholtzSolverT_rk, Ksq. rewrite rsc_zero, old_zero, cadd_zero, rsc_zero, cadd_zero_l; [reflexivity|].
    intros Hb. destruct (E3 Hb) as (_ & _ & -> & _). reflexivity.
Qed.
Lemma stage_layered rk (p : fld) : T_quiet (2 / kappa / theta rk / dt) -> layered p ->
  layered (fun j k => Helmholtz sv ADDT BDDT (- 1) (ksq j k + 2 / kappa / theta rk / dt) (TC_rk K1 K2 dt kappa AS BS rk j k (p j k))).
Proof.
  intros (HA & HB & HT) Hp j k Hjk. rewrite (Hp j k Hjk). unfold TC_rk, HelmholtzCoeff. rewrite HA, HB, !rsc_zero, cadd_zero. apply HT, Hjk.
Qed.
(** the arrays of older stages may hold anything at the start *)
Theorem C87_rest_rk3 (s : rkrb) (n : nat) : (forall p, convT zero3 p = zero1) -> (forall rk, T_quiet (2 / kappa / theta rk / dt)) ->
  r_U (rbase s) = zero3 -> r_g (rbase s) = zero1 -> layered (rphi s) ->
  let s' := Nat.iter n integrate_rk' s in r_U (rbase s') = zero3 /\ r_g (rbase s') = zero1 /\ layered (rphi s').
Proof.
  intros Hu HT E1 E2 Lp s'.
  assert (H0 : rest_rk 0 s) by (repeat split; try assumption; exfalso; apply H; reflexivity).
  assert (G : rest_rk 0 s' /\ layered (rphi s')).
  2: { destruct G as ((A & B & _) & D). repeat split; assumption. }
  unfold s'. clear s' E1 E2. induction n as [|n IH]; [split; assumption|].
  change (Nat.iter (S n) integrate_rk' s) with (integrate_rk' (Nat.iter n integrate_rk' s)). revert IH. generalize (Nat.iter n integrate_rk' s).
  clear s H0 Lp. intros s (H0 & Lp). unfold integrate_rkrb.
  assert (St : forall rk rk' s, rest_rk rk s -> layered (rphi s) -> rest_rk rk' (stage_rb' rk s) /\ layered (rphi (stage_rb' rk s))).
  { intros rk rk' q Hq Lq. destruct (rest_stage rk rk' q Hu Hq Lq) as (A & B). split; [exact A|].
    intros j k Hjk. rewrite B. exact (stage_layered rk _ (HT rk) Lq j k Hjk). }
  destruct (St 0%nat 1%nat s H0 Lp) as (A1 & B1). destruct (St 1%nat 2%nat _ A1 B1) as (A2 & B2). exact (St 2%nat 0%nat _ A2 B2).
Qed.
Theorem C87_conduction_rk3 (s : rkrb) (c : col) (n : nat) : (forall p, convT zero3 p = zero1) -> (forall rk, T_quiet (2 / kappa / theta rk / dt)) ->
  (forall rk, T_conducts c (2 / kappa / theta rk / dt)) -> r_U (rbase s) = zero3 -> r_g (rbase s) = zero1 -> conductive c (rphi s) ->
  let s' := Nat.iter n integrate_rk' s in r_U (rbase s') = zero3 /\ r_g (rbase s') = zero1 /\ conductive c (rphi s').
Proof.
  intros Hu HT HS E1 E2 Cp s'.
  assert (H0 : rest_rk 0 s) by (repeat split; try assumption; exfalso; apply H; reflexivity).
  assert (G : rest_rk 0 s' /\ conductive c (rphi s')).
  2: { destruct G as ((A & B & _) & D). repeat split; assumption. }
  unfold s'. clear s' E1 E2. induction n as [|n IH]; [split; assumption|].
  change (Nat.iter (S n) integrate_rk' s) with (integrate_rk' (Nat.iter n integrate_rk' s)). revert IH. generalize (Nat.iter n integrate_rk' s).
  clear s H0 Cp. intros s (H0 & Cp). unfold integrate_rkrb.
  assert (St : forall rk rk' s, rest_rk rk s -> conductive c (rphi s) -> rest_rk rk' (stage_rb' rk s) /\ conductive c (rphi (stage_rb' rk s))).
  { intros rk rk' q Hq Cq. destruct (rest_stage rk rk' q Hu Hq (conductive_layered _ _ Cq)) as (A & B). split; [exact A|].
    intros j k. rewrite B. destruct ((j =? 0) && (k =? 0))%nat eqn:Eb.
    - apply andb_prop in Eb. destruct Eb as (Ej & Ek). apply Nat.eqb_eq in Ej, Ek. subst j k.
      destruct (HS rk) as (HA & HB & HZ). rewrite Cq. cbn [Nat.eqb andb]. unfold TC_rk, HelmholtzCoeff.
      rewrite HA, HB, !rsc_zero, cadd_zero, ksq00, Rplus_0_l. exact HZ.
    - apply (stage_layered rk _ (HT rk) (conductive_layered _ _ Cq)). intros E. injection E as -> ->. discriminate. }
  destruct (St 0%nat 1%nat s H0 Cp) as (A1 & B1). destruct (St 1%nat 2%nat _ A1 B1) as (A2 & B2). exact (St 2%nat 0%nat _ A2 B2).
Qed.
End Rest.

(** ** initialize of demo/RayleighBenard.py *)
Section Start.
Context {X : Type} (xn : X -> R) (rand : X -> R) (fw : (X -> R) -> fld) (bw : fld -> X -> R) (m : nat -> nat -> R).
(** whatever the random numbers, the field is 0 at the upper and 1 at the lower wall *)
Theorem C87_start_walls p : (xn p = 1 -> RB_phi xn rand p = 0) /\ (xn p = - 1 -> RB_phi xn rand p = 1).
Proof. unfold RB_phi. split; intros ->; lra. Qed.
(** the velocity is left alone and both older temperatures are the first one, so the first extrapolation is that field *)
Theorem C87_start (s : rbst) : let s' := RB_initialize xn rand fw bw m s in
  base s' = base s /\ phi0 s' = KMMRB.phi s' /\ phi1 s' = KMMRB.phi s' /\ (forall j k i, phi_ab s' j k i = KMMRB.phi s' j k i).
Proof.
  repeat split. intros j k i. unfold phi_ab, RB_initialize, csub, rsc. cbn [phi0 phi1 KMMRB.phi].
  generalize (RB_phi_hat xn rand fw bw m j k i). intros (a, b). unfold Cmul, Csub, Cadd, Copp, RtoC. cbn [fst snd]. f_equal; lra.
Qed.
(** with a transform that inverts on its range the coefficients are the masked transform of the field *)
Theorem C87_start_masked : let h : fld := fun j k => rsc (m j k) (fw (RB_phi xn rand) j k) in
  fw (bw h) = h -> RB_phi_hat xn rand fw bw m = h.
Proof. intros h E. exact E. Qed.
(** without noise: the conductive profile, if forward gives it for (1 - x)/2 and the mask keeps the mean mode *)
Theorem C87_start_conductive (c : col) : (forall p, rand p = 0) -> (forall f, (forall p, f p = (1 - xn p) / 2) -> conductive c (fw f)) ->
  (forall p h, conductive c h -> bw h p = (1 - xn p) / 2) -> m 0%nat 0%nat = 1 ->
  conductive c (RB_phi_hat xn rand fw bw m).
Proof.
  intros Hr Hf Hb Hm. unfold RB_phi_hat. apply Hf. intros p. apply Hb. intros j k.
  assert (E : conductive c (fw (RB_phi xn rand))) by (apply Hf; intros q; unfold RB_phi; rewrite Hr; lra).
  rewrite E. destruct ((j =? 0) && (k =? 0))%nat eqn:Eb; [|apply rsc_zero].
  apply andb_prop in Eb. destruct Eb as (Ej & Ek). apply Nat.eqb_eq in Ej, Ek. subst j k. rewrite Hm.
  extensionality i. unfold rsc. rewrite RtoC_1. ring.
Qed.
End Start.

(** ** The three places that know the wall temperatures *)
(** The walls of the start (l.22) agree with bc=(1, 0), and the coefficients -2, -1 are those that the buoyancy
    (KMM_RB.py:81-82) and the gradient (KMMRK3_RB.py:108) take for the values at x = 1 and x = -1, exactly when shenfun
    reads bc from the lower wall and stores it from the upper wall.  With one order for both, one of the places is wrong. *)
Theorem C87_wall_order (first second_last : wall) :
  (bc_value first Upper = 0 /\ bc_value first Lower = 1) /\
  (forall (N : nat) (f : nat -> R -> R) (p : col), (2 <= N)%nat -> (forall i, f i 1 = 0 /\ f i (- 1) = 0) ->
     p (N - 2)%nat = RtoC (fst (stored first second_last)) -> p (N - 1)%nat = RtoC (snd (stored first second_last)) ->
     lifted N f p 1 = RtoC (bc_value first Upper) /\ lifted N f p (- 1) = RtoC (bc_value first Lower))
  <-> first = Lower /\ second_last = Upper.
Proof.
  assert (E : forall (N : nat) (f : nat -> R -> R) (p : col), (forall i, f i 1 = 0 /\ f i (- 1) = 0) ->
     lifted N f p 1 = p (N - 2)%nat /\ lifted N f p (- 1) = p (N - 1)%nat).
  { intros N f p Hf. unfold lifted. rewrite !Csum_0 by (intros i _; rewrite ?(proj1 (Hf i)), ?(proj2 (Hf i)), RtoC_0; ring).
    replace ((1 + 1) / 2) with 1 by lra. replace ((1 - 1) / 2) with 0 by lra.
    replace ((1 + - 1) / 2) with 0 by lra. replace ((1 - - 1) / 2) with 1 by lra. rewrite RtoC_1, RtoC_0. split; ring. }
  split.
  - intros ((A & B) & D). destruct first; cbn in A, B; [lra|]. split; [reflexivity|].
    destruct second_last; [reflexivity|]. exfalso.
    destruct (D 2%nat (fun _ _ => 0) (fun i => if (i =? 0)%nat then RtoC 1 else RtoC 0)) as (P & _);
      [lia|intros; split; reflexivity|reflexivity|reflexivity|].
    rewrite (proj1 (E 2%nat (fun _ _ => 0) _ (fun _ => conj eq_refl eq_refl))) in P. cbn in P. injection P. lra.
  - intros (-> & ->). split; [split; reflexivity|]. intros N f p HN Hf P1 P2. destruct (E N f p Hf) as (-> & ->). rewrite P1, P2. split; reflexivity.
Qed.
Corollary C87_one_order_refuted : ~ exists o, (bc_value o Upper = 0 /\ bc_value o Lower = 1) /\ stored o o = (bc_value Lower Upper, bc_value Lower Lower).
Proof. intros (o & (A & B) & D). destruct o; cbn in *; [lra|]. injection D. lra. Qed.

(** two columns, one wall at temperature 1, viscosity, diffusivity and step 1 *)
Definition ex_mats : mats := let i := fun u : col => u in mkMats i i i i i i i i i i.
Definition ex_T : col -> col := rsc 2.
Definition ex_solvers : solvers := mkSolvers
  (fun A _ _ b r i => if Req_EM_T (fst (A (fun _ => C1) 0%nat)) 2 then if Req_EM_T b 2 then if (i =? 1)%nat then C1 else r i else r i else r i)
  (fun _ _ _ _ _ _ r => r) (fun _ r => r).
Definition ex_S : col -> col := fun u i => if (i =? 0)%nat then u 0%nat else C0.
Example C87_example (n : nat) :
  let conv : vfld -> fld -> vfld := fun u w c j k i => (u c j k i * u c j k i + w j k i)%C in
  let uT : vfld -> fld -> vfld := fun u p c j k i => (u c j k i * p j k i)%C in
  let c : col := fun i => if (i =? 1)%nat then C1 else C0 in
  let p : fld := fun j k => if ((j =? 0) && (k =? 0))%nat then c else czero in
  let s := mkRB (mkK zero3 zero1 zero3 zero3 zero3 zero3) p p p zero1 zero1 in
  let s' := Nat.iter n (step_rb x0 x1 x2 INR INR INR INR true ex_mats ex_solvers 1 1 1 None conv zero3 ex_T ex_T 1 1 2 ex_S ex_S uT OutFirst) s in
  U_hat (base s') = zero3 /\ KMMRB.phi s' 0%nat 0%nat 1%nat = C1.
Proof.
  intros conv uT c p s s'.
  assert (H : at_rest (base s') /\ conductive c (KMMRB.phi s')).
  2: { destruct H as ((A & _) & B). split; [exact A|]. rewrite B. reflexivity. }
  assert (A1 : forall b r, Helmholtz ex_solvers (ADD ex_mats) (BDD ex_mats) (- 1) b r = r).
  { intros b r. extensionality i. cbn [Helmholtz ex_solvers ADD ex_mats]. cbn [fst C1]. destruct (Req_EM_T 1 2); [lra|reflexivity]. }
  assert (A2 : forall b r, Helmholtz ex_solvers (ADD0 ex_mats) (BDD0 ex_mats) (- 1) b r = r) by exact A1.
  assert (T2 : fst (ex_T (fun _ => C1) 0%nat) = 2) by (unfold ex_T, rsc, RtoC, C1, Cmul; cbn [fst snd]; lra).
  assert (B2 : 2 / 1 / 1 = 2) by field.
  apply C87_conduction.
  - split; reflexivity.
  - repeat split.
    + intros b. apply A1.
    + intros b. apply A2.
    + extensionality d. extensionality j. extensionality k. extensionality i. unfold conv, czero. ring.
  - intros q. extensionality d. extensionality j. extensionality k. extensionality i. unfold uT, czero. ring.
  - split; [|split].
    + extensionality i. unfold ex_S, czero. destruct (i =? 0)%nat; reflexivity.
    + extensionality i. unfold ex_S, czero. destruct (i =? 0)%nat; reflexivity.
    + intros j k Hjk. extensionality i. cbn [Helmholtz ex_solvers]. rewrite T2, B2. destruct (Req_EM_T 2 2) as [_|]; [|reflexivity].
      destruct (Req_EM_T (INR j * INR j + INR k * INR k + 2) 2) as [E|]; [exfalso|reflexivity].
      assert (Hj : INR j = 0) by nra. assert (Hk : INR k = 0) by nra. apply Hjk.
      rewrite (INR_eq j 0), (INR_eq k 0); [reflexivity|assumption|assumption].
  - split; [|split].
    + extensionality i. unfold ex_S, c, czero. destruct (i =? 0)%nat; reflexivity.
    + extensionality i. unfold ex_S, c, czero. destruct (i =? 0)%nat; reflexivity.
    + extensionality i. cbn [Helmholtz ex_solvers]. rewrite T2, B2. destruct (Req_EM_T 2 2) as [_|Q]; [|lra]. reflexivity.
  - repeat split.
  - intros j k. reflexivity.
  - intros j k. reflexivity.
  - intros j k. reflexivity.
Qed.
Print Assumptions C87_rest.
Print Assumptions C87_diffusion.
Print Assumptions C87_conduction.
Print Assumptions C87_onset.
Print Assumptions C87_rest_rk3.
Print Assumptions C87_conduction_rk3.
Print Assumptions C87_start_walls.
Print Assumptions C87_start.
Print Assumptions C87_start_masked.
Print Assumptions C87_start_conductive.
Print Assumptions C87_wall_order.
Print Assumptions C87_one_order_refuted.
