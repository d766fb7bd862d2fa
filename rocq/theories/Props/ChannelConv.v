(** Theorems on the vorticity and the convection forms of the channel solvers: C68, C69. *)
From Coq Require Import Reals List Bool Arith Lia Lra FunctionalExtensionality.
From Verif Require Import Base.Cplx Base.Sums Base.Fin Model.Maths Model.LU Model.KMM Model.ChannelConv
  Spec.Chebyshev Spec.Channel Spec.ChannelField Proofs.ChebyshevProofs Proofs.LUProofs Proofs.KMMProofs
  Proofs.ChannelConvProofs Props.Channel.
Open Scope R_scope.

(** ** C68: get_curl returns the curl of the velocity polynomial *)
Section Curl.
Context (N n1 n2 nsb : nat) (wt : nat -> nat -> R) (K1 K2 : nat -> R).
(** the basis of the wall normal velocity and its derivatives *)
Context (psi dpsi : nat -> R -> R).
Hypothesis Hpsi : forall i x, derivable_pt_lim (psi i) x (dpsi i x).
Hypothesis HN : (4 <= N)%nat.

(** The velocity: wall normal component cn in the basis psi, the other two in Shen's
    Dirichlet basis. *)
Definition velocity (cn c1 c2 : ax3) (u : vfld) : ax3 -> point -> R :=
  fun c => if eqb3 c cn then field cn c1 c2 n1 n2 wt K1 K2 nsb psi (u c)
           else field cn c1 c2 n1 n2 wt K1 K2 (N - 2) phi (u c).
(** g is the wall normal vorticity of u, in all modes *)
Definition g_consistent (c1 c2 : ax3) (u : vfld) (g : fld) : Prop :=
  forall j k, (j < n1)%nat -> (k < n2)%nat -> normal_vorticity (K1 j) (K2 k) (u c1 j k) (u c2 j k) (g j k).

Lemma field_g cn c1 c2 u g p : g_consistent c1 c2 u g ->
  field cn c1 c2 n1 n2 wt K1 K2 (N - 2) phi g p
  = field cn c1 c2 n1 n2 wt K1 K2 (N - 2) phi (fmul (iK1 K1) (u c2)) p
    - field cn c1 c2 n1 n2 wt K1 K2 (N - 2) phi (fmul (iK2 K2) (u c1)) p.
Proof.
  intros H. rewrite <- field_sub. apply field_ext. intros j k Hj Hk. apply Csum_ext. intros i Hi.
  rewrite <- (H j k Hj Hk i). unfold fmul, csc, iK1, iK2. reflexivity.
Qed.

Lemma psi_deriv a x : Cderiv (series nsb psi a) x (series nsb dpsi a x).
Proof. unfold series. apply (Cderiv_sum nsb a psi (fun i => dpsi i x) x). intros i _. apply Hpsi. Qed.

Lemma fmul_neg K (F : fld) : fmul (fun j k => (- K j k)%C) F = fun j k i => (- fmul K F j k i)%C.
Proof. extensionality j; extensionality k; extensionality i. unfold fmul, csc. ring. Qed.

Theorem C68_kmm_curl (F_tmp : vfld) (c : ax3 -> point -> R) (u : vfld) (g : fld) :
  g_consistent x1 x2 u g ->
  exists G, is_gradient (velocity x0 x1 x2 u) G /\
    forall d p,
      compute_curl N K1 K2
        (field x0 x1 x2 n1 n2 wt K1 K2 (N - 2) phi) (field x0 x1 x2 n1 n2 wt K1 K2 nsb psi)
        (field x0 x1 x2 n1 n2 wt K1 K2 N T) F_tmp c u g d p = curl_of G d p.
Proof.
  intros Hg.
  set (fST := field x0 x1 x2 n1 n2 wt K1 K2 (N - 2) phi).
  set (fSB := field x0 x1 x2 n1 n2 wt K1 K2 nsb psi).
  set (ctd := Mult_CTD_cols N (u x1) (u x2) (F_tmp x1) (F_tmp x2)).
  exists (fun e d => match e, d with
    | x0, x0 => field x0 x1 x2 n1 n2 wt K1 K2 nsb dpsi (u x0)
    | x0, x1 => fSB (fmul (iK1 K1) (u x0))
    | x0, x2 => fSB (fmul (iK2 K2) (u x0))
    | x1, x0 => field x0 x1 x2 n1 n2 wt K1 K2 N T (fst ctd)
    | x2, x0 => field x0 x1 x2 n1 n2 wt K1 K2 N T (snd ctd)
    | e, x1 => fST (fmul (iK1 K1) (u e))
    | e, x2 => fST (fmul (iK2 K2) (u e))
    end).
  split.
  - intros e d p. destruct e, d; unfold velocity; cbn [eqb3];
      try (apply partial_1; congruence); try (apply partial_2; congruence);
      apply partial_n; try congruence; intros j k Hj Hk.
    + apply psi_deriv.
    + apply (ctd_cols N (u x1) (u x2) (F_tmp x1) (F_tmp x2) HN j k).
    + apply (ctd_cols N (u x1) (u x2) (F_tmp x1) (F_tmp x2) HN j k).
  - intros d p. unfold compute_curl, mult_K1j, psub, padd. fold ctd. cbn [fst snd].
    destruct d; unfold upd, curl_of; cbn [F3 eqd eqb3].
    + apply field_g. exact Hg.
    + reflexivity.
    + rewrite fmul_neg. unfold fSB. rewrite field_opp. ring.
Qed.

Theorem C68_kmmr_curl (F_tmp : vfld) (c : ax3 -> point -> R) (u : vfld) (g : fld) :
  g_consistent x0 x1 u g ->
  exists G, is_gradient (velocity x2 x0 x1 u) G /\
    forall d p,
      compute_curl_r N K1 K2
        (field x2 x0 x1 n1 n2 wt K1 K2 (N - 2) phi) (field x2 x0 x1 n1 n2 wt K1 K2 nsb psi)
        (field x2 x0 x1 n1 n2 wt K1 K2 N T) F_tmp c u g d p = curl_of G d p.
Proof.
  intros Hg.
  set (fST := field x2 x0 x1 n1 n2 wt K1 K2 (N - 2) phi).
  set (fSB := field x2 x0 x1 n1 n2 wt K1 K2 nsb psi).
  set (ctd := Mult_CTD_cols N (u x0) (u x1) (F_tmp x0) (F_tmp x1)).
  exists (fun e d => match e, d with
    | x2, x2 => field x2 x0 x1 n1 n2 wt K1 K2 nsb dpsi (u x2)
    | x2, x0 => fSB (fmul (iK1 K1) (u x2))
    | x2, x1 => fSB (fmul (iK2 K2) (u x2))
    | x0, x2 => field x2 x0 x1 n1 n2 wt K1 K2 N T (fst ctd)
    | x1, x2 => field x2 x0 x1 n1 n2 wt K1 K2 N T (snd ctd)
    | e, x0 => fST (fmul (iK1 K1) (u e))
    | e, x1 => fST (fmul (iK2 K2) (u e))
    end).
  split.
  - intros e d p. destruct e, d; unfold velocity; cbn [eqb3];
      try (apply partial_1; congruence); try (apply partial_2; congruence);
      apply partial_n; try congruence; intros j k Hj Hk.
    + apply (ctd_cols N (u x0) (u x1) (F_tmp x0) (F_tmp x1) HN j k).
    + apply (ctd_cols N (u x0) (u x1) (F_tmp x0) (F_tmp x1) HN j k).
    + apply psi_deriv.
  - intros d p. unfold compute_curl_r, psub, padd. fold ctd. cbn [fst snd].
    destruct d; unfold upd, curl_of; cbn [F3 eqd eqb3].
    + reflexivity.
    + replace (fmul (fun _ _ => (- C1)%C) (fmul (iK1 K1) (u x2)))
        with (fun j k i => (- fmul (iK1 K1) (u x2) j k i)%C).
      * unfold fSB. rewrite field_opp. ring.
      * extensionality j; extensionality k; extensionality i. unfold fmul, csc. ring.
    + apply field_g. exact Hg.
Qed.
End Curl.

(** The state of the solvers: g is the wall normal vorticity of U_hat after every step, mode (0,0)
    included, if g starts with a zero mean mode (every demo sets g from U_hat or to zero). *)
Section States.
Context (cn c1 c2 : ax3).
Hypothesis Hn1 : cn <> c1.
Hypothesis Hn2 : cn <> c2.
Hypothesis H12 : c1 <> c2.
Context (K1 K2 Kx1 Kx2 : nat -> R) (root : bool) (mt : mats) (sv : solvers).
Context (nu dt : R) (mask : option (nat -> nat -> R)) (conv : vfld -> fld -> vfld) (Sk : vfld).
Context (nd n1 n2 : nat).
Hypothesis Hz : zero_mode_on_root n1 n2 root K1 K2.
Hypothesis Hx : forall j k, (j < n1)%nat -> (k < n2)%nat -> K1 j = 0 -> K2 k = 0 -> Kx1 j = 0 /\ Kx2 k = 0.
Hypothesis HADD : linear (ADD mt).
Hypothesis HBDD : linear (BDD mt).
Hypothesis HCDB : linear (CDB mt).
Hypothesis HT : solves nd (BDD mt) (TDMA sv (BDD mt)).
Hypothesis HG : forall j k, (j < n1)%nat -> (k < n2)%nat ->
  solves nd (comb2 (- 1) (ADD mt) (K1 j * K1 j + K2 k * K2 k + 2 / nu / dt) (BDD mt))
    (Helmholtz sv (ADD mt) (BDD mt) (- 1) (K1 j * K1 j + K2 k * K2 k + 2 / nu / dt)).
Notation step' := (step cn c1 c2 K1 K2 Kx1 Kx2 root mt sv nu dt mask conv Sk).

Definition g_mean_zero (g : fld) : Prop :=
  forall j k, (j < n1)%nat -> (k < n2)%nat -> K1 j = 0 -> K2 k = 0 -> forall i, g j k i = C0.

Lemma step_g_mean (s : kst) : g_mean_zero (g s) -> g_mean_zero (g (step' s)).
Proof.
  intros H j k Hj Hk E1 E2 i. unfold step, end_of_tstep, integrate, ComputeRHS, solve_linear.
  cbv zeta. cbn [g snd add_linear]. unfold HelmholtzSolverG, Ksq.
  destruct (HG j k Hj Hk) as (_ & _ & U3).
  change C0 with (czero i). apply U3.
  - intros l _. reflexivity.
  - intros l _. destruct (Hx j k Hj Hk E1 E2) as (X1 & X2).
    unfold AB, HelmholtzCoeff, hg_of, cadd, csub, csc, rsc, comb2.
    replace (g s j k) with czero by (extensionality m; symmetry; apply H; assumption).
    rewrite !(lin_0 _ HADD), !(lin_0 _ HBDD). rewrite X1, X2, RtoC_0. ring.
Qed.

Theorem C68_g_is_vorticity (s : kst) (n : nat) :
  g_mean_zero (g s) -> (0 < n)%nat ->
  let s' := Nat.iter n step' s in g_consistent n1 n2 K1 K2 c1 c2 (U_hat s') (g s').
Proof.
  intros H Hn. destruct n as [|n]; [lia|]. cbn [Nat.iter nat_rect]. set (t := Nat.iter n step' s).
  assert (G : g_mean_zero (g t)).
  { unfold t. clear Hn t. induction n as [|n IH]; [exact H|]. cbn [Nat.iter nat_rect]. apply step_g_mean, IH. }
  intros j k Hj Hk.
  pose proof (kmm_continuity cn c1 c2 Hn1 Hn2 H12 K1 K2 Kx1 Kx2 root mt sv nu dt mask conv Sk nd n1 n2 t
                Hz HBDD HCDB HT j k Hj Hk) as (_ & V & _).
  destruct (Req_dec (K1 j) 0) as [E1|E1]; [destruct (Req_dec (K2 k) 0) as [E2|E2]|].
  - intros i. transitivity C0; [rewrite E1, E2, RtoC_0; ring|].
    symmetry. exact (step_g_mean t G j k Hj Hk E1 E2 i).
  - apply V. tauto.
  - apply V. tauto.
Qed.
End States.

(** ** C69: the convection forms *)
Section Forms.
Context (n1 n2 : nat) (wt : nat -> nat -> R) (K1 K2 : nat -> R).
(** component c of VFSp: nb c functions b c *)
Context (nb : ax3 -> nat) (b : ax3 -> nat -> R -> R).
Context (fST : (point -> R) -> fld) (dxU : ax3 -> fld -> point -> R) (dxdiv : ax3 -> fld -> fld).
Definition bU (c : ax3) : fld -> point -> R := field x0 x1 x2 n1 n2 wt K1 K2 (nb c) (b c).
(** project(Dx(u_c, 0, 1), S).backward() is the wall normal derivative: the derivative of a
    function of the space of component c lies in S (degree one less; for the wall normal component
    it vanishes at the walls, as does its derivative). *)
Hypothesis HdxU : forall c F p, is_partial x0 (bU c F) p (dxU c F p).
Notation conv f := (getConvection K1 K2 fST bU bU dxU dxdiv f).

Definition gradU (u : vfld) (c d : ax3) : point -> R :=
  match d with
  | x0 => dxU c (u c)
  | x1 => bU c (fmul (iK1 K1) (u c))
  | x2 => bU c (fmul (iK2 K2) (u c))
  end.
Lemma gradU_gradient u : is_gradient (vback bU u) (gradU u).
Proof.
  intros c d p. unfold vback. destruct d; unfold gradU.
  - apply HdxU.
  - unfold bU. apply partial_1; congruence.
  - unfold bU. apply partial_2; congruence.
Qed.

Lemma m1 : RtoC (- 1) = (- C1)%C.
Proof. apply C_eq; simpl; ring. Qed.
Lemma vscale_at a F c : vscale a F c = fun j k => rsc a (F c j k).
Proof. reflexivity. Qed.

Definition neg (F : fld) : fld := fun j k i => (- F j k i)%C.
Definition product (u : vfld) (d c : ax3) : point -> R := fun p => vback bU u d p * vback bU u c p.
Definition minus_div (u : vfld) (c : ax3) : fld := fun j k i =>
  (- (dxdiv c (fST (product u x0 c)) j k i
      + Ci * RtoC (K1 j) * fST (product u x1 c) j k i
      + Ci * RtoC (K2 k) * fST (product u x2 c) j k i))%C.

Lemma pmul_comm (f h : point -> R) : (fun p => f p * h p) = (fun p => h p * f p).
Proof. extensionality p. ring. Qed.

(** Standard: minus the transform of (u . grad) u;  Divergence: minus the derivatives of the
    transforms of u_d u_c;  Skew: their mean.  The rhs array handed in does not matter, nor does
    g; there is no other form. *)
Theorem C69_channel_convection (u : vfld) (g : fld) (curl : vfld -> fld -> ax3 -> point -> R) (Uc : ax3 -> point -> R) :
  exists G, is_gradient (vback bU u) G /\
  (exists cv, conv Standard curl Uc = Some cv /\
     forall rhs c j k i, cv rhs u g c j k i = (- fST (advection (vback bU u) G c) j k i)%C) /\
  (exists cv, conv Divergence curl Uc = Some cv /\
     forall rhs c j k i, cv rhs u g c j k i = minus_div u c j k i) /\
  (exists cv, conv Skew curl Uc = Some cv /\
     forall rhs c j k i, cv rhs u g c j k i =
       (RtoC (/ 2) * (- fST (advection (vback bU u) G c) j k i + minus_div u c j k i))%C) /\
  (exists cv, conv Vortex curl Uc = Some cv /\
     forall rhs c j k i, cv rhs u g c j k i = fST (cross_of (vback bU u) (curl u g) c) j k i) /\
  conv OtherForm curl Uc = None.
Proof.
  exists (gradU u). split; [apply gradU_gradient|].
  assert (S : forall rhs c, standardConvection K1 K2 fST bU dxU rhs (vback bU u) u c
                = fST (advection (vback bU u) (gradU u) c)).
  { intros rhs c. destruct c; reflexivity. }
  assert (D : forall add rhs c j k i, divergenceConvection K1 K2 fST dxdiv add rhs (vback bU u) c j k i
                = ((if add then rhs c j k i else C0) - minus_div u c j k i)%C).
  { intros add rhs c j k i. unfold minus_div.
    assert (E : forall d c, pmul (vback bU u d) (vback bU u c) = product u d c) by reflexivity.
    assert (E' : forall d c, product u d c = product u c d)
      by (intros; extensionality p; unfold product; ring).
    unfold divergenceConvection. rewrite !E.
    destruct c; unfold upd; cbn [F3 eqd eqb3]; unfold fadd, fmul, cadd, csc, iK1, iK2; rewrite ?E.
    - rewrite (E' x1 x0), (E' x2 x0). destruct add; unfold czero; ring.
    - rewrite (E' x2 x1). destruct add; unfold czero; ring.
    - destruct add; unfold czero; ring. }
  repeat split.
  - eexists. split; [reflexivity|]. intros rhs c j k i. cbv beta zeta. rewrite vscale_at. unfold rsc.
    rewrite S, m1. ring.
  - eexists. split; [reflexivity|]. intros rhs c j k i. cbv beta zeta. rewrite vscale_at. unfold rsc.
    rewrite D, m1. ring.
  - eexists. split; [reflexivity|]. intros rhs c j k i. cbv beta zeta. rewrite vscale_at. unfold rsc.
    rewrite D, S. apply C_eq; simpl; field.
  - eexists. split; [reflexivity|]. intros rhs c j k i. cbv beta zeta. destruct c; reflexivity.
Qed.
End Forms.

(** The Vortex form of KMM is the Standard form plus the gradient of the kinetic energy. *)
Theorem C69_kmm_vortex_is_advection (N n1 n2 nsb : nat) (wt : nat -> nat -> R) (K1 K2 : nat -> R)
    (psi dpsi : nat -> R -> R) (F_tmp : vfld) (c0 : ax3 -> point -> R) (u : vfld) (g : fld) :
  (forall i x, derivable_pt_lim (psi i) x (dpsi i x)) -> (4 <= N)%nat ->
  g_consistent n1 n2 K1 K2 x1 x2 u g ->
  let v := velocity N n1 n2 nsb wt K1 K2 psi x0 x1 x2 u in
  let w := compute_curl N K1 K2
        (field x0 x1 x2 n1 n2 wt K1 K2 (N - 2) phi) (field x0 x1 x2 n1 n2 wt K1 K2 nsb psi)
        (field x0 x1 x2 n1 n2 wt K1 K2 N T) F_tmp c0 u g in
  exists G e, is_gradient v G /\ (forall c p, is_partial c (kinetic v) p (e c p)) /\
    forall c p, cross_of v w c p = - advection v G c p + e c p.
Proof.
  intros Hpsi HN Hg v w.
  destruct (C68_kmm_curl N n1 n2 nsb wt K1 K2 psi dpsi Hpsi HN F_tmp c0 u g Hg) as (G & HG & Hw).
  exists G, (fun c p => v x0 p * G x0 c p + v x1 p * G x1 c p + v x2 p * G x2 c p).
  split; [exact HG|]. split.
  - intros c p. unfold is_partial, kinetic.
    assert (Q : forall d, derivable_pt_lim (fun s => v d (move p c s) * v d (move p c s)) (p c) (2 * (v d p * G d c p))).
    { intros d. pose proof (HG d c p) as D. unfold is_partial in D.
      assert (M : move p c (p c) = p).
      { extensionality e. unfold move. destruct (eqb3 e c) eqn:E; [|reflexivity].
        apply eqb3_spec in E. subst. reflexivity. }
      pose proof (derivable_pt_lim_mult _ _ _ _ _ D D) as M2. cbv beta in M2.
      eapply dlim_ext; [|eapply dlim_val; [|exact M2]].
      - reflexivity.
      - fold v. rewrite M. ring. }
    eapply dlim_ext; [|eapply dlim_val; [|apply (dlim_scal (/ 2)
       (fun s => v x0 (move p c s) * v x0 (move p c s) + v x1 (move p c s) * v x1 (move p c s)
                 + v x2 (move p c s) * v x2 (move p c s)))]].
    + intros s. simpl. unfold Rdiv. ring.
    + instantiate (1 := 2 * (v x0 p * G x0 c p) + 2 * (v x1 p * G x1 c p) + 2 * (v x2 p * G x2 c p)).
      cbv beta. lra.
    + apply (derivable_pt_lim_plus (fun s => v x0 (move p c s) * v x0 (move p c s) + v x1 (move p c s) * v x1 (move p c s))
               (fun s => v x2 (move p c s) * v x2 (move p c s))); [|apply Q].
      apply (derivable_pt_lim_plus (fun s => v x0 (move p c s) * v x0 (move p c s))
               (fun s => v x1 (move p c s) * v x1 (move p c s))); apply Q.
  - intros c p. unfold cross_of, advection. destruct c; rewrite !Hw; unfold curl_of; ring.
Qed.

(** ** The divergence form: bases *)
Section Bases.
Context (N n1 n2 nsb : nat) (wt : nat -> nat -> R) (K1 K2 : nat -> R) (nb : ax3 -> nat) (b : ax3 -> nat -> R -> R).
Context (fST : (point -> R) -> fld) (dxU : ax3 -> fld -> point -> R) (dxdiv : ax3 -> fld -> fld).
Hypothesis HdxU : forall c F p, is_partial x0 (bU n1 n2 wt K1 K2 nb b c F) p (dxU c F p).
Notation bU' := (bU n1 n2 wt K1 K2 nb b).
Notation prod u := (product n1 n2 wt K1 K2 nb b u).

(** project(Dx(F, 0, 1), S) for a Function F of the space S with n functions bs *)
Definition projects_derivative (n : nat) (bs : nat -> R -> R) (P : fld -> fld) : Prop :=
  forall F j k f, is_derivative (series n bs (F j k)) f -> is_projection n bs f (P F j k).

(** Coupled and CoupledRK3, where every component of VFSp is FSTp: the divergence form is minus
    the sum of the wall normal derivative, projected on the Dirichlet space, and the tangential
    derivatives of the transformed products. *)
Theorem C69_coupled_divergence (u : vfld) g curl Uc :
  (forall c, projects_derivative (N - 2) phi (dxdiv c)) ->
  exists cv, getConvection K1 K2 fST bU' bU' dxU dxdiv Divergence curl Uc = Some cv /\
  forall rhs c j k f, is_derivative (series (N - 2) phi (fST (prod u x0 c) j k)) f ->
  exists r, is_projection (N - 2) phi f r /\
    forall i, cv rhs u g c j k i =
      (- (r i + Ci * RtoC (K1 j) * fST (prod u x1 c) j k i + Ci * RtoC (K2 k) * fST (prod u x2 c) j k i))%C.
Proof.
  intros HP. destruct (C69_channel_convection n1 n2 wt K1 K2 nb b fST dxU dxdiv HdxU u g curl Uc)
    as (G & _ & _ & (cv & E & Hcv) & _).
  exists cv. split; [exact E|]. intros rhs c j k f Hf.
  exists (dxdiv c (fST (prod u x0 c)) j k). split; [apply (HP c (fST (prod u x0 c)) j k f Hf)|].
  intros i. rewrite Hcv. reflexivity.
Qed.

(** KMM, where component 0 of VFSp is the biharmonic space FSBp with nsb = N - 4 functions psi but
    F_tmp[0] holds Dirichlet coefficients (KMM.py:330-337): whenever the derivative of u0*u0 has a
    nonzero Dirichlet coefficient beyond the first N - 4, the wall normal component of the
    Divergence form differs from the divergence form. *)
Theorem C69_kmm_divergence_refuted (u : vfld) g curl Uc (psi : nat -> R -> R) f r j k i :
  nsb = (N - 4)%nat ->
  (exists h, is_derivative (series nsb psi (fST (prod u x0 x0) j k)) h /\
     is_projection nsb psi h (dxdiv x0 (fST (prod u x0 x0)) j k)) ->
  is_derivative (series (N - 2) phi (fST (prod u x0 x0) j k)) f -> is_projection (N - 2) phi f r ->
  (N - 4 <= i)%nat -> r i <> C0 ->
  exists cv, getConvection K1 K2 fST bU' bU' dxU dxdiv Divergence curl Uc = Some cv /\
    forall rhs, cv rhs u g x0 j k i <>
      (- (r i + Ci * RtoC (K1 j) * fST (prod u x1 x0) j k i + Ci * RtoC (K2 k) * fST (prod u x2 x0) j k i))%C.
Proof.
  intros Hn (h & _ & Hs & _) Hf Hr Hi Hne.
  destruct (C69_channel_convection n1 n2 wt K1 K2 nb b fST dxU dxdiv HdxU u g curl Uc)
    as (G & _ & _ & (cv & E & Hcv) & _).
  exists cv. split; [exact E|]. intros rhs H. rewrite Hcv in H. unfold minus_div in H.
  rewrite (Hs i ltac:(lia)) in H. apply Hne.
  set (z := (Ci * RtoC (K1 j) * fST (prod u x1 x0) j k i)%C) in H.
  set (y := (Ci * RtoC (K2 k) * fST (prod u x2 x0) j k i)%C) in H.
  transitivity (- - (r i + z + y) - z - y)%C; [ring|]. rewrite <- H. ring.
Qed.
End Bases.

(** N = 6 and u0*u0 = T_0 - T_2: the derivative is - 4 T_1, its Dirichlet coefficients are
    0, -8/3, 0, -4/3, and the last one is beyond N - 4 = 2. *)
Definition ex_a : column := fun i => if (i =? 0)%nat then C1 else C0.
Definition ex_r : column := fun i => match i with 1%nat => RtoC (- (8 / 3)) | 3%nat => RtoC (- (4 / 3)) | _ => C0 end.
Example kmm_divergence_case :
  is_derivative (series (6 - 2) phi ex_a) (fun x => RtoC (- (4 * x))) /\
  is_projection (6 - 2) phi (fun x => RtoC (- (4 * x))) ex_r /\ ex_r 3%nat <> C0.
Proof.
  split; [|split].
  - intros x. split.
    + apply (dlim_ext (fun y => 2 - 2 * (y * y))).
      * intros y. unfold series, phi, ex_a. simpl. unfold T; simpl. ring.
      * simpl. apply (dlim_val _ _ (0 - 2 * (1 * x + x * 1))); [ring|].
        apply (derivable_pt_lim_minus (fun _ => 2) (fun y => 2 * (y * y))); [apply derivable_pt_lim_const|].
        apply dlim_scal. apply (derivable_pt_lim_mult (fun y => y) (fun y => y)); apply derivable_pt_lim_id.
    + apply (dlim_ext (fun y => 0)); [intros y; unfold series, phi, ex_a; simpl; ring|].
      simpl. apply derivable_pt_lim_const.
  - split.
    + intros i Hi. do 4 (destruct i as [|i]; [simpl in Hi; lia|]). reflexivity.
    + intros i Hi.
      set (q := fun x => - (4 / 3) * (T 1 x + T 3 x + T 5 x)).
      assert (E : forall x, (RtoC (- (4 * x)) - Csum (6 - 2) (fun l => ex_r l * RtoC (phi l x)))%C = RtoC (q x)).
      { intros x. unfold q, ex_r, phi. apply C_eq; simpl; unfold T; simpl; field. }
      split; (eapply wint_ext; [intros x; rewrite E; simpl; reflexivity|]).
      * apply (wint_ext (fun x => - (4 / 3) * (T 1 x * T i x) + - (4 / 3) * (T 3 x * T i x) + - (4 / 3) * (T 5 x * T i x)
                 + (4 / 3) * (T 1 x * T (i + 2) x) + (4 / 3) * (T 3 x * T (i + 2) x) + (4 / 3) * (T 5 x * T (i + 2) x))).
        { intros x. unfold q, phi. ring. }
        replace (fst C0) with
          (- (4 / 3) * (if (1 =? i)%nat then cw 1 else 0) + - (4 / 3) * (if (3 =? i)%nat then cw 3 else 0)
           + - (4 / 3) * (if (5 =? i)%nat then cw 5 else 0) + (4 / 3) * (if (1 =? i + 2)%nat then cw 1 else 0)
           + (4 / 3) * (if (3 =? i + 2)%nat then cw 3 else 0) + (4 / 3) * (if (5 =? i + 2)%nat then cw 5 else 0)).
        { repeat apply wint_add; apply wint_scal, wint_TT. }
        destruct i as [|[|[|[|i]]]]; [..|simpl in Hi; lia]; unfold cw; simpl; lra.
      * apply (wint_ext (fun _ => 0)); [intros x; ring|]. apply wint_zero.
  - unfold ex_r, RtoC, C0. intros H. injection H. lra.
Qed.

(** ** Names missing from the compiled module *)
(** compute_derivatives of KMM and KMMr, and the Standard and Skew forms of KMMr, always raise
    AttributeError. *)
Theorem C69_compute_derivatives_refuted X N K1 K2 (bST bSB bCT : fld -> X -> R) cdb F_tmp u :
  compute_derivatives N K1 K2 bST bSB bCT cdb F_tmp u = AttributeError.
Proof. reflexivity. Qed.
Theorem C69_kmmr_standard_refuted N rest F_tmp u : standardConvection_r N rest F_tmp u = AttributeError.
Proof. reflexivity. Qed.

(** ** Examples *)
(** One nonzero mode with K1 = 1, K2 = 2; u1 = phi_0, u2 = 0, g = - 2i phi_0. *)
Definition ex_K1 (_ : nat) : R := 1.
Definition ex_K2 (_ : nat) : R := 2.
Definition ex_u : vfld := fun c _ _ => match c with x1 => ex_a | _ => czero end.
Definition ex_g : fld := fun _ _ i => (- (Ci * RtoC 2 * ex_a i))%C.
Example curl_case :
  g_consistent 1 1 ex_K1 ex_K2 x1 x2 ex_u ex_g /\
  (forall i x, derivable_pt_lim (T i) x (INR i * Um i x)) /\ ex_g 0%nat 0%nat 0%nat <> C0.
Proof.
  split; [|split].
  - intros j k Hj Hk i. unfold ex_g, ex_u, ex_K1, ex_K2, czero. ring.
  - intros i x. apply dT.
  - unfold ex_g, ex_a. simpl. intros H. injection H. intros. lra.
Qed.

(** four Chebyshev points: the projected derivative of a_0 phi_0 + a_1 phi_1 is
    (2/3) a_1 phi_0 - 2 a_0 phi_1 *)
Definition ex_dx : fld -> fld := fun F j k i =>
  match i with
  | 0%nat => (RtoC (2 / 3) * F j k 1%nat)%C
  | 1%nat => (RtoC (- (2)) * F j k 0%nat)%C
  | _ => C0
  end.
Example coupled_case : projects_derivative (4 - 2) phi ex_dx.
Proof.
  intros F j k f Hf.
  assert (U : forall x, f x = (F j k 0%nat * RtoC (- (4 * x)) + F j k 1%nat * RtoC (4 - 12 * (x * x)))%C).
  { intros x. pose proof (Hf x) as (D1 & D2).
    assert (E : forall (a b : R), derivable_pt_lim
        (fun y => a * (2 - 2 * (y * y)) + b * (4 * y - 4 * (y * (y * y)))) x
        (a * (0 - 2 * (1 * x + x * 1)) + b * (4 * 1 - 4 * (1 * (x * x) + x * (1 * x + x * 1))))).
    { intros a b0.
      assert (I : derivable_pt_lim (fun y => y) x 1) by apply derivable_pt_lim_id.
      assert (Q : derivable_pt_lim (fun y => y * y) x (1 * x + x * 1))
        by apply (derivable_pt_lim_mult (fun y => y) (fun y => y) x 1 1 I I).
      assert (Q3 : derivable_pt_lim (fun y => y * (y * y)) x (1 * (x * x) + x * (1 * x + x * 1)))
        by apply (derivable_pt_lim_mult (fun y => y) (fun y => y * y) x _ _ I Q).
      apply (derivable_pt_lim_plus (fun y => a * (2 - 2 * (y * y))) (fun y => b0 * (4 * y - 4 * (y * (y * y))))).
      - apply dlim_scal. apply (derivable_pt_lim_minus (fun _ => 2) (fun y => 2 * (y * y)));
          [apply derivable_pt_lim_const|apply dlim_scal, Q].
      - apply dlim_scal. apply (derivable_pt_lim_minus (fun y => 4 * y) (fun y => 4 * (y * (y * y))));
          apply dlim_scal; assumption. }
    apply C_eq.
    - eapply uniqueness_limite; [exact D1|].
      eapply dlim_ext; [|eapply dlim_val; [|apply (E (fst (F j k 0%nat)) (fst (F j k 1%nat)))]].
      + intros y. unfold series, phi. simpl. unfold T; simpl. ring.
      + simpl. ring.
    - eapply uniqueness_limite; [exact D2|].
      eapply dlim_ext; [|eapply dlim_val; [|apply (E (snd (F j k 0%nat)) (snd (F j k 1%nat)))]].
      + intros y. unfold series, phi. simpl. unfold T; simpl. ring.
      + simpl. ring. }
  assert (W : forall a b i, (i < 2)%nat -> wint (fun x =>
     (a * (- (4 * x)) + b * (4 - 12 * (x * x)) - (2 / 3 * b * phi 0 x + - (2) * a * phi 1 x)) * phi i x) 0).
  { intros a b i Hi.
    apply (wint_ext (fun x =>
        (- 2 * a) * (T 1 x * T i x) + (- 2 * a) * (T 3 x * T i x)
        + (- (8 / 3) * b) * (T 0 x * T i x) + (- (16 / 3) * b) * (T 2 x * T i x)
        + (2 * a) * (T 1 x * T (i + 2) x) + (2 * a) * (T 3 x * T (i + 2) x)
        + (8 / 3 * b) * (T 0 x * T (i + 2) x) + (16 / 3 * b) * (T 2 x * T (i + 2) x))).
    { intros x. unfold phi. set (A := T i x). set (B := T (i + 2) x).
      unfold T; simpl. field. }
    replace 0 with
        ((- 2 * a) * (if (1 =? i)%nat then cw 1 else 0) + (- 2 * a) * (if (3 =? i)%nat then cw 3 else 0)
        + (- (8 / 3) * b) * (if (0 =? i)%nat then cw 0 else 0) + (- (16 / 3) * b) * (if (2 =? i)%nat then cw 2 else 0)
        + (2 * a) * (if (1 =? i + 2)%nat then cw 1 else 0) + (2 * a) * (if (3 =? i + 2)%nat then cw 3 else 0)
        + (8 / 3 * b) * (if (0 =? i + 2)%nat then cw 0 else 0) + (16 / 3 * b) * (if (2 =? i + 2)%nat then cw 2 else 0)).
    { repeat apply wint_add; apply wint_scal, wint_TT. }
    destruct i as [|[|i]]; [..|lia]; unfold cw; simpl; field. }
  split.
  - intros i Hi. do 2 (destruct i as [|i]; [simpl in Hi; lia|]). reflexivity.
  - intros i Hi. split; (eapply wint_ext; [intros x; rewrite U; reflexivity|]).
    + eapply wint_ext; [|apply (W (fst (F j k 0%nat)) (fst (F j k 1%nat)) i Hi)].
      intros x. simpl. ring.
    + eapply wint_ext; [|apply (W (snd (F j k 0%nat)) (snd (F j k 1%nat)) i Hi)].
      intros x. simpl. ring.
Qed.

(** wall normal derivative of the tangential components *)
Example dxU_case (F : fld) p :
  is_partial x0 (bU 1 1 (fun _ _ => 1) ex_K1 ex_K2 (fun _ => 4%nat) (fun _ => T) x1 F) p
    (field x0 x1 x2 1 1 (fun _ _ => 1) ex_K1 ex_K2 4 (fun i x => INR i * Um i x) F p).
Proof.
  unfold bU. apply partial_n; try congruence. intros j k _ _. unfold series.
  apply (Cderiv_sum 4 (F j k) T (fun i => INR i * Um i (p x0)) (p x0)). intros i _. apply dT.
Qed.

Print Assumptions C68_kmm_curl.
Print Assumptions C68_kmmr_curl.
Print Assumptions C68_g_is_vorticity.
Print Assumptions C69_channel_convection.
Print Assumptions C69_kmm_vortex_is_advection.
Print Assumptions C69_coupled_divergence.
Print Assumptions C69_kmm_divergence_refuted.
Print Assumptions C69_compute_derivatives_refuted.
Print Assumptions C69_kmmr_standard_refuted.
