(** Theorems on the start of the channel demos (C79) and their reference solutions (C80). *)
From Coq Require Import Reals List Bool Arith Lia Lra String ZArith FunctionalExtensionality.
From Verif Require Import Base.Cplx Base.Sums Base.Fin Model.KMM Model.ChannelDemo Model.ChannelInit Model.Config Model.Dx
  Spec.Channel Spec.Energy Spec.TaylorGreen Spec.Quadrature Proofs.KMMProofs Proofs.TaylorGreenProofs Proofs.InitFieldsProofs Proofs.QuadratureProofs Proofs.RoundTrip2 Props.InitFields Props.Quadrature Props.Channel Props.ChannelSteady.
Open Scope R_scope.

Lemma RtoC_integral r z : (RtoC r * z)%C = C0 -> r = 0 \/ z = C0.
Proof.
  intros H. destruct (Req_dec r 0) as [E|E]; [left; exact E|right].
  apply (f_equal (Cmul (RtoC (/ r)))) in H.
  replace (RtoC (/ r) * (RtoC r * z))%C with z in H; [rewrite H; ring|].
  apply C_eq; unfold RtoC, Cmul; cbn [fst snd]; field; exact E.
Qed.

(** ** MKM.py *)
Section MKM.
Context (N : ax2 -> nat) (tr : nat * nat -> R) (HN : forall i, (0 < N i)%nat) (Ho : only_modes (modes2 N) tr).
Context (fS bS : col -> col) (HfS : linear fS) (HbS : linear bS).
(** scaled wavenumbers of a box with sides L1, L2 *)
Context (L1 L2 : R).
Definition K1 (j : nat) : R := 2 * PI / L1 * IZR (freq (N a0) j).
Definition K2 (k : nat) : R := 2 * PI / L2 * INR k.
Context (X0 X1 X2 : nat -> R).
Notation fwd' := (fwd N tr fS).
Notation velocity := (MKM_velocity N tr fS bS).
Notation field := (MKM_field X0 X1 X2).

(** no slip: the field vanishes at a wall, for any random numbers *)
Theorem C79_MKM_noslip p dev ya za U c i x : X0 i = 1 \/ X0 i = - 1 -> field p dev ya za U c i x = 0.
Proof.
  intros H. assert (Y : Ydist (X0 i) = 0).
  { unfold Ydist. destruct H as [-> | ->]; destruct (Rlt_dec _ _); lra. }
  unfold MKM_field. cbv zeta. destruct c; unfold upd; cbn [F3 eqd eqb3]; [reflexivity|rewrite Y..];
  unfold Rdiv; ring.
Qed.

Lemma fwd_zero_mode (p : parr) j k :
  (forall i, (rfft2 N N tr (p i) (j, k) = C0)) -> forall i, fwd' p j k i = C0.
Proof.
  intros H i. unfold fwd. replace (fun i => rfft2 N N tr (p i) (j, k)) with czero; [apply (lin_0 _ HfS)|].
  extensionality l. symmetry. apply H.
Qed.
(** a transformed field of (x, z) only has modes with K1 = 0 only *)
Definition no_y (f : fld) : Prop := forall j k i, (freq (N a0) j <> 0)%Z -> f j k i = C0.
Definition no_z (f : fld) : Prop := forall j k i, (k <> 0)%nat -> f j k i = C0.
Lemma fwd_no_y p : (forall i a a' b, (a < N a0)%nat -> (a' < N a0)%nat -> (b < N a1)%nat -> p i (a, b) = p i (a', b)) -> no_y (fwd' p).
Proof.
  intros H j k i Hj. apply fwd_zero_mode. intros l.
  pose proof (only_second N tr HN (p l) (fun b => p l (0%nat, b)) (j, k) Ho
    (fun a b Ha Hb => H l a 0%nat b Ha (HN a0) Hb)) as E.
  cbn [wavenumber2 fst] in E. destruct (RtoC_integral _ _ E) as [E'|E']; [|exact E'].
  exfalso. apply Hj. apply eq_IZR. exact E'.
Qed.
Lemma fwd_no_z p : (forall i a b b', (a < N a0)%nat -> (b < N a1)%nat -> (b' < N a1)%nat -> p i (a, b) = p i (a, b')) -> no_z (fwd' p).
Proof.
  intros H j k i Hj. apply fwd_zero_mode. intros l.
  pose proof (only_first N tr HN (p l) (fun a => p l (a, 0%nat)) (j, k) Ho
    (fun a b Ha Hb => H l a b 0%nat Ha Hb (HN a1))) as E.
  cbn [wavenumber2 snd] in E. destruct (RtoC_integral _ _ E) as [E'|E']; [|exact E'].
  exfalso. apply Hj. apply INR_eq. exact E'.
Qed.
Lemma bS_zero (f : col) : (forall i, f i = C0) -> forall i, bS f i = C0.
Proof. intros H i. replace f with czero by (extensionality l; symmetry; apply H). apply (lin_0 _ HbS). Qed.
Lemma bwd_no_y f : no_y f -> forall i a a' b, bwd N tr bS f i (a, b) = bwd N tr bS f i (a', b).
Proof.
  intros H i a a' b. unfold bwd, irfft2. apply RsumL_ext. intros [j k] _. cbn [fst snd].
  destruct (Z.eq_dec (freq (N a0) j) 0) as [E|E].
  - f_equal. f_equal. f_equal. unfold wave2, wavenumber2, mesh2. cbn [fst snd]. rewrite E. f_equal. ring.
  - rewrite (bS_zero (f j k)) by (intros; apply H; exact E). f_equal. f_equal. ring.
Qed.
Lemma bwd_no_z f : no_z f -> forall i a b b', bwd N tr bS f i (a, b) = bwd N tr bS f i (a, b').
Proof.
  intros H i a b b'. unfold bwd, irfft2. apply RsumL_ext. intros [j k] _. cbn [fst snd].
  destruct (Nat.eq_dec k 0) as [E|E].
  - f_equal. f_equal. f_equal. unfold wave2, wavenumber2, mesh2. cbn [fst snd]. rewrite E. f_equal. cbn [INR]. ring.
  - rewrite (bS_zero (f j k)) by (intros; apply H; exact E). f_equal. f_equal. ring.
Qed.

Lemma mask_no_y m f c : no_y (f c) -> no_y (mask_vfld m f c).
Proof. intros H j k i Hj. unfold mask_vfld. destruct m; unfold rsc; rewrite (H j k i Hj); [ring|reflexivity]. Qed.
Lemma mask_no_z m f c : no_z (f c) -> no_z (mask_vfld m f c).
Proof. intros H j k i Hj. unfold mask_vfld. destruct m; unfold rsc; rewrite (H j k i Hj); [ring|reflexivity]. Qed.
Lemma velocity_no_y m U : (forall i a a' b, (a < N a0)%nat -> (a' < N a0)%nat -> (b < N a1)%nat -> U x1 i (a, b) = U x1 i (a', b)) ->
  no_y (velocity m U x1).
Proof.
  intros H. unfold MKM_velocity, fwdV at 1. apply fwd_no_y. intros i a a' b _ _ _. unfold bwdV. apply bwd_no_y.
  apply mask_no_y. unfold fwdV. apply fwd_no_y. exact H.
Qed.
Lemma velocity_no_z m U : (forall i a b b', (a < N a0)%nat -> (b < N a1)%nat -> (b' < N a1)%nat -> U x2 i (a, b) = U x2 i (a, b')) ->
  no_z (velocity m U x2).
Proof.
  intros H. unfold MKM_velocity, fwdV at 1. apply fwd_no_z. intros i a b b' _ _ _. unfold bwdV. apply bwd_no_z.
  apply mask_no_z. unfold fwdV. apply fwd_no_z. exact H.
Qed.
Lemma rfft2_zero k : rfft2 N N tr (fun _ => 0) k = C0.
Proof. unfold rfft2. rewrite CsumL_0; [ring|]. intros. rewrite RtoC_0. ring. Qed.
Lemma bwd_zero f i x : (forall j k i, f j k i = C0) -> bwd N tr bS f i x = 0.
Proof.
  intros H. unfold bwd, irfft2. transitivity (RsumL (modes2 N) (fun _ => 0)).
  - apply RsumL_ext. intros [j k] _. cbn [fst snd]. rewrite (bS_zero (f j k)) by (intros; apply H).
    match goal with |- context [Re ?z] => replace (Re z) with 0 by (unfold Re, Cmul; cbn [C0 fst snd]; ring) end. ring.
  - generalize (modes2 N). intros l. induction l as [|a l IH]; [reflexivity|]. unfold RsumL in *. cbn [fold_right]. rewrite IH. lra.
Qed.
Lemma velocity_zero m U c : (forall i x, U c i x = 0) -> forall j k i, velocity m U c j k i = C0.
Proof.
  intros H j k i. unfold MKM_velocity, fwdV at 1. apply fwd_zero_mode. intros l.
  replace (bwdV N tr bS (mask_vfld m (fwdV N tr fS U)) c l) with (fun _ : nat * nat => 0); [apply rfft2_zero|].
  extensionality x. symmetry. unfold bwdV. apply bwd_zero. intros j' k' i'.
  assert (Z : fwdV N tr fS U c j' k' i' = C0).
  { unfold fwdV. apply fwd_zero_mode. intros l'. replace (U c l') with (fun _ : nat * nat => 0) by (extensionality y; symmetry; apply H).
    apply rfft2_zero. }
  unfold mask_vfld. destruct m; unfold rsc; rewrite Z; [ring|reflexivity].
Qed.

(** The velocity has no wall normal component and no divergence, mode by mode (Nyquist modes and the
    mask included), on processes that own all of the two periodic directions of the mesh (slab). *)
Theorem C79_MKM_divergence_free m p dev ya za U : (forall a, ya a = 0%nat) -> (forall b, za b = 0%nat) ->
  let u := velocity m (field p dev ya za U) in
  forall j k i, u x0 j k i = C0 /\ (Ci * RtoC (K1 j) * u x1 j k i + Ci * RtoC (K2 k) * u x2 j k i = 0)%C.
Proof.
  intros Hy Hz u j k i. split; [apply velocity_zero; reflexivity|].
  assert (A : (RtoC (K1 j) * u x1 j k i)%C = C0).
  { destruct (Z.eq_dec (freq (N a0) j) 0) as [E|E]; [unfold K1; rewrite E, Rmult_0_r, RtoC_0; ring|].
    unfold u. rewrite velocity_no_y; [ring| |exact E]. intros. unfold MKM_field. cbv zeta. unfold upd. cbn [F3 eqd eqb3 fst snd].
    rewrite !Hy. reflexivity. }
  assert (B : (RtoC (K2 k) * u x2 j k i)%C = C0).
  { destruct (Nat.eq_dec k 0) as [E|E]; [unfold K2; rewrite E; cbn [INR]; rewrite Rmult_0_r, RtoC_0; ring|].
    unfold u. rewrite velocity_no_z; [ring| |exact E]. intros. unfold MKM_field. cbv zeta. unfold upd. cbn [F3 eqd eqb3 fst snd].
    rewrite !Hz. reflexivity. }
  replace (Ci * RtoC (K1 j) * u x1 j k i + Ci * RtoC (K2 k) * u x2 j k i)%C
    with (Ci * (RtoC (K1 j) * u x1 j k i) + Ci * (RtoC (K2 k) * u x2 j k i))%C by ring.
  rewrite A, B. ring.
Qed.

(** KMM: whatever the context held, the first step is Crank-Nicolson from this velocity and its wall
    normal vorticity, with the (masked) convection of this velocity: Euler's method for the convection. *)
Section Start.
Context (root : bool) (mt : mats) (sv : solvers) (nu dt : R) (mask : option (nat -> nat -> R))
  (conv : vfld -> fld -> vfld) (Sk : vfld) (nd nb : nat).
Hypothesis Hnu : nu <> 0.
Hypothesis Hdt : dt <> 0.
Hypothesis Hs : kmm_solvers_ok K1 K2 mt sv nu dt nd nb.
Hypothesis HB0 : linear (BDD0 mt).
Notation integrate' := (integrate x0 x1 x2 K1 K2 K1 K2 root mt sv nu dt mask conv Sk).

Theorem C79_MKM_first_step solver p dev ya za U c r : is_substring "KMM" solver = true -> is_substring "RK3" solver = false ->
  exists s, MKM_initialize N tr fS bS X0 X1 X2 K1 K2 conv mask solver p dev ya za U c r = StartedK s /\
  let u := velocity mask (field p dev ya za U) in
  let om := fun j k i => (Ci * RtoC (K1 j) * u x2 j k i - Ci * RtoC (K2 k) * u x1 j k i)%C in
  let H := mconv mask conv u om in
  let s' := integrate' s in
  U_hat s = u /\
  (forall j k, ~ mean_mode root j k ->
     crank_nicolson nb (lap (K1 j * K1 j + K2 k * K2 k) (ABB mt) (BBB mt))
       (bih nu (K1 j * K1 j + K2 k * K2 k) (SBB mt) (ABB mt) (BBB mt)) dt
       (rhs_u (K1 j) (K2 k) (K1 j * K1 j + K2 k * K2 k) (BBD mt) (CBD mt) (H x0 j k) (H x1 j k) (H x2 j k))
       (u x0 j k) (U_hat s' x0 j k)) /\
  (forall j k,
     crank_nicolson nd (BDD mt) (visc nu (K1 j * K1 j + K2 k * K2 k) (ADD mt) (BDD mt)) dt
       (rhs_g (K1 j) (K2 k) (BDD mt) (H x1 j k) (H x2 j k)) (om j k) (g s' j k)) /\
  (root = true ->
     crank_nicolson nd (BDD0 mt) (visc nu 0 (ADD0 mt) (BDD0 mt)) dt
       (fun i => (BDD0 mt (H x1 0%nat 0%nat) i - Sk x1 0%nat 0%nat i)%C)
       (u x1 0%nat 0%nat) (U_hat s' x1 0%nat 0%nat) /\
     crank_nicolson nd (BDD0 mt) (visc nu 0 (ADD0 mt) (BDD0 mt)) dt
       (BDD0 mt (H x2 0%nat 0%nat)) (u x2 0%nat 0%nat) (U_hat s' x2 0%nat 0%nat)).
Proof.
  intros E1 E2. unfold MKM_initialize. cbv zeta. rewrite E1, E2. cbn [negb]. eexists. split; [reflexivity|].
  set (u := velocity mask (field p dev ya za U)). cbv zeta.
  set (om := fun j k i => (Ci * RtoC (K1 j) * u x2 j k i - Ci * RtoC (K2 k) * u x1 j k i)%C).
  set (H := mconv mask conv u om).
  split; [reflexivity|].
  pose proof (kmm_crank_nicolson x0 x1 x2 ltac:(discriminate) ltac:(discriminate) ltac:(discriminate)
    K1 K2 K1 K2 root mt sv nu dt mask conv Sk nd nb (initialize_kmm K1 K2 conv u c) Hnu Hdt Hs HB0) as G.
  cbv zeta in G. cbn [initialize_kmm U_hat g H_hat1 U_hat0] in G.
  assert (EG : g_of K1 K2 u = om).
  { extensionality j; extensionality k; extensionality i. unfold g_of, csub, csc, om. reflexivity. }
  rewrite EG in G.
  assert (EH : extrap mask (conv u om) (conv u om) = H).
  { unfold extrap, H, mconv. extensionality c0; extensionality j; extensionality k; extensionality i. f_equal. ceq; field. }
  rewrite EH in G. unfold KMM.Ksq in G. exact G.
Qed.
End Start.

(** Coupled and CoupledRK3 do not get that far. *)
Theorem C79_MKM_coupled_refuted conv mask solver p dev ya za U c r : is_substring "KMM" solver = false ->
  MKM_initialize N tr fS bS X0 X1 X2 K1 K2 conv mask solver p dev ya za U c r = AttributeError.
Proof. intros E. unfold MKM_initialize. rewrite E. reflexivity. Qed.

(** KMMRK3 starts from the same velocity and its wall normal vorticity *)
Theorem C79_MKM_rk3 conv mask solver p dev ya za U c r : is_substring "KMM" solver = true -> is_substring "RK3" solver = true ->
  exists s, MKM_initialize N tr fS bS X0 X1 X2 K1 K2 conv mask solver p dev ya za U c r = StartedR s /\
  r_U s = velocity mask (field p dev ya za U) /\
  forall j k, normal_vorticity (K1 j) (K2 k) (r_U s x1 j k) (r_U s x2 j k) (r_g s j k).
Proof.
  intros E1 E2. unfold MKM_initialize. rewrite E1, E2. cbn [negb]. eexists. split; [reflexivity|]. split; [reflexivity|].
  intros j k i. reflexivity.
Qed.
End MKM.
Print Assumptions C79_MKM_noslip.
Print Assumptions C79_MKM_divergence_free.
Print Assumptions C79_MKM_first_step.
Print Assumptions C79_MKM_coupled_refuted.
Print Assumptions C79_MKM_rk3.
(** without noise, at the centre of a channel with nu = Re_tau = 1: the streamwise velocity is not zero, the spanwise
    velocity is that of a roll *)
Example MKM_centre : MKM_field (fun _ => 0) (fun _ => 50 * PI) (fun _ => 0) (mkMkm 1 1 2 1) (fun _ _ _ => 1) (fun _ => 0%nat) (fun _ => 0%nat)
   (fun _ _ _ => 5) x2 0%nat (0, 0)%nat = 46.9091 / 200 * exp (- (0.00055)) /\
  0 < MKM_field (fun _ => 0) (fun _ => 50 * PI) (fun _ => 0) (mkMkm 1 1 2 1) (fun _ _ _ => 1) (fun _ => 0%nat) (fun _ => 0%nat)
   (fun _ _ _ => 5) x1 0%nat (0, 0)%nat.
Proof.
  assert (HY : Ydist 0 = 1) by (unfold Ydist; destruct (Rlt_dec 0 0); lra).
  unfold MKM_field. cbv zeta. unfold upd. cbn [F3 eqd eqb3 fst snd m_nu m_Re m_L1 m_L2]. rewrite HY. split.
  - replace (2 / 200 * (50 * PI * 1)) with (PI / 2) by field. rewrite sin_PI2.
    replace (- (0.00055) * (1 * 1) ^ 2) with (- (0.00055)) by ring. field.
  - replace (1 / 100 * (0 * 1)) with 0 by field. rewrite cos_0.
    pose proof (exp_pos (- (0.00055) * (1 * 1) ^ 2 + 0.5)). lra.
Qed.

(** Not so with a pencil decomposition: the noise of l.52 is then that of each process's own first row, so the
    streamwise velocity jumps in y where a process ends.  Here three rows, the last on a second process. *)
Theorem C79_MKM_pencil_refuted :
  exists (N : ax2 -> nat) (tr : nat * nat -> R) (L1 L2 : R) (X0 X1 X2 : nat -> R) p dev ya za U j k i,
  let u := MKM_velocity N tr (fun c => c) (fun c => c) None (MKM_field X0 X1 X2 p dev ya za U) in
  (Ci * RtoC (K1 N L1 j) * u x1 j k i + Ci * RtoC (K2 L2 k) * u x2 j k i <> 0)%C.
Proof.
  set (N := fun _ : ax2 => 3%nat).
  set (X1 := fun a => 2 * PI * INR a / 3). set (p := mkMkm 1 1 (2 * PI) (2 * PI)).
  set (dev := fun (_ a _ : nat) => if (a =? 0)%nat then 1 else 2). set (ya := fun a => if (a <? 2)%nat then 0%nat else 2%nat).
  exists N, (fun _ => 1), (2 * PI), (2 * PI), (fun _ => 0), X1, (fun _ => 0), p, dev, ya, (fun _ => 0%nat), (fun _ _ _ => 0), 1%nat, 0%nat, 0%nat.
  cbv zeta. set (U := MKM_field _ _ _ _ _ _ _ _).
  assert (HP : PI <> 0) by apply PI_neq0.
  assert (E1 : K1 N (2 * PI) 1 = 1) by (unfold K1; change (freq (N a0) 1) with 1%Z; field; exact HP).
  assert (E2 : K2 (2 * PI) 0 = 0) by (unfold K2; cbn [INR]; ring).
  rewrite E1, E2, RtoC_0.
  assert (HN3 : forall i, (3 <= N i)%nat) by (intros; unfold N; lia).
  assert (Htr : forall k : nat * nat, In k (modes2 N) -> (fun _ : nat * nat => 1) k = 1) by reflexivity.
  assert (Hk : In (1%nat, 0%nat) (modes2 N)) by (vm_compute; tauto).
  assert (E : MKM_velocity N (fun _ => 1) (fun c => c) (fun c => c) None U x1 1%nat 0%nat 0%nat = rfft2 N N (fun _ => 1) (U x1 0%nat) (1, 0)%nat).
  { unfold MKM_velocity, fwdV, bwdV, fwd, bwd, mask_vfld.
    rewrite (roundtrip2 N (fun _ => 1) (HN3 a0) (HN3 a1) Htr _ _ Hk). change (paired N (1, 0)%nat) with true. cbn iota.
    cbn [fst snd]. rewrite <- !surjective_pairing.
    rewrite (rfft2_herm N (fun _ => 1) (HN3 a0) (HN3 a1) Htr _ _ Hk eq_refl).
    generalize (rfft2 N N (fun _ => 1) (U x1 0%nat) (1, 0)%nat). intros [z1 z2].
    apply C_eq; unfold RtoC, Cmul, Cadd, Cconj; cbn [fst snd]; field. }
  rewrite E.
  set (q := 46.9091 * (1 * 1) * 0.2 / (1 * 1)).
  set (Q := (1 * 1) * q / 2.0 * (1 * 1) / 40 * exp (- (0.00055) * (1 * 1) ^ 2 + 0.5)).
  set (P := 46.9091 * (1 * 1) * (1 - 0.5 * 1 ^ 2)).
  assert (HQ : 0 < Q).
  { unfold Q, q. apply Rmult_lt_0_compat; [lra|apply exp_pos]. }
  assert (HY : Ydist 0 = 1) by (unfold Ydist; destruct (Rlt_dec 0 0); lra).
  rewrite (rfft2_sep N (fun _ => 1) (U x1 0%nat) (fun a => P + Q * dev 0%nat (ya a) 0%nat) (fun _ => 1)).
  2:{ intros a b _ _. unfold U, MKM_field. cbv zeta. unfold upd. cbn [F3 eqd eqb3 fst snd m_nu m_Re m_L1 m_L2 p].
      rewrite HY. rewrite !Rmult_0_l, Rmult_0_r, cos_0. change (dev 0%nat (ya a) b) with (dev 0%nat (ya a) 0%nat). unfold Q, P, q. ring. }
  cbn [fst snd]. change (freq (N a0) 1) with 1%Z. change (N a0) with 3%nat. change (N a1) with 3%nat.
  unfold hat, wv. cbn [Csum]. unfold dev, ya. cbn [Nat.ltb Nat.leb Nat.eqb Z.of_nat INR].
  intros Z. apply (f_equal fst) in Z. revert Z.
  unfold cis, RtoC, Cmul, Cadd, Cconj, Ci, C1, C0. cbn [fst snd].
  replace (2 * PI * IZR 1 * 0 / (1 + 1 + 1)) with 0 by field.
  replace (2 * PI * IZR 1 * 1 / (1 + 1 + 1)) with (2 * (PI / 3)) by field.
  replace (2 * PI * IZR 1 * (1 + 1) / (1 + 1 + 1)) with (- (2 * (PI / 3)) + 2 * PI) by field.
  replace (2 * PI * IZR 0 * 0 / (1 + 1 + 1)) with 0 by field.
  replace (2 * PI * IZR 0 * 1 / (1 + 1 + 1)) with 0 by field.
  replace (2 * PI * IZR 0 * (1 + 1) / (1 + 1 + 1)) with 0 by field.
  rewrite (sin_plus _ (2 * PI)), (cos_plus _ (2 * PI)), sin_2PI, cos_2PI, sin_neg, cos_neg, sin_2a, sin_0, cos_0.
  assert (S3 : 0 < sin (PI / 3)) by (apply sin_gt_0; pose proof PI_RGT_0; lra).
  rewrite cos_PI3. set (s := sin (PI / 3)) in *. intros Z. ring_simplify in Z.
  nra.
Qed.
Print Assumptions C79_MKM_pencil_refuted.

(** ** OrrSommerfeld.py, OrrSommerfeldr.py *)
Section OS.
Context (cn c1 c2 : ax3) (Hn1 : cn <> c1) (Hn2 : cn <> c2) (H12 : c1 <> c2).
Context (K1 K2 Kx1 Kx2 : nat -> R) (root : bool) (mt : mats) (sv : solvers).
Context (nu dt : R) (mask : option (nat -> nat -> R)) (conv : vfld -> fld -> vfld) (Sk : vfld) (nd nb : nat).
Hypothesis Hnu : nu <> 0.
Hypothesis Hdt : dt <> 0.
Hypothesis Hs : kmm_solvers_ok K1 K2 mt sv nu dt nd nb.
Hypothesis HB0 : linear (BDD0 mt).
Notation integrate' := (integrate cn c1 c2 K1 K2 Kx1 Kx2 root mt sv nu dt mask conv Sk).
Notation zerog := (fun _ _ : nat => czero).

(** A step from level u1 with the level u0 before it: Crank-Nicolson and second order
    Adams-Bashforth; [m1], [m2] are what the mean flow starts from. *)
Definition ab2_step (u0 u1 : vfld) (om0 om1 : fld) (m1 m2 : col) (u2 : vfld) (om2 : fld) : Prop :=
  let H := fun c j k i =>
    (match mask with None => 1 | Some m => RtoC (m j k) end
      * (RtoC (3/2) * conv u1 om1 c j k i - RtoC (1/2) * conv u0 om0 c j k i))%C in
  (forall j k, ~ mean_mode root j k ->
     crank_nicolson nb (lap (K1 j * K1 j + K2 k * K2 k) (ABB mt) (BBB mt))
       (bih nu (K1 j * K1 j + K2 k * K2 k) (SBB mt) (ABB mt) (BBB mt)) dt
       (rhs_u (Kx1 j) (Kx2 k) (K1 j * K1 j + K2 k * K2 k) (BBD mt) (CBD mt) (H cn j k) (H c1 j k) (H c2 j k))
       (u1 cn j k) (u2 cn j k)) /\
  (forall j k,
     crank_nicolson nd (BDD mt) (visc nu (K1 j * K1 j + K2 k * K2 k) (ADD mt) (BDD mt)) dt
       (rhs_g (Kx1 j) (Kx2 k) (BDD mt) (H c1 j k) (H c2 j k)) (om1 j k) (om2 j k)) /\
  (root = true ->
     crank_nicolson nd (BDD0 mt) (visc nu 0 (ADD0 mt) (BDD0 mt)) dt
       (fun i => (BDD0 mt (H c1 0%nat 0%nat) i - Sk c1 0%nat 0%nat i)%C) m1 (u2 c1 0%nat 0%nat) /\
     crank_nicolson nd (BDD0 mt) (visc nu 0 (ADD0 mt) (BDD0 mt)) dt
       (BDD0 mt (H c2 0%nat 0%nat)) m2 (u2 c2 0%nat 0%nat)).

Lemma first_step s : let s' := integrate' s in
  forall u0 om0, H_hat1 s = conv u0 om0 ->
  ab2_step u0 (U_hat s) om0 (g s) (U_hat0 s c1 0%nat 0%nat) (U_hat0 s c2 0%nat 0%nat) (U_hat s') (g s').
Proof.
  intros s' u0 om0 E.
  pose proof (kmm_crank_nicolson cn c1 c2 Hn1 Hn2 H12 K1 K2 Kx1 Kx2 root mt sv nu dt mask conv Sk nd nb s Hnu Hdt Hs HB0) as G.
  cbv zeta in G. rewrite E in G. exact G.
Qed.

(** In a fresh context, OrrSommerfeld starts at t = dt, step 1, and its first step uses the two levels
    u0 (t = 0) and u1 (t = dt) with vorticity 0; but the mean flow is advanced from u0, one level back.
    OrrSommerfeldr advances it from u1. *)
Theorem C79_OS_first_step u0 u1 (c : kst) : g c = zerog ->
  let '(s, (t, n)) := OS_initialize conv dt u0 u1 c in
  t = dt /\ n = 1%nat /\ U_hat s = u1 /\ g s = zerog /\
  ab2_step u0 u1 zerog zerog (u0 c1 0%nat 0%nat) (u0 c2 0%nat 0%nat) (U_hat (integrate' s)) (g (integrate' s)).
Proof.
  intros Hg. unfold OS_initialize. cbv zeta. cbn [U_hat g H_hat H_hat0 H_hat1 U_hat0]. repeat split; try reflexivity;
  match goal with |- context [integrate' ?s] => pose proof (first_step s u0 zerog) as G end;
  cbn [U_hat g H_hat H_hat0 H_hat1 U_hat0] in G; specialize (G (f_equal (conv u0) Hg)); destruct G as (A & B & D); [exact A|exact B|apply D; assumption..].
Qed.
Theorem C79_OSr_first_step u0 u1 (c : kst) : g c = zerog ->
  let '(s, (t, n)) := OSr_initialize conv dt u0 u1 c in
  t = dt /\ n = 1%nat /\ U_hat s = u1 /\ g s = zerog /\
  ab2_step u0 u1 zerog zerog (u1 c1 0%nat 0%nat) (u1 c2 0%nat 0%nat) (U_hat (integrate' s)) (g (integrate' s)).
Proof.
  intros Hg. unfold OSr_initialize. cbv zeta. cbn [U_hat g H_hat H_hat0 H_hat1 U_hat0]. repeat split; try reflexivity;
  match goal with |- context [integrate' ?s] => pose proof (first_step s u0 zerog) as G end;
  cbn [U_hat g H_hat H_hat0 H_hat1 U_hat0] in G; specialize (G (f_equal (conv u0) Hg)); destruct G as (A & B & D); [exact A|exact B|apply D; assumption..].
Qed.
End OS.
Print Assumptions C79_OS_first_step.
Print Assumptions C79_OSr_first_step.

(** ** The field of initOS on the mesh of a box with L[1] = 2 pi *)
Lemma Cexp_eq a b : Cexp (a, b) = (exp a * cos b, exp a * sin b).
Proof. unfold Cexp, cis, Re, Im, RtoC, Cmul. cbn [fst snd]. f_equal; ring. Qed.
Lemma cis_Cexp (y t : R) (lam : C) : Cexp (Ci * (RtoC y - lam * RtoC t))%C = (Cexp (- Ci * lam * RtoC t) * cis y)%C.
Proof.
  destruct lam as [a b].
  replace (Ci * (RtoC y - (a, b) * RtoC t))%C with ((b * t, - (a * t) + y) : C)
    by (apply C_eq; unfold RtoC, Cmul, Csub, Cadd, Copp, Ci; cbn [fst snd]; ring).
  replace (- Ci * (a, b) * RtoC t)%C with ((b * t, - (a * t)) : C)
    by (apply C_eq; unfold RtoC, Cmul, Csub, Cadd, Copp, Ci; cbn [fst snd]; ring).
  rewrite !Cexp_eq, cos_plus, sin_plus. unfold cis. apply C_eq; unfold Cmul; cbn [fst snd]; ring.
Qed.
(** |e^(-i lam t)|^2 *)
Lemma Cexp_norm lam t : Cnorm2 (Cexp (- Ci * lam * RtoC t)%C) = exp (2 * Im lam * t).
Proof.
  destruct lam as [a b].
  replace (- Ci * (a, b) * RtoC t)%C with ((b * t, - (a * t)) : C)
    by (apply C_eq; unfold RtoC, Cmul, Csub, Cadd, Copp, Ci; cbn [fst snd]; ring).
  rewrite Cexp_eq. unfold Cnorm2, Im. cbn [fst snd]. replace (2 * b * t) with (b * t + b * t) by ring. rewrite exp_plus.
  pose proof (sin2_cos2 (- (a * t))) as S. unfold Rsqr in S.
  transitivity (exp (b * t) * exp (b * t) * (sin (- (a * t)) * sin (- (a * t)) + cos (- (a * t)) * cos (- (a * t)))); [ring|]. rewrite S. ring.
Qed.

Section Grid.
Context (N1 : nat) (X1 : nat -> R) (HX1 : forall a, X1 a = 2 * PI * INR a / INR N1).
Lemma grid_cos m d : (0 < m < N1)%nat -> Rsum N1 (fun a => cos (INR m * X1 a + d)) = 0.
Proof.
  intros H. rewrite <- (per_sum N1 m d H). apply Rsum_ext. intros a Ha. f_equal. rewrite HX1. field. apply not_0_INR. lia.
Qed.
Lemma grid_sin m : (0 < m < N1)%nat -> Rsum N1 (fun a => sin (INR m * X1 a)) = 0.
Proof.
  intros H. rewrite <- (grid_cos m (- (PI / 2)) H). apply Rsum_ext. intros a Ha.
  rewrite <- (cos_shift (INR m * X1 a)). rewrite <- cos_neg. f_equal. ring.
Qed.
(** one wave: sum and sum of squares over the mesh *)
Lemma wave_sum z : (2 <= N1)%nat -> Rsum N1 (fun a => Re (z * cis (X1 a))%C) = 0.
Proof.
  intros H. pose proof (grid_cos 1 0 ltac:(lia)) as A. pose proof (grid_sin 1 ltac:(lia)) as B.
  rewrite (Rsum_ext N1 _ (fun a => fst z * cos (INR 1 * X1 a + 0) + - snd z * sin (INR 1 * X1 a))).
  - rewrite Rsum_add, !Rsum_scal, A, B. ring.
  - intros a _. unfold Re, Cmul, cis. cbn [fst snd INR]. rewrite Rplus_0_r, Rmult_1_l. ring.
Qed.
Lemma wave_sq z : (3 <= N1)%nat -> Rsum N1 (fun a => Re (z * cis (X1 a))%C ^ 2) = INR N1 / 2 * Cnorm2 z.
Proof.
  intros H. pose proof (grid_cos 2 0 ltac:(lia)) as A. pose proof (grid_sin 2 ltac:(lia)) as B.
  rewrite (Rsum_ext N1 _ (fun a => / 2 * Cnorm2 z * 1 + ((fst z * fst z - snd z * snd z) / 2 * cos (INR 2 * X1 a + 0) + - (fst z * snd z) * sin (INR 2 * X1 a)))).
  - rewrite !Rsum_add, !Rsum_scal, A, B. replace (Rsum N1 (fun _ => 1)) with (INR N1); [field|].
    clear. induction N1 as [|n IH]; [reflexivity|]. rewrite S_INR. cbn [Rsum]. rewrite <- IH. reflexivity.
  - intros a _. unfold Re, Cmul, cis, Cnorm2. cbn [fst snd INR]. rewrite Rplus_0_r. rewrite cos_2a, sin_2a.
    pose proof (sin2_cos2 (X1 a)) as S. unfold Rsqr in S.
    replace (/ 2 * (fst z * fst z + snd z * snd z) * 1) with (/ 2 * (fst z * fst z + snd z * snd z) * (sin (X1 a) * sin (X1 a) + cos (X1 a) * cos (X1 a))) by (rewrite S; ring).
    field.
Qed.
End Grid.

Section OSField.
Context (N : ax2 -> nat) (tr : nat * nat -> R) (HN : forall i, (0 < N i)%nat) (Ho : only_modes (modes2 N) tr).
Context (fS : col -> col) (HfS : linear fS) (X0 X1 : nat -> R).
Context (HX1 : forall a, X1 a = 2 * PI * INR a / INR (N a0)) (HN0 : (2 <= N a0)%nat).
Context (phi dphi : nat -> C) (lam : C) (eps : R).
Notation U t := (OS_field X0 X1 phi dphi lam eps t).
Notation u t := (fwdV N tr fS (U t)).

(** every level has zero wall normal vorticity *)
Lemma OS_vorticity L2 t j k : normal_vorticity (K1 N (2 * PI) j) (K2 L2 k) (u t x1 j k) (u t x2 j k) czero.
Proof.
  intros i.
  assert (W : u t x2 j k i = C0).
  { unfold fwdV. apply fwd_zero_mode; [exact HfS|]. intros l. exact (rfft2_zero N tr (j, k)). }
  assert (V : (RtoC (K2 L2 k) * u t x1 j k i)%C = C0).
  { destruct (Nat.eq_dec k 0) as [E|E]; [unfold K2; rewrite E; cbn [INR]; rewrite Rmult_0_r, RtoC_0; ring|].
    unfold fwdV. rewrite (fwd_no_z N tr HN Ho fS HfS); [ring| |exact E]. intros; reflexivity. }
  rewrite W. unfold czero. replace (Ci * RtoC (K2 L2 k) * u t x1 j k i)%C with (Ci * (RtoC (K2 L2 k) * u t x1 j k i))%C by ring.
  rewrite V. ring.
Qed.
(** the mean flow is the same at every level *)
Lemma OS_mean t i : u t x1 0%nat 0%nat i = fS (fun i => (RtoC (tr (0, 0)%nat) * RtoC (1 - X0 i ^ 2))%C) i.
Proof.
  unfold fwdV, fwd. f_equal. extensionality l.
  set (G := fun a => (1 - X0 l ^ 2) + eps * Re (dphi l * Cexp (- Ci * lam * RtoC t) * cis (X1 a))%C).
  rewrite (rfft2_sep N tr (U t x1 l) G (fun _ => 1)).
  2:{ intros a b _ _. unfold OS_field, OS_point. cbn [fst snd]. rewrite cis_Cexp. unfold G. rewrite Rmult_1_r. f_equal. f_equal. f_equal. ring. }
  cbn [fst snd]. f_equal.
  assert (F0 : freq (N a0) 0 = 0%Z) by (unfold freq; specialize (HN a0); destruct (2 * 0 <? N a0)%nat eqn:E; [reflexivity|apply Nat.ltb_ge in E; lia]).
  assert (H0 : forall M f, hat M f 0 = RtoC (/ INR M * Rsum M f)).
  { intros M f. unfold hat. rewrite RtoC_mul. f_equal. rewrite RtoC_Rsum. apply Csum_ext. intros j _.
    unfold wv. replace (2 * PI * 0 * INR j / INR M) with 0 by (unfold Rdiv; ring).
    unfold cis. rewrite cos_0, sin_0. apply C_eq; unfold Cmul, Cconj, RtoC; cbn [fst snd]; ring. }
  rewrite F0. cbn [Z.of_nat]. rewrite !H0. rewrite <- RtoC_mul. f_equal.
  unfold G. rewrite Rsum_add, Rsum_scal, !Rsum_const. rewrite (wave_sum (N a0) X1 HX1) by exact HN0.
  field. split; apply not_0_INR; [specialize (HN a1)|specialize (HN a0)]; lia.
Qed.

(** So the first step of OrrSommerfeld with KMM is the second order step from the levels t = 0 and
    t = dt, mean flow included: that U_hat0 is one level behind makes no difference for this field. *)
Theorem C79_OS_field L2 root mt sv nu dt mask conv Sk nd nb (c : kst) : nu <> 0 -> dt <> 0 ->
  kmm_solvers_ok (K1 N (2 * PI)) (K2 L2) mt sv nu dt nd nb -> linear (BDD0 mt) ->
  g c = (fun _ _ => czero) ->
  let '(s, (t, n)) := OS_initialize conv dt (u 0) (u dt) c in
  let s' := integrate x0 x1 x2 (K1 N (2 * PI)) (K2 L2) (K1 N (2 * PI)) (K2 L2) root mt sv nu dt mask conv Sk s in
  t = dt /\ n = 1%nat /\ U_hat s = u t /\
  exists om0 om1, (forall j k, normal_vorticity (K1 N (2 * PI) j) (K2 L2 k) (u 0 x1 j k) (u 0 x2 j k) (om0 j k)) /\
    (forall j k, normal_vorticity (K1 N (2 * PI) j) (K2 L2 k) (u t x1 j k) (u t x2 j k) (om1 j k)) /\
    ab2_step x0 x1 x2 (K1 N (2 * PI)) (K2 L2) (K1 N (2 * PI)) (K2 L2) root mt nu dt mask conv Sk nd nb
      (u 0) (u t) om0 om1 (u t x1 0%nat 0%nat) (u t x2 0%nat 0%nat) (U_hat s') (g s').
Proof.
  intros Hnu Hdt Hs HB Hg.
  pose proof (C79_OS_first_step x0 x1 x2 ltac:(discriminate) ltac:(discriminate) ltac:(discriminate)
    (K1 N (2 * PI)) (K2 L2) (K1 N (2 * PI)) (K2 L2) root mt sv nu dt mask conv Sk nd nb Hnu Hdt Hs HB (u 0) (u dt) c Hg) as G.
  revert G. destruct (OS_initialize conv dt (u 0) (u dt) c) as [s [t n]]. cbv zeta. intros (-> & -> & E1 & E2 & G).
  repeat split; [exact E1|]. exists (fun _ _ => czero), (fun _ _ => czero).
  split; [intros; apply OS_vorticity|]. split; [intros; apply OS_vorticity|].
  assert (M : u 0 x1 0%nat 0%nat = u dt x1 0%nat 0%nat) by (extensionality i; rewrite !OS_mean; reflexivity).
  assert (M2 : u 0 x2 0%nat 0%nat = u dt x2 0%nat 0%nat) by reflexivity.
  rewrite M, M2 in G. exact G.
Qed.

(** with an RK3 solver the run starts at t = 0 with the velocity and its wall normal vorticity *)
Theorem C79_OS_rk3 L2 (c : rst) :
  let '(s, (t, n)) := OS_initialize_rk (u 0) c in
  t = 0 /\ n = 0%nat /\ r_U s = u t /\
  forall j k, normal_vorticity (K1 N (2 * PI) j) (K2 L2 k) (u t x1 j k) (u t x2 j k) (r_g s j k).
Proof. unfold OS_initialize_rk. repeat split. apply OS_vorticity. Qed.

(** The perturbation energy of the field is exp(2 Im(lam) t) times its initial value, in every plane and
    so for any quadrature: what the demo prints as exact is exact. *)
Lemma OS_plane i t : (3 <= N a0)%nat ->
  Rsum (N a0) (fun a => Rsum (N a1) (fun b => OS_pert X0 (U t) i (a, b)))
  = INR (N a1) * (INR (N a0) / 2 * (eps ^ 2 * (Cnorm2 (dphi i) + Cnorm2 (phi i)) * exp (2 * Im lam * t))).
Proof.
  intros H3. set (q := Cexp (- Ci * lam * RtoC t)%C).
  rewrite (Rsum_ext (N a0) _ (fun a => INR (N a1) * (eps ^ 2 * Re (dphi i * q * cis (X1 a))%C ^ 2 + eps ^ 2 * Re (Ci * phi i * q * cis (X1 a))%C ^ 2))).
  - rewrite Rsum_scal, Rsum_add, !Rsum_scal, !(wave_sq (N a0) X1 HX1) by exact H3.
    assert (M : forall z w, Cnorm2 (z * w)%C = Cnorm2 z * Cnorm2 w) by (intros [? ?] [? ?]; unfold Cnorm2, Cmul; cbn [fst snd]; ring).
    assert (C1' : Cnorm2 Ci = 1) by (unfold Cnorm2, Ci; cbn [fst snd]; ring).
    rewrite !M, C1'. unfold q. rewrite Cexp_norm. ring.
  - intros a _. unfold OS_pert, OS_field, OS_point. cbn [fst snd]. rewrite Rsum_const. f_equal. rewrite cis_Cexp. fold q.
    replace (dphi i * (q * cis (X1 a)))%C with (dphi i * q * cis (X1 a))%C by ring.
    replace (Ci * phi i * (q * cis (X1 a)))%C with (Ci * phi i * q * cis (X1 a))%C by ring. ring.
Qed.
Theorem C80_OS_energy P Nx lo len (loc : R -> nat -> nat -> nat -> nat -> R) bs L Np t : (3 <= N a0)%nat ->
  let n := fun a => match a with O => Nx | S O => N a0 | _ => N a1 end in
  decomposition P n lo len ->
  (forall t, scattered P lo len (fun i a b => OS_pert X0 (U t) i (a, b)) (loc t)) ->
  let e := fun t => 0.5 * dx P lo len (loc t) 0 bs Nx L Np 0 in
  e t = OS_exact lam t * e 0.
Proof.
  intros H3 n Hd Hl e. unfold e.
  destruct (dx_rank_independent P n lo len _ (loc t) 0 bs L Np ltac:(lia) Hd (Hl t)) as [E _].
  destruct (dx_rank_independent P n lo len _ (loc 0) 0 bs L Np ltac:(lia) Hd (Hl 0)) as [E0 _].
  cbn [n] in E, E0. rewrite E, E0.
  rewrite (weighted_ext bs Nx _ (fun i => OS_exact lam t * plane 0 n (fun i a b => OS_pert X0 (U 0) i (a, b)) i + 0 * 0)).
  - rewrite (weighted_lin bs Nx _ (fun _ => 0)). ring.
  - intros i _. cbn [plane n]. rewrite !OS_plane by exact H3. unfold OS_exact.
    replace (2 * Im lam * 0) with 0 by ring. rewrite exp_0. ring.
Qed.
End OSField.
Print Assumptions C79_OS_field.
Print Assumptions C79_OS_rk3.
Print Assumptions C80_OS_energy.
