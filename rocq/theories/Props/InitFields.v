(** C78: the initial fields of the periodic demos are divergence free in every mode, as C01, C02, C03 and C04 require of
    the field a run starts from; their mean and energy. *)
From Coq Require Import Reals Lra Lia Arith ZArith List FunctionalExtensionality.
From Verif Require Import Base.Cplx Base.Sums Base.Fin Spec.Env Spec.Fourier Spec.Energy Spec.Wave Spec.TaylorGreen
  Model.Maths Model.NS Model.NS2D Model.VV Model.MHD Model.Bq2D Model.Integrators Model.Integrate Model.Solve Model.Run Model.Accessors Model.InitFields
  Proofs.Common Proofs.NSProofs Proofs.VVProofs Proofs.MHDProofs Proofs.BqProofs Proofs.TaylorGreenProofs Proofs.InitFieldsProofs Proofs.RoundTrip2 Props.Periodic.
Import ListNotations.
Open Scope R_scope.

(** the array has no entries but those of the stored modes *)
Definition only_modes {I} (ms : list I) (tr : I -> R) : Prop := forall k, ~ In k ms -> tr k = 0.

Section Three.
Notation idx := (nat * nat * nat)%type.
(** box with sides 2 pi n_i, N_i mesh points, the waves sin(x_i) resolved *)
Context (N n : ax3 -> nat) (tr : idx -> R).
Notation k0 := (fun i => / INR (n i)).
Notation K := (wavenumber N k0).
Notation T := (mkTransf idx idx (irfft3 N N tr) (rfft3 N N tr)).
Definition resolved3 : Prop := (forall i, (0 < n i)%nat) /\ forall i, (2 * n i < N i)%nat.

Lemma mesh3_ang i x : (forall i, (0 < n i)%nat) -> mesh3 N k0 i x =
  let '(a, b, c) := x in ang (N i) (n i) (match i with x0 => a | x1 => b | x2 => c end).
Proof.
  intros Hn. destruct x as [[a b] c]. unfold mesh3, ang, Rdiv. rewrite Rinv_inv. reflexivity.
Qed.
Notation s i := (hat (N i) (fun j => sin (ang (N i) (n i) j))).
Notation c i := (hat (N i) (fun j => cos (ang (N i) (n i) j))).
Lemma sep3 (f : idx -> R) g0 g1 g2 k : (forall i, (0 < N i)%nat) ->
  (forall a b c, f (a, b, c) = g0 a * g1 b * g2 c) ->
  rfft3 N N tr f k = (RtoC (tr k) * (hat (N x0) g0 (wn N x0 k) * hat (N x1) g1 (wn N x1 k) * hat (N x2) g2 (wn N x2 k)))%C.
Proof.
  intros HN H. rewrite <- rfft3_sep by exact HN. f_equal. extensionality x. destruct x as [[a b] c0]. apply H.
Qed.
Lemma hat_neg M f m : hat M (fun j => - f j) m = (- hat M f m)%C.
Proof.
  unfold hat. rewrite (Csum_ext M _ (fun j => (- C1) * (RtoC (f j) * Cconj (wv M m j)))%C); [rewrite Csum_scal; ring|].
  intros j _. rewrite RtoC_opp. ring.
Qed.
Lemma rfft3_zero k : rfft3 N N tr (fun _ => 0) k = C0.
Proof. unfold rfft3. rewrite CsumL_0; [ring|]. intros x _. rewrite RtoC_0. ring. Qed.

Section Fields.
Context (HR : resolved3).
Let Hn : forall i, (0 < n i)%nat. Proof. apply HR. Qed.
Let HN : forall i, (0 < N i)%nat. Proof. intros i. destruct HR as [_ H]. specialize (H i). lia. Qed.
Lemma TG_hat U i k : TG_initialize1 T (mesh3 N k0) U i k = match i with
  | x0 => (RtoC (tr k) * (s x0 (wn N x0 k) * c x1 (wn N x1 k) * c x2 (wn N x2 k)))%C
  | x1 => (- (RtoC (tr k) * (c x0 (wn N x0 k) * s x1 (wn N x1 k) * c x2 (wn N x2 k))))%C
  | x2 => C0 end.
Proof.
  unfold TG_initialize1, set_velocity_NS, fwdV, TG_field. cbn [fwd].
  destruct i.
  - rewrite !upd_other, upd_same by discriminate. apply sep3; [exact HN|]. intros a b d. rewrite !mesh3_ang by exact Hn. reflexivity.
  - rewrite upd_other, upd_same by discriminate.
    rewrite (sep3 _ (fun j => - cos (ang (N x0) (n x0) j)) (fun j => sin (ang (N x1) (n x1) j)) (fun j => cos (ang (N x2) (n x2) j))).
    + rewrite hat_neg. ring.
    + exact HN.
    + intros a b d. rewrite !mesh3_ang by exact Hn. reflexivity.
  - rewrite upd_same. apply rfft3_zero.
Qed.
Lemma B_hat B i k : fwdV T (TGMHD_B (mesh3 N k0) B) i k = match i with
  | x0 => (RtoC (tr k) * (s x0 (wn N x0 k) * s x1 (wn N x1 k) * c x2 (wn N x2 k)))%C
  | x1 => (RtoC (tr k) * (c x0 (wn N x0 k) * c x1 (wn N x1 k) * c x2 (wn N x2 k)))%C
  | x2 => C0 end.
Proof.
  unfold fwdV, TGMHD_B. cbn [fwd]. destruct i.
  - rewrite !upd_other, upd_same by discriminate. apply sep3; [exact HN|]. intros a b d. rewrite !mesh3_ang by exact Hn. reflexivity.
  - rewrite upd_other, upd_same by discriminate. apply sep3; [exact HN|]. intros a b d. rewrite !mesh3_ang by exact Hn. reflexivity.
  - rewrite upd_same. apply rfft3_zero.
Qed.
Lemma K_sin i k : In k (modes3 N) -> (RtoC (K i k) * s i (wn N i k))%C = (- Ci * c i (wn N i k))%C.
Proof. intros Hk. rewrite wavenumber_wn. apply k_sin; [apply HR|apply HR|apply wn_abs, Hk]. Qed.
Lemma K_cos i k : In k (modes3 N) -> (RtoC (K i k) * c i (wn N i k))%C = (Ci * s i (wn N i k))%C.
Proof. intros Hk. rewrite wavenumber_wn. apply k_cos; [apply HR|apply HR|apply wn_abs, Hk]. Qed.
Lemma modes3_dec k : {In k (modes3 N)} + {~ In k (modes3 N)}.
Proof. apply in_dec. decide equality; [apply Nat.eq_dec|]. decide equality; apply Nat.eq_dec. Qed.
Lemma mean_wn i k : is_mean K k -> wn N i k = 0%Z.
Proof.
  intros H. specialize (H i). rewrite wavenumber_wn in H. apply Rmult_integral in H. destruct H as [H|H].
  - apply eq_IZR_R0, H.
  - exfalso. revert H. apply Rinv_neq_0_compat, not_0_INR. pose proof (Hn i). lia.
Qed.

(** The Taylor-Green field of TG.py with the NS solver, on any box with sides 2 pi n_i *)
Theorem C78_TG U : only_modes (modes3 N) tr ->
  let U_hat := TG_initialize1 T (mesh3 N k0) U in
  divfree F3 K U_hat /\ forall i k, is_mean K k -> U_hat i k = C0.
Proof.
  intros Ho. cbv zeta. split.
  - intros k. rewrite kdot3, !TG_hat. destruct (modes3_dec k) as [Hk|Hk]; [|rewrite (Ho k Hk), RtoC_0; ring].
    transitivity (RtoC (tr k) * c x2 (wn N x2 k) * ((RtoC (K x0 k) * s x0 (wn N x0 k)) * c x1 (wn N x1 k)
      - c x0 (wn N x0 k) * (RtoC (K x1 k) * s x1 (wn N x1 k))))%C; [ring|]. rewrite !K_sin by exact Hk. ring.
  - intros i k Hk. rewrite TG_hat. destruct i; rewrite ?(mean_wn _ k Hk), ?hat_sin_0 by apply HR; ring.
Qed.
(** VV: the vorticity is solenoidal, without mean, and the solver recovers the Taylor-Green velocity from it. *)
Theorem C78_TG_VV U U0 W0 : only_modes (modes3 N) tr ->
  let '(U_hat, W_hat) := TG_initialize2 T (mesh3 N k0) K U U0 W0 in
  W_hat = curl_hat K U_hat /\ divfree F3 K W_hat /\ (forall i k, is_mean K k -> W_hat i k = C0) /\
  velocity_hat (K_over_K2_of F3 K) W_hat = U_hat /\ U_hat = TG_initialize1 T (mesh3 N k0) U.
Proof.
  intros Ho. unfold TG_initialize2, set_velocity_VV. cbv zeta. rewrite cross2_curl.
  change (fwdV T (TG_field (mesh3 N k0) U)) with (TG_initialize1 T (mesh3 N k0) U).
  destruct (C78_TG U Ho) as [Hd Hm]. split; [reflexivity|]. split; [intros k; apply kdot_curl|]. split; [|split; [|reflexivity]].
  - intros i k Hk. unfold curl_hat. destruct i; rewrite !(Hm _ k Hk); ring.
  - apply velocity_of_curl; assumption.
Qed.
(** MHD: both fields of TGMHD.py *)
Theorem C78_TGMHD UB : only_modes (modes3 N) tr ->
  let UB_hat := TGMHD_initialize T (mesh3 N k0) UB in
  divfree F3 K (fun i => UB_hat (inl i)) /\ divfree F3 K (fun i => UB_hat (inr i)).
Proof.
  intros Ho. cbv zeta. split.
  - apply (proj1 (C78_TG (fun i => UB (inl i)) Ho)).
  - intros k. rewrite kdot3. unfold TGMHD_initialize. cbv zeta.
    change (fwdV T _ (inr x0) k) with (fwdV T (TGMHD_B (mesh3 N k0) (fun i => UB (inr i))) x0 k).
    change (fwdV T _ (inr x1) k) with (fwdV T (TGMHD_B (mesh3 N k0) (fun i => UB (inr i))) x1 k).
    change (fwdV T _ (inr x2) k) with (fwdV T (TGMHD_B (mesh3 N k0) (fun i => UB (inr i))) x2 k).
    rewrite !B_hat. destruct (modes3_dec k) as [Hk|Hk]; [|rewrite (Ho k Hk), RtoC_0; ring].
    transitivity (RtoC (tr k) * c x2 (wn N x2 k) * ((RtoC (K x0 k) * s x0 (wn N x0 k)) * s x1 (wn N x1 k)
      + c x0 (wn N x0 k) * (RtoC (K x1 k) * c x1 (wn N x1 k))))%C; [ring|]. rewrite K_sin, K_cos by exact Hk. ring.
Qed.
(** the energies the regression tests print are 1/8 at the start, for any mesh *)
Lemma square_sum (f : idx -> R) g0 g1 g2 : (forall a b c, f (a, b, c) = g0 a * g1 b * g2 c) ->
  RsumL (points3 N) (fun x => f x * f x)
  = Rsum (N x0) (fun j => g0 j * g0 j) * Rsum (N x1) (fun j => g1 j * g1 j) * Rsum (N x2) (fun j => g2 j * g2 j).
Proof.
  intros H. rewrite <- grid_sum. apply RsumL_ext. intros [[a b] d] _. rewrite H. ring.
Qed.
Lemma neg_sum M f : Rsum M (fun j => - f j * - f j) = Rsum M (fun j => f j * f j).
Proof. apply Rsum_ext. intros. ring. Qed.
Theorem C78_energy U B dx L : (forall i, L i <> 0) -> (forall i, dx i = L i / INR (N i)) ->
  TG_energy (points3 N) dx L (TG_field (mesh3 N k0) U) = / 8 /\
  TG_energy (points3 N) dx L (TGMHD_B (mesh3 N k0) B) = / 8.
Proof.
  intros HL Hdx. assert (G : forall i, INR (N i) <> 0) by (intros i; apply not_0_INR; pose proof (HN i); lia).
  assert (C2 := fun i => cos2_sum (N i) (n i) (proj1 HR i) (proj2 HR i)).
  assert (S2 := fun i => sin2_sum (N i) (n i) (proj1 HR i) (proj2 HR i)).
  unfold TG_energy, TG_field, TGMHD_B, upd. cbn [elems F3 RsumL eqd eqb3].
  rewrite (RsumL_0 (points3 N) (fun x => 0 * 0)) by (intros; ring). split.
  - rewrite (square_sum (fun x => sin (mesh3 N k0 x0 x) * cos (mesh3 N k0 x1 x) * cos (mesh3 N k0 x2 x))
      (fun j => sin (ang (N x0) (n x0) j)) (fun j => cos (ang (N x1) (n x1) j)) (fun j => cos (ang (N x2) (n x2) j)))
      by (intros; rewrite !mesh3_ang by exact Hn; reflexivity).
    rewrite (square_sum (fun x => - cos (mesh3 N k0 x0 x) * sin (mesh3 N k0 x1 x) * cos (mesh3 N k0 x2 x))
      (fun j => - cos (ang (N x0) (n x0) j)) (fun j => sin (ang (N x1) (n x1) j)) (fun j => cos (ang (N x2) (n x2) j)))
      by (intros; rewrite !mesh3_ang by exact Hn; reflexivity).
    rewrite neg_sum, !C2, !S2, !Hdx. field. repeat split; auto.
  - rewrite (square_sum (fun x => sin (mesh3 N k0 x0 x) * sin (mesh3 N k0 x1 x) * cos (mesh3 N k0 x2 x))
      (fun j => sin (ang (N x0) (n x0) j)) (fun j => sin (ang (N x1) (n x1) j)) (fun j => cos (ang (N x2) (n x2) j)))
      by (intros; rewrite !mesh3_ang by exact Hn; reflexivity).
    rewrite (square_sum (fun x => cos (mesh3 N k0 x0 x) * cos (mesh3 N k0 x1 x) * cos (mesh3 N k0 x2 x))
      (fun j => cos (ang (N x0) (n x0) j)) (fun j => cos (ang (N x1) (n x1) j)) (fun j => cos (ang (N x2) (n x2) j)))
      by (intros; rewrite !mesh3_ang by exact Hn; reflexivity).
    rewrite !C2, !S2, !Hdx. field. repeat split; auto.
Qed.

(** so the demos meet the hypothesis of C01, C02 and C03: the runs stay divergence free *)
Theorem C78_TG_run {X E} (Tp : transf idx X) cv mask nu est upd (out : R -> nat -> svec ax3 idx -> nsbuf ax3 idx X * E -> _) rnd Tend fuel g s0 st U :
  only_modes (modes3 N) tr -> update_keeps upd (divfree F3 K) -> at_start s0 (TG_initialize1 T (mesh3 N k0) U) ->
  observed (ComputeRHS_NS Tp K cv mask nu (fun _ _ => C0)) est upd out rnd Tend fuel g s0 st ->
  divfree F3 K (solution (l_w st)).
Proof.
  intros Ho Hu Hs Hr. refine (proj1 (C01_NS Tp K cv mask nu _ est upd out rnd Tend fuel g s0 st _ _ _ Hu Hs Hr)).
  - apply C78_TG, Ho.
  - intros k. unfold kdot. apply CsumL_0. intros; ring.
Qed.
Theorem C78_TGMHD_run {X E} (Tp : transf idx X) mask nu eta est upd (out : R -> nat -> svec ax6 idx -> mhdbuf idx X * E -> _) rnd Tend fuel g s0 st UB :
  only_modes (modes3 N) tr -> update_keeps upd (fun v => divfree F3 K (velo v) /\ divfree F3 K (magn v)) ->
  at_start s0 (TGMHD_initialize T (mesh3 N k0) UB) ->
  observed (ComputeRHS_MHD Tp K mask nu eta) est upd out rnd Tend fuel g s0 st ->
  divfree F3 K (velo (solution (l_w st))) /\ divfree F3 K (magn (solution (l_w st))).
Proof.
  intros Ho Hu Hs Hr. refine (C02_MHD Tp K mask nu eta est upd out rnd Tend fuel g s0 st _ _ Hu Hs Hr). apply C78_TGMHD, Ho.
Qed.
End Fields.

(** Vortices.py: the vorticity of the given vortices and the source are solenoidal on every mesh and box. *)
Theorem C78_Vortices kk randn : (forall i, (0 < N i)%nat) -> only_modes (modes3 N) tr ->
  divfree F3 (wavenumber N kk) (Vortices_initialize T (mesh3 N kk) false randn) /\
  forall random, divfree F3 (wavenumber N kk) (Vortices_source T (mesh3 N kk) random).
Proof.
  intros HN Ho.
  assert (Z : forall k, rfft3 N N tr (fun _ => 0) k = C0) by apply rfft3_zero.
  assert (G : forall (f : R -> R -> R) k, (RtoC (wavenumber N kk x0 k) * rfft3 N N tr (fun x => f (mesh3 N kk x1 x) (mesh3 N kk x2 x)) k)%C = C0).
  { intros f k. destruct (modes3_dec k) as [Hk|Hk].
    - destruct (Z.eq_dec (wn N x0 k) 0) as [E|E]; [rewrite wavenumber_wn, E, Rmult_0_l, RtoC_0; ring|].
      assert (Q : rfft3 N N tr (fun x => f (mesh3 N kk x1 x) (mesh3 N kk x2 x)) k = C0).
      { rewrite <- (rfft3_indep0 N tr (fun j1 j2 => f (mesh3 N kk x1 (0, j1, j2)%nat) (mesh3 N kk x2 (0, j1, j2)%nat)) k HN Hk E).
        f_equal. extensionality x. destruct x as [[a b] d]. reflexivity. }
      rewrite Q. ring.
    - unfold rfft3. rewrite (Ho k Hk). unfold Rdiv. rewrite Rmult_0_l, RtoC_0. ring. }
  split; [|intros [|]]; intros k; rewrite kdot3; unfold Vortices_initialize, Vortices_source, fwdV, upd; cbn [fwd eqd F3 eqb3]; rewrite !Z.
  - pose proof (G (fun y z => exp (- ((y - PI) ^ 2 + (z - PI + PI / 4) ^ 2) / 0.2)
      + exp (- ((y - PI) ^ 2 + (z - PI - PI / 4) ^ 2) / 0.2)
      - 0.5 * exp (- ((y - PI - PI / 4) ^ 2 + (z - PI - PI / 4) ^ 2) / 0.4)) k) as Q. cbv beta in Q. rewrite Q. ring.
  - pose proof (G (fun y z => 100 * exp (- ((y - PI) ^ 2 + (z - PI + PI / 4) ^ 2) / 0.01)
      + 100 * exp (- ((y - PI) ^ 2 + (z - PI - PI / 4) ^ 2) / 0.01)
      - 0.5 * 100 * exp (- ((y - PI - PI / 4) ^ 2 + (z - PI - PI / 4) ^ 2) / 0.04)) k) as Q. cbv beta in Q. rewrite Q. ring.
  - ring.
Qed.
End Three.

Section Two.
Notation idx := (nat * nat)%type.
Context (N : ax2 -> nat) (tr : idx -> R) (HN : forall i, (0 < N i)%nat).
Notation K := (wavenumber2 N).
Notation T := (mkTransf idx idx (irfft2 N N tr) (rfft2 N N tr)).
Lemma wave2_wv k x : wave2 N N k x = (wv (N a0) (freq (N a0) (fst k)) (fst x) * wv (N a1) (Z.of_nat (snd k)) (snd x))%C.
Proof.
  unfold wave2, wv. rewrite cis_add. f_equal; f_equal; cbn [wavenumber2 mesh2]; rewrite ?INR_IZR_INZ with (n := snd k); unfold Rdiv; ring.
Qed.
Lemma rfft2_sep (f : idx -> R) g h k : (forall a b, (a < N a0)%nat -> (b < N a1)%nat -> f (a, b) = g a * h b) ->
  rfft2 N N tr f k = (RtoC (tr k) * (hat (N a0) g (freq (N a0) (fst k)) * hat (N a1) h (Z.of_nat (snd k))))%C.
Proof.
  intros H. unfold rfft2, points2. rewrite CsumL_prod, CsumL_seq.
  set (A := fun j => (RtoC (g j) * Cconj (wv (N a0) (freq (N a0) (fst k)) j))%C).
  set (B := fun j => (RtoC (h j) * Cconj (wv (N a1) (Z.of_nat (snd k)) j))%C).
  rewrite (Csum_ext (N a0) _ (fun j => Csum (N a1) B * A j)%C).
  - rewrite Csum_scal. unfold hat. fold A B. unfold Rdiv. rewrite Rinv_mult, !RtoC_mul. ring.
  - intros j0 Hj0. rewrite CsumL_seq. rewrite (Csum_ext (N a1) _ (fun j1 => A j0 * B j1)%C); [rewrite Csum_scal; ring|].
    intros j1 Hj1. rewrite wave2_wv. cbn [fst snd]. rewrite H by assumption. unfold A, B. rewrite Cconj_mul, RtoC_mul. ring.
Qed.
Lemma modes2_dec k : {In k (modes2 N)} + {~ In k (modes2 N)}.
Proof. apply in_dec. decide equality; apply Nat.eq_dec. Qed.
Lemma rfft2_out f k : only_modes (modes2 N) tr -> ~ In k (modes2 N) -> rfft2 N N tr f k = C0.
Proof. intros Ho Hk. unfold rfft2. rewrite (Ho k Hk). unfold Rdiv. rewrite Rmult_0_l, RtoC_0. ring. Qed.
(** a field of one coordinate only *)
Lemma only_second f h k : only_modes (modes2 N) tr -> (forall a b, (a < N a0)%nat -> (b < N a1)%nat -> f (a, b) = h b) ->
  (RtoC (K a0 k) * rfft2 N N tr f k)%C = C0.
Proof.
  intros Ho H. destruct (modes2_dec k) as [Hk|Hk]; [|rewrite rfft2_out by assumption; ring].
  unfold modes2 in Hk. destruct k as [k1 k2]. rewrite in_prod_iff, !in_seq in Hk. cbn [wavenumber2 fst].
  destruct (Z.eq_dec (freq (N a0) k1) 0) as [E|E]; [rewrite E, RtoC_0; ring|].
  rewrite (rfft2_sep f (fun _ => 1) h) by (intros; rewrite H by assumption; ring). cbn [fst].
  rewrite hat_const; [ring|apply HN|apply freq_mod; [lia|exact E]].
Qed.
Lemma only_first f g k : only_modes (modes2 N) tr -> (forall a b, (a < N a0)%nat -> (b < N a1)%nat -> f (a, b) = g a) ->
  (RtoC (K a1 k) * rfft2 N N tr f k)%C = C0.
Proof.
  intros Ho H. destruct (modes2_dec k) as [Hk|Hk]; [|rewrite rfft2_out by assumption; ring].
  unfold modes2 in Hk. destruct k as [k1 k2]. rewrite in_prod_iff, !in_seq in Hk. cbn [wavenumber2 snd].
  destruct (Nat.eq_dec k2 0) as [->|E]; [cbn [INR]; rewrite RtoC_0; ring|].
  rewrite (rfft2_sep f g (fun _ => 1)) by (intros; rewrite H by assumption; ring). cbn [snd].
  rewrite hat_const; [ring|apply HN|apply half_mod; [apply HN|lia|lia]].
Qed.

(** KelvinHelmoltzBoussinesq.py: the velocity has no divergence though it is not projected *)
Definition shear (N1 : nat) (delta : R) (j : nat) : R :=
  let y := 2 * PI * INR j / INR N1 in
  if (j <? N1 / 2)%nat then tanh ((y - 0.5 * PI) / delta) else - tanh ((y - 1.5 * PI) / delta).
Lemma KHB_row A delta r1 r2 Ur a b : (b < N a1)%nat ->
  KHB_field (mesh2 N) (N a1) A delta r1 r2 Ur (Some a0) (a, b) = shear (N a1) delta b /\
  KHB_field (mesh2 N) (N a1) A delta r1 r2 Ur (Some a1) (a, b) = A * sin (2 * mesh2 N a0 (a, b)) /\
  KHB_field (mesh2 N) (N a1) A delta r1 r2 Ur None (a, b) = 2 + shear (N a1) delta b - (r1 + r2) / 2.
Proof.
  intros Hb. unfold KHB_field, upd, set_columns, shear. cbn [eqd Fb eqbb eqb2 snd mesh2].
  destruct (Nat.leb_spec (N a1 / 2) b) as [H1|H1]; destruct (Nat.ltb_spec b (N a1)) as [H2|H2];
  destruct (Nat.ltb_spec b (N a1 / 2)) as [H3|H3]; cbn [andb Nat.leb]; try lia; (split; [reflexivity|split; [reflexivity|lra]]).
Qed.
Theorem C78_KHB A delta r1 r2 Ur : only_modes (modes2 N) tr ->
  divfree F2 K (velo2 (KHB_initialize T (mesh2 N) (N a1) A delta r1 r2 Ur)).
Proof.
  intros Ho k. unfold kdot, velo2, KHB_initialize, fwdV. cbn [elems F2 CsumL fwd].
  rewrite (only_second _ (shear (N a1) delta) k Ho), (only_first _ (fun a => A * sin (2 * mesh2 N a0 (a, 0%nat))) k Ho).
  - ring.
  - intros a b Ha Hb. apply (KHB_row A delta r1 r2 Ur a b Hb).
  - intros a b Ha Hb. apply (KHB_row A delta r1 r2 Ur a b Hb).
Qed.
(** The two layers balance: no mean velocity, and the mean density is 2 - (rho1+rho2)/2 whatever the options say: it is
    0 for the default rho1 = 1, rho2 = 3 only; the jump is always from 1 to 3. *)
Lemma shear_sum h delta : N a1 = (2 * h)%nat -> Rsum (N a1) (shear (N a1) delta) = 0.
Proof.
  intros Hh. pose proof (HN a1) as H1. rewrite Hh in *. assert (Hd : (2 * h / 2 = h)%nat) by (rewrite Nat.mul_comm; apply Nat.div_mul; lia).
  replace (2 * h)%nat with (h + h)%nat at 1 by lia. rewrite Rsum_split.
  rewrite (Rsum_ext h (fun i => shear (2 * h) delta (h + i)) (fun i => - shear (2 * h) delta i)); [rewrite Rsum_opp; lra|].
  intros i Hi. unfold shear. cbv zeta. rewrite Hd.
  destruct (Nat.ltb_spec (h + i) h); [lia|]. destruct (Nat.ltb_spec i h); [|lia]. f_equal. f_equal. f_equal.
  replace 0.5 with (1 / 2) by lra. replace 1.5 with (3 / 2) by lra. rewrite plus_INR, mult_INR. cbn [INR]. assert (INR h <> 0) by (apply not_0_INR; lia). field. assumption.
Qed.
Theorem C78_KHB_mean A delta r1 r2 Ur h : N a1 = (2 * h)%nat ->
  let f := KHB_field (mesh2 N) (N a1) A delta r1 r2 Ur in
  RsumL (points2 N) (f (Some a0)) = 0 /\
  RsumL (points2 N) (f None) = INR (N a0) * INR (N a1) * (2 - (r1 + r2) / 2).
Proof.
  intros Hh. cbv zeta. unfold points2. rewrite !RsumL_prod, !RsumL_seq. split.
  - apply Rsum_0. intros a Ha. rewrite RsumL_seq. rewrite <- (shear_sum h delta Hh). apply Rsum_ext. intros b Hb.
    apply (KHB_row A delta r1 r2 Ur a b Hb).
  - rewrite (Rsum_ext _ _ (fun _ => INR (N a1) * (2 - (r1 + r2) / 2))); [rewrite Rsum_const; ring|].
    intros a Ha. rewrite RsumL_seq. rewrite (Rsum_ext _ _ (fun b => (2 - (r1 + r2) / 2) + shear (N a1) delta b)).
    + rewrite Rsum_add, Rsum_const, (shear_sum h) by exact Hh. ring.
    + intros b Hb. rewrite (proj2 (proj2 (KHB_row A delta r1 r2 Ur a b Hb))). lra.
Qed.
Theorem C78_KHB_run {X E} (Tp : transf idx X) mask nu Ri Pr est upd (out : R -> nat -> svec axb idx -> bqbuf idx X * E -> _) rnd Tend fuel g s0 st
    A delta r1 r2 Ur : only_modes (modes2 N) tr -> update_keeps upd (fun v => divfree F2 K (velo2 v)) ->
  at_start s0 (KHB_initialize T (mesh2 N) (N a1) A delta r1 r2 Ur) ->
  observed (ComputeRHS_Bq Tp K mask nu Ri Pr) est upd out rnd Tend fuel g s0 st -> divfree F2 K (velo2 (solution (l_w st))).
Proof. intros Ho Hu Hs Hr. refine (C04_Bq2D Tp K mask nu Ri Pr est upd out rnd Tend fuel g s0 st _ _ Hu Hs Hr). apply C78_KHB, Ho. Qed.
End Two.

(** KelvinHelmholtz.py: divergence free, no mean, no masked modes, with any transform *)
Section KH.
Context {I : Type} (T : transf I (nat * nat)) (mesh : ax2 -> nat * nat -> R) (K : ax2 -> I -> R).
Notation init := (KH_initialize T mesh K (K_over_K2_of F2 K)).
Theorem C78_KH mask is00 N1 U1 U2 A delta U :
  let U_hat := init mask is00 N1 U1 U2 A delta U in
  divfree F2 K U_hat /\ (forall i k, is00 k = true -> U_hat i k = C0) /\ (forall i k, masked mask i k -> U_hat i k = C0).
Proof.
  cbv zeta. set (V := fwdV T (KH_field mesh N1 U1 U2 A delta U)).
  assert (P : forall i k, (V i k - (RtoC (K a0 k) * V a0 k + RtoC (K a1 k) * V a1 k) * RtoC (K_over_K2_of F2 K i k))%C
                          = project F2 V K (K_over_K2_of F2 K) i k).
  { intros i k. unfold project. cbn [elems F2 CsumL]. unfold RCmul.
    assert (G : forall j, K_over_K2_of F2 K j k = K j k * / where_K2_0 (K2_of F2 K) k) by reflexivity.
    rewrite !G, !RtoC_mul. ring. }
  assert (D : divfree F2 K (project F2 V K (K_over_K2_of F2 K))) by apply (C05_project F2 K V).
  assert (Z : forall k, kdot F2 K (fun i k => if is00 k then C0 else project F2 V K (K_over_K2_of F2 K) i k) k = C0).
  { intros k. unfold kdot. destruct (is00 k); [apply CsumL_0; intros; ring|apply D]. }
  assert (E : init mask is00 N1 U1 U2 A delta U = mask_nyquist mask (fun i k => if is00 k then C0 else project F2 V K (K_over_K2_of F2 K) i k)).
  { unfold KH_initialize. fold V. cbv zeta. f_equal. extensionality i; extensionality k. destruct (is00 k); [reflexivity|apply P]. }
  rewrite E. split; [|split].
  - intros k. destruct mask as [m|]; [|apply Z]. unfold kdot, mask_nyquist. destruct (m k) eqn:Em; [apply Z|apply CsumL_0; intros; ring].
  - intros i k Hk. destruct mask as [m|]; cbn [mask_nyquist]; [destruct (m k); [|reflexivity]|]; rewrite Hk; reflexivity.
  - intros i k. unfold masked. destruct mask as [m|]; [|intros []]. cbn [mask_nyquist]. intros ->. reflexivity.
Qed.
(** The slices cover every column once: nothing of the old contents is left, the velocity stays between U1 and U2. *)
Theorem C78_KH_profile N1 q M0 U1 U2 A delta U a b : N1 = (4 * q)%nat -> (b < N1)%nat -> 0 < delta ->
  (forall i, mesh i = mesh2 (fun j => match j with a0 => M0 | a1 => N1 end) i) ->
  KH_field mesh N1 U1 U2 A delta U a1 (a, b) = A * sin (2 * mesh a0 (a, b)) /\
  Rabs (KH_field mesh N1 U1 U2 A delta U a0 (a, b) - (U1 + U2) / 2) <= Rabs (U1 - U2) / 2.
Proof.
  intros Hq Hb Hd Hm. split; [reflexivity|].
  assert (Hq4 : (N1 / 4 = q)%nat) by (rewrite Hq, Nat.mul_comm; apply Nat.div_mul; lia).
  assert (Hq2 : (N1 / 2 = 2 * q)%nat) by (rewrite Hq; replace (4 * q)%nat with (2 * q * 2)%nat by lia; apply Nat.div_mul; lia).
  assert (Hq3 : (3 * N1 / 4 = 3 * q)%nat) by (rewrite Hq; replace (3 * (4 * q))%nat with (3 * q * 4)%nat by lia; apply Nat.div_mul; lia).
  assert (HN : 0 < INR N1) by (apply lt_0_INR; lia). pose proof PI_RGT_0 as HPI.
  assert (Hy : mesh a1 (a, b) = PI / 2 * (INR b / INR q)).
  { rewrite Hm. cbn [mesh2 snd]. rewrite Hq, mult_INR. replace (INR 4) with 4 by (cbn; lra). field.
    apply not_0_INR. lia. }
  assert (Hiq : 0 < INR q) by (apply lt_0_INR; lia).
  assert (Hle : forall c, (b <= c * q)%nat -> INR b / INR q <= INR c).
  { intros c Hc. apply le_INR in Hc. rewrite mult_INR in Hc. apply Rmult_le_reg_r with (INR q); [exact Hiq|].
    unfold Rdiv. rewrite Rmult_assoc, Rinv_l by lra. lra. }
  assert (Hge : forall c, (c * q <= b)%nat -> INR c <= INR b / INR q).
  { intros c Hc. apply le_INR in Hc. rewrite mult_INR in Hc. apply Rmult_le_reg_r with (INR q); [exact Hiq|].
    unfold Rdiv. rewrite Rmult_assoc, Rinv_l by lra. lra. }
  assert (He : forall z, z <= 0 -> 0 < exp (z / delta) <= 1).
  { intros z Hz. split; [apply exp_pos|]. rewrite <- exp_0. destruct (Rle_lt_or_eq_dec z 0 Hz) as [Hl| ->].
    - left. apply exp_increasing. unfold Rdiv. pose proof (Rinv_0_lt_compat delta Hd). nra.
    - right. f_equal. unfold Rdiv. ring. }
  assert (Hfin : forall e, 0 < e <= 1 -> Rabs (U1 - 0.5 * (U1 - U2) * e - (U1 + U2) / 2) <= Rabs (U1 - U2) / 2 /\
                           Rabs (U2 + 0.5 * (U1 - U2) * e - (U1 + U2) / 2) <= Rabs (U1 - U2) / 2).
  { intros e Hx. replace (U1 - 0.5 * (U1 - U2) * e - (U1 + U2) / 2) with ((U1 - U2) * ((1 - e) / 2)) by lra.
    replace (U2 + 0.5 * (U1 - U2) * e - (U1 + U2) / 2) with (- ((U1 - U2) * ((1 - e) / 2))) by lra.
    rewrite Rabs_Ropp, Rabs_mult, (Rabs_right ((1 - e) / 2)) by lra. pose proof (Rabs_pos (U1 - U2)). split; nra. }
  set (r := INR b / INR q) in *.
  unfold KH_field, upd, set_columns. cbn [eqd F2 eqb2 snd]. rewrite Hq4, Hq2, Hq3.
  destruct (Nat.leb_spec (3 * q) b) as [H1|H1]; destruct (Nat.ltb_spec b N1) as [H2|H2]; cbn [andb]; try lia.
  { apply Hfin, He. rewrite Hy. pose proof (Hge 3%nat H1) as G. replace (INR 3) with 3 in G by (cbn; lra). nra. }
  destruct (Nat.leb_spec (2 * q) b) as [H3|H3]; destruct (Nat.ltb_spec b (3 * q)) as [H4|H4]; cbn [andb]; try lia.
  { apply Hfin, He. rewrite Hy. pose proof (Hle 3%nat ltac:(lia)) as G. replace (INR 3) with 3 in G by (cbn; lra). nra. }
  destruct (Nat.leb_spec q b) as [H5|H5]; destruct (Nat.ltb_spec b (2 * q)) as [H6|H6]; cbn [andb]; try lia.
  { apply Hfin, He. rewrite Hy. pose proof (Hge 1%nat ltac:(lia)) as G. cbn [INR] in G. nra. }
  destruct (Nat.ltb_spec b q) as [H7|H7]; cbn [andb Nat.leb]; [|lia].
  apply Hfin, He. rewrite Hy. pose proof (Hle 1%nat ltac:(lia)) as G. cbn [INR] in G. nra.
Qed.
Theorem C78_KH_run {X E} (Tp : transf I X) mask nu est upd (out : R -> nat -> svec ax2 I -> ns2buf I X * E -> _) rnd Tend fuel g s0 st
    is00 N1 U1 U2 A delta U : update_keeps upd (divfree F2 K) -> at_start s0 (init mask is00 N1 U1 U2 A delta U) ->
  observed (ComputeRHS_NS2D Tp K mask nu (fun _ _ => C0)) est upd out rnd Tend fuel g s0 st -> divfree F2 K (solution (l_w st)).
Proof.
  intros Hu Hs Hr. refine (proj1 (C01_NS2D Tp K mask nu _ est upd out rnd Tend fuel g s0 st _ _ _ Hu Hs Hr)).
  - apply C78_KH.
  - intros k. unfold kdot. apply CsumL_0. intros; ring.
Qed.

End KH.

(** Vortices2D.py: the velocity is divergence free and its vorticity is the three vortices without their mean, in every
    mode below the Nyquist column; in that column the transforms drop one component and the rest is not divergence free. *)
Section V2.
Notation idx := (nat * nat)%type.
Context (N : ax2 -> nat) (tr : idx -> R) (HN0 : (3 <= N a0)%nat) (HN1 : (3 <= N a1)%nat).
Context (Htr : forall k, In k (modes2 N) -> tr k = 1).
Notation K := (wavenumber2 N).
Notation T := (mkTransf idx idx (irfft2 N N tr) (rfft2 N N tr)).
Notation init := (Vortices2D_initialize T (mesh2 N) (K_over_K2_of F2 K)).
Notation w := (rfft2 N N tr (Vortices2D_w (mesh2 N))).
Notation q := (fun i k => K_over_K2_of F2 K i k).
Lemma K_partner k : In k (modes2 N) -> (2 * fst k <> N a0)%nat -> K a0 (partner N k) = - K a0 k /\ K a1 (partner N k) = K a1 k.
Proof.
  intros Hk Hn. apply in_modes in Hk; [|assumption|assumption]. split; [|reflexivity]. cbn [wavenumber2 partner fst]. rewrite <- opp_IZR. f_equal.
  unfold neg0, freq. destruct (Nat.eq_dec (fst k) 0) as [E|E].
  - rewrite E, Nat.sub_0_r, Nat.mod_same by lia. destruct (Nat.ltb_spec (2 * 0) (N a0)); lia.
  - rewrite Nat.mod_small by lia. destruct (Nat.ltb_spec (2 * (N a0 - fst k)) (N a0)); destruct (Nat.ltb_spec (2 * fst k) (N a0)); lia.
Qed.
Lemma q_eq i k : q i k = K i k * / where_K2_0 (K2_of F2 K) k.
Proof. reflexivity. Qed.
Lemma K2_F2 k : K2_of F2 K k = K a0 k * K a0 k + (K a1 k * K a1 k + 0).
Proof. unfold K2_of. cbn [elems F2 fold_left]. ring. Qed.
Lemma q_partner k : In k (modes2 N) -> (2 * fst k <> N a0)%nat -> q a0 (partner N k) = - q a0 k /\ q a1 (partner N k) = q a1 k.
Proof.
  intros Hk Hn. destruct (K_partner k Hk Hn) as [E0 E1].
  assert (E : where_K2_0 (K2_of F2 K) (partner N k) = where_K2_0 (K2_of F2 K) k).
  { unfold where_K2_0. replace (K2_of F2 K (partner N k)) with (K2_of F2 K k); [reflexivity|]. rewrite !K2_F2, E0, E1. ring. }
  rewrite !q_eq, E, E0, E1. split; ring.
Qed.
Lemma V2_modes U k : In k (modes2 N) -> (2 * snd k <> N a1)%nat -> (snd k = 0 -> 2 * fst k <> N a0)%nat ->
  init U a0 k = (Ci * RtoC (q a1 k) * w k)%C /\ init U a1 k = (- Ci * RtoC (q a0 k) * w k)%C.
Proof.
  intros Hk H1 H0. unfold Vortices2D_initialize, fwdV, upd. cbn [eqd F2 eqb2 fwd bwd]. rewrite !roundtrip2 by assumption.
  destruct (paired N k) eqn:Ep; [|split; reflexivity]. rewrite (rfft2_herm N tr HN0 HN1 Htr _ k Hk Ep).
  unfold paired in Ep. apply Bool.orb_true_iff in Ep. rewrite !Nat.eqb_eq in Ep. destruct Ep as [Ep|Ep]; [|contradiction].
  destruct (q_partner k Hk (H0 Ep)) as [E0 E1].
  assert (Z : q a1 k = 0) by (rewrite q_eq; cbn [wavenumber2]; rewrite Ep; cbn [INR]; ring).
  cbv beta in E0, E1, Z. rewrite E0, E1, Z, RtoC_opp, RtoC_0, !Cconj_mul, !Cconj_opp, Cconj_i, Cconj_R, Cconj_0, !Cconj_conj.
  split; apply C_eq; unfold RtoC, Cmul, Cadd, Copp, Ci, C0; cbn [fst snd]; field.
Qed.
Theorem C78_Vortices2D U k : In k (modes2 N) -> (2 * snd k <> N a1)%nat -> (snd k = 0 -> 2 * fst k <> N a0)%nat ->
  kdot F2 K (init U) k = C0 /\ vort2d K (init U) k = if Req_EM_T (knorm2 F2 K k) 0 then C0 else w k.
Proof.
  intros Hk H1 H0. destruct (V2_modes U k Hk H1 H0) as [V0 V1]. cbv beta in V0, V1. split.
  - unfold kdot. cbn [elems F2 CsumL]. rewrite V0, V1, (q_eq a0 k : K_over_K2_of F2 K a0 k = _), (q_eq a1 k : K_over_K2_of F2 K a1 k = _), !RtoC_mul. ring.
  - unfold vort2d. rewrite V0, V1. destruct (Req_EM_T (knorm2 F2 K k) 0) as [E|E].
    + apply (knorm2_0 F2) in E. rewrite !(E _), RtoC_0. ring.
    + assert (Hn : ~ is_mean K k) by (intros Hx; apply E, knorm2_0, Hx).
      rewrite !(K_over_K2_nz F2 K _ k Hn), !RtoC_div by exact E.
      assert (EK : (RtoC (K a0 k) * RtoC (K a0 k) + RtoC (K a1 k) * RtoC (K a1 k) = RtoC (knorm2 F2 K k))%C)
        by (unfold knorm2; cbn [elems F2 RsumL]; rewrite !RtoC_add, !RtoC_mul, RtoC_0; ring).
      assert (En : RtoC (knorm2 F2 K k) <> C0) by (apply RtoC_neq0, E).
      transitivity (- (Ci * Ci) * (RtoC (K a0 k) * RtoC (K a0 k) + RtoC (K a1 k) * RtoC (K a1 k)) / RtoC (knorm2 F2 K k) * w k)%C.
      * field. exact En.
      * rewrite EK, Ci_sq. field. exact En.
Qed.
Theorem C78_Vortices2D_nyquist U k : In k (modes2 N) -> (2 * snd k = N a1)%nat -> (2 * fst k <> N a0)%nat ->
  kdot F2 K (init U) k = (- Ci * RtoC (K a0 k * K a1 k / knorm2 F2 K k) * w k)%C.
Proof.
  intros Hk H1 H0. assert (Ep : paired N k = true) by (unfold paired; apply Bool.orb_true_iff; right; apply Nat.eqb_eq, H1).
  destruct (q_partner k Hk H0) as [E0 E1]. cbv beta in E0, E1.
  assert (Hn : ~ is_mean K k).
  { intros Hx. specialize (Hx a1). cbn [wavenumber2] in Hx. revert Hx. apply not_0_INR. lia. }
  assert (V0 : init U a0 k = C0).
  { unfold Vortices2D_initialize, fwdV, upd. cbn [eqd F2 eqb2 fwd bwd]. rewrite !roundtrip2 by assumption. rewrite Ep, (rfft2_herm N tr HN0 HN1 Htr _ k Hk Ep).
    rewrite E1, !Cconj_mul, Cconj_i, Cconj_R, !Cconj_conj. ring. }
  assert (V1 : init U a1 k = (- Ci * RtoC (K_over_K2_of F2 K a0 k) * w k)%C).
  { unfold Vortices2D_initialize, fwdV, upd. cbn [eqd F2 eqb2 fwd bwd]. rewrite !roundtrip2 by assumption. rewrite Ep, (rfft2_herm N tr HN0 HN1 Htr _ k Hk Ep).
    rewrite E0, RtoC_opp, !Cconj_mul, !Cconj_opp, Cconj_i, Cconj_R, !Cconj_conj.
    apply C_eq; unfold RtoC, Cmul, Cadd, Copp, Ci; cbn [fst snd]; field. }
  unfold kdot. cbn [elems F2 CsumL]. rewrite V0, V1, (K_over_K2_nz F2 K _ k Hn). unfold Rdiv. rewrite !RtoC_mul. ring.
Qed.
End V2.

(** ** the claims that fail *)
Section Refuted.
Definition all_modes (N : ax3 -> nat) (k : nat * nat * nat) : R :=
  let '(a, b, c) := k in if ((a <? N x0) && (b <? N x1) && (c <? N x2 / 2 + 1))%nat%bool then 1 else 0.
Lemma all_modes_only N : only_modes (modes3 N) (all_modes N).
Proof.
  intros [[a b] c] H. unfold all_modes. destruct (Nat.ltb_spec a (N x0)), (Nat.ltb_spec b (N x1)), (Nat.ltb_spec c (N x2 / 2 + 1)); cbn [andb]; try reflexivity.
  exfalso. apply H. unfold modes3, grid. rewrite !in_prod_iff, !in_seq. lia.
Qed.
Notation k1 := (fun _ : ax3 => / INR 1).
Notation T3 N := (mkTransf _ _ (irfft3 N N (all_modes N)) (rfft3 N N (all_modes N))).
(** two points in one direction do not resolve the wave *)
Definition N244 (i : ax3) : nat := match i with x0 => 2 | _ => 4 end.
Theorem C78_TG_coarse_refuted :
  ~ (forall N, (forall i, (0 < N i)%nat) -> forall U, divfree F3 (wavenumber N k1) (TG_initialize1 (T3 N) (mesh3 N k1) U)).
Proof.
  intros H. specialize (H N244 ltac:(intros []; cbn; lia) (fun _ _ => 0) (1, 1, 1)%nat).
  rewrite kdot3 in H. unfold TG_initialize1, set_velocity_NS, fwdV, TG_field, upd in H. cbn [fwd eqd F3 eqb3] in H.
  assert (HN : forall i, (0 < N244 i)%nat) by (intros []; cbn; lia).
  assert (A : forall i x, mesh3 N244 k1 i x = let '(a, b, c) := x in ang (N244 i) 1 (match i with x0 => a | x1 => b | x2 => c end)).
  { intros i x. apply (mesh3_ang N244 (fun _ => 1%nat)). intros _. lia. }
  rewrite (sep3 N244 (all_modes N244) _ (fun j => sin (ang 2 1 j)) (fun j => cos (ang 4 1 j)) (fun j => cos (ang 4 1 j))) in H; [|exact HN|intros; rewrite !A; reflexivity].
  rewrite (sep3 N244 (all_modes N244) _ (fun j => - cos (ang 2 1 j)) (fun j => sin (ang 4 1 j)) (fun j => cos (ang 4 1 j))) in H; [|exact HN|intros; rewrite !A; reflexivity].
  rewrite rfft3_zero, hat_neg in H. change (N244 x0) with 2%nat in H. change (N244 x1) with 4%nat in H. change (N244 x2) with 4%nat in H.
  rewrite !hat_cos, !hat_sin in H by lia. unfold delta in H.
  repeat match type of H with context [(?a mod ?b =? 0)%Z] => let v := eval vm_compute in (a mod b =? 0)%Z in change (a mod b =? 0)%Z with v in H end.
  replace (wavenumber N244 k1 x1 (1, 1, 1)%nat) with 1 in H by (cbn; field).
  replace (all_modes N244 (1, 1, 1)%nat) with 1 in H by reflexivity.
  apply (f_equal snd) in H. cbv [Cmul Cadd Csub Copp RtoC C0 C1 Ci fst snd] in H. lra.
Qed.
(** with init = 'random' Vortices.py starts from a vorticity that is not solenoidal: no velocity has it as its curl *)
Theorem C78_Vortices_random_refuted : ~ (forall N, (forall i, (2 < N i)%nat) -> forall randn,
  divfree F3 (wavenumber N k1) (Vortices_initialize (T3 N) (mesh3 N k1) true randn)).
Proof.
  intros H. set (N := fun _ : ax3 => 4%nat). specialize (H N ltac:(intros i; change (N i) with 4%nat; lia) (fun i x => match i with x0 => sin (mesh3 N k1 x0 x) | _ => 0 end) (1, 0, 0)%nat).
  rewrite kdot3 in H. unfold Vortices_initialize, fwdV in H. cbn [fwd] in H.
  assert (A : forall i x, mesh3 N k1 i x = let '(a, b, c) := x in ang (N i) 1 (match i with x0 => a | x1 => b | x2 => c end)).
  { intros i x. apply (mesh3_ang N (fun _ => 1%nat)). intros _. lia. }
  assert (E : (fun _ : nat * nat * nat => 0.3 * 0) = (fun _ => 0)) by (extensionality x; ring).
  rewrite (sep3 N (all_modes N) (fun x => 0.3 * sin (mesh3 N k1 x0 x)) (fun j => sin (ang 4 1 j)) (fun _ => 0.3) (fun _ => 1)) in H; [|intros i; change (N i) with 4%nat; lia|intros; rewrite !A; unfold N; ring].
  assert (Hh : forall c, hat 4 (fun _ => c) 0 = RtoC c).
  { intros c. unfold hat, wv. cbn [Csum].
    assert (Hw : forall j, cis (2 * PI * 0 * INR j / INR 4) = C1) by (intros j; rewrite <- cis_0; f_equal; unfold Rdiv; ring).
    rewrite !Hw. apply C_eq; unfold RtoC, Cmul, Cadd, C1, C0, Cconj; cbn [fst snd INR]; field. }
  rewrite E, rfft3_zero, hat_sin in H by lia. change (wn N x1 (1, 0, 0)%nat) with 0%Z in H. change (wn N x2 (1, 0, 0)%nat) with 0%Z in H.
  change (N x1) with 4%nat in H. change (N x2) with 4%nat in H. change (N x0) with 4%nat in H.
  rewrite !Hh in H. unfold delta in H.
  repeat match type of H with context [(?a mod ?b =? 0)%Z] => let v := eval vm_compute in (a mod b =? 0)%Z in change (a mod b =? 0)%Z with v in H end.
  replace (wavenumber N k1 x0 (1, 0, 0)%nat) with 1 in H by (cbn; field).
  replace (all_modes N (1, 0, 0)%nat) with 1 in H by reflexivity.
  apply (f_equal snd) in H. cbv [Cmul Cadd Csub Copp RtoC C0 C1 Ci fst snd] in H. lra.
Qed.
End Refuted.
(** the hypotheses hold on a box with unequal sides, the field is not zero, and the 2D theorems apply to real modes *)
Example C78_nonvacuous :
  resolved3 (fun _ => 8%nat) (fun i => match i with x0 => 1 | x1 => 2 | x2 => 3 end)%nat /\
  only_modes (modes3 (fun _ => 4%nat)) (all_modes (fun _ => 4%nat)) /\
  TG_initialize1 (mkTransf _ _ (irfft3 (fun _ => 4%nat) (fun _ => 4%nat) (all_modes (fun _ => 4%nat))) (rfft3 (fun _ => 4%nat) (fun _ => 4%nat) (all_modes (fun _ => 4%nat))))
    (mesh3 (fun _ => 4%nat) (fun _ => / INR 1)) (fun _ _ => 7) x0 (1, 1, 1)%nat = (0, - / 8) /\
  (let N := fun i => match i with a0 => 4 | a1 => 6 end%nat in
   In (1, 1)%nat (modes2 N) /\ (2 * 1 <> N a1)%nat /\ In (1, 3)%nat (modes2 N) /\ (2 * 3 = N a1)%nat /\ knorm2 F2 (wavenumber2 N) (1, 3)%nat = 10).
Proof.
  split; [|split; [|split]].
  - split; intros []; lia.
  - apply all_modes_only.
  - rewrite (TG_hat (fun _ => 4%nat) (fun _ => 1%nat)) by (split; intros; lia).
    rewrite !hat_cos, !hat_sin by lia. unfold delta.
    repeat match goal with |- context [(?a mod ?b =? 0)%Z] => let v := eval vm_compute in (a mod b =? 0)%Z in change (a mod b =? 0)%Z with v end.
    replace (all_modes (fun _ => 4%nat) (1, 1, 1)%nat) with 1 by reflexivity.
    apply C_eq; cbv [Cmul Cadd Csub Copp RtoC C0 C1 Ci fst snd]; lra.
  - cbv zeta. unfold modes2. rewrite !in_prod_iff, !in_seq. unfold knorm2. cbn. repeat split; try lia; lra.
Qed.
Print Assumptions C78_TG.
Print Assumptions C78_TG_VV.
Print Assumptions C78_TGMHD.
Print Assumptions C78_energy.
Print Assumptions C78_TG_run.
Print Assumptions C78_TGMHD_run.
Print Assumptions C78_Vortices.
Print Assumptions C78_KHB.
Print Assumptions C78_KHB_mean.
Print Assumptions C78_KHB_run.
Print Assumptions C78_KH.
Print Assumptions C78_KH_profile.
Print Assumptions C78_KH_run.
Print Assumptions C78_Vortices2D.
Print Assumptions C78_Vortices2D_nyquist.
Print Assumptions C78_TG_coarse_refuted.
Print Assumptions C78_Vortices_random_refuted.
