(** C06, C07, C61-C63: energy and helicity budgets of the right hand sides. *)
From Coq Require Import Reals Lra Lia List Arith ZArith Bool FunctionalExtensionality.
From Verif Require Import Base.Cplx Base.Sums Base.Fin Spec.Env Spec.Fourier Spec.Energy
  Model.Maths Model.NS Model.NS2D Model.VV Model.Bq2D Proofs.Common Proofs.NSProofs Proofs.VVProofs Proofs.BqProofs
  Proofs.EnergyProofs.
Import ListNotations.
Open Scope R_scope.

Section Budget.
Context {I X : Type} (T : transf I X) (ms : list I) (w : I -> R) (xs : list X) (c : R).
(** the dealiased transforms are transposes of each other (true for every real FFT with padding
    or truncation, see [rfft3_adjoint] and the *_rfft theorems below) *)
Context (Ha : adjoint ms w xs c (bwd T) (fwd T)).
Notation zero := (fun _ _ => C0).

(** ** C06 *)
(** the convection term alone *)
Theorem C06_convection (K : ax3 -> I -> R) (cv : conv_kind) (u rhs : svec ax3 I) b :
  cv = Vortex \/ cv = Skewed -> power F3 ms w u (fst (Conv T K cv rhs u b)) = 0.
Proof.
  intros Hc. rewrite Conv_spec. destruct Hc as [-> | ->]; [eapply vortex_power|eapply skewed_power]; eassumption.
Qed.
(** ComputeRHS without viscosity and source *)
Theorem C06_NS (K : ax3 -> I -> R) (cv : conv_kind) mask (u rhs : svec ax3 I) b :
  cv = Vortex \/ cv = Skewed -> divfree F3 K u -> (forall i k, masked mask i k -> u i k = C0) ->
  power F3 ms w u (fst (ComputeRHS_NS T K cv mask 0 zero b rhs u)) = 0.
Proof.
  intros Hc Hd Hm. rewrite ComputeRHS_NS_fst, power_rhs by auto.
  pose proof (C06_convection K cv u rhs b Hc) as H. rewrite Conv_spec in H. rewrite H.
  unfold power. rewrite (RsumL_0 _ (fun i => inner ms w (u i) (fun _ => C0))).
  - ring.
  - intros. apply inner_0. intros. unfold Re, Cconj, C0; simpl. ring.
Qed.
Theorem C06_NS2D (K : ax2 -> I -> R) mask (u rhs : svec ax2 I) b :
  divfree F2 K u -> (forall i k, masked mask i k -> u i k = C0) ->
  power F2 ms w u (fst (ComputeRHS_NS2D T K mask 0 zero b rhs u)) = 0.
Proof.
  intros Hd Hm. rewrite ComputeRHS_NS2D_fst, power_rhs by auto.
  rewrite (vortex2_power T ms w xs c Ha).
  unfold power. rewrite (RsumL_0 _ (fun i => inner ms w (u i) (fun _ => C0))).
  - ring.
  - intros. apply inner_0. intros. unfold Re, Cconj, C0; simpl. ring.
Qed.

(** ** C07: time derivative of the kinetic energy, d/ds E(u + s rhs) at s = 0 *)
Theorem C07_NS (K : ax3 -> I -> R) (cv : conv_kind) mask nu Source (u rhs : svec ax3 I) b :
  cv = Vortex \/ cv = Skewed -> divfree F3 K u -> (forall i k, masked mask i k -> u i k = C0) ->
  let du := fst (ComputeRHS_NS T K cv mask nu Source b rhs u) in
  derivable_pt_lim (fun s => energy F3 ms w (fun i k => u i k + RtoC s * du i k)%C) 0
    (- nu * gradsq F3 ms w (knorm2 F3 K) u + power F3 ms w u Source).
Proof.
  intros Hc Hd Hm du.
  replace (- nu * gradsq F3 ms w (knorm2 F3 K) u + power F3 ms w u Source) with (power F3 ms w u du).
  - apply energy_deriv.
  - unfold du. rewrite ComputeRHS_NS_fst, power_rhs by auto.
    pose proof (C06_convection K cv u rhs b Hc) as H. rewrite Conv_spec in H. rewrite H. ring.
Qed.
Theorem C07_NS2D (K : ax2 -> I -> R) mask nu Source (u rhs : svec ax2 I) b :
  divfree F2 K u -> (forall i k, masked mask i k -> u i k = C0) ->
  let du := fst (ComputeRHS_NS2D T K mask nu Source b rhs u) in
  derivable_pt_lim (fun s => energy F2 ms w (fun i k => u i k + RtoC s * du i k)%C) 0
    (- nu * gradsq F2 ms w (knorm2 F2 K) u + power F2 ms w u Source).
Proof.
  intros Hd Hm du.
  replace (- nu * gradsq F2 ms w (knorm2 F2 K) u + power F2 ms w u Source) with (power F2 ms w u du).
  - apply energy_deriv.
  - unfold du. rewrite ComputeRHS_NS2D_fst, power_rhs by auto.
    rewrite (vortex2_power T ms w xs c Ha). ring.
Qed.
(** never positive without source *)
Theorem C07_decay {D} (F : fin D) (K : D -> I -> R) nu (u : svec D I) :
  0 <= nu -> (forall k, In k ms -> 0 <= w k) -> - nu * gradsq F ms w (knorm2 F K) u <= 0.
Proof.
  intros Hn Hw. pose proof (gradsq_nonneg F ms w u (knorm2 F K) Hw (knorm2_nonneg F K)). nra.
Qed.
(** the energy is that of the velocity in physical space, when the mesh represents the field *)
Theorem C07_parseval {D} (F : fin D) (T0 : transf I X) c0 (U : pvec D X) (u : svec D I) :
  adjoint ms w xs c0 (bwd T0) (fwd T0) ->
  (forall i, u i = fwd T0 (U i)) -> (forall i x, In x xs -> bwd T0 (u i) x = U i x) ->
  energy F ms w u = c0 * RsumL (elems F) (fun i => RsumL xs (fun x => U i x * U i x)) / 2.
Proof.
  intros H0 Hu HU. unfold energy. f_equal. rewrite <- RsumL_scal. apply RsumL_ext. intros i _.
  transitivity (inner ms w (u i) (fwd T0 (U i))).
  - rewrite <- Hu. apply RsumL_ext. intros k _. unfold Re, Cconj, Cnorm2; simpl. ring.
  - rewrite (H0 _ _). f_equal. apply RsumL_ext. intros x Hx. rewrite HU by auto. reflexivity.
Qed.

(** ** C61 helicity *)
Lemma curl_selfadjoint (K : ax3 -> I -> R) (u v : svec ax3 I) :
  power F3 ms w u (curl_hat K v) = power F3 ms w (curl_hat K u) v.
Proof.
  rewrite !power_swap. apply RsumL_ext. intros k _. f_equal. cbn [elems F3 RsumL].
  unfold curl_hat, Re, Cconj, Ci, RtoC; simpl. ring.
Qed.
Lemma power_sym (u v : svec ax3 I) : power F3 ms w u v = power F3 ms w v u.
Proof.
  unfold power, inner. apply RsumL_ext. intros i _. apply RsumL_ext. intros k _. unfold Re, Cconj; simpl. ring.
Qed.
Lemma derivable_quad f a b d : (forall s, f s = a + s * b + s ^ 2 * d) -> derivable_pt_lim f 0 b.
Proof.
  intros E eps He. exists (mkposreal (eps / (Rabs d + 1))
     ltac:(apply Rdiv_lt_0_compat; [auto|pose proof (Rabs_pos d); lra])).
  intros h Hh Hd. cbn in Hd. rewrite !E.
  replace ((a + (0 + h) * b + (0 + h) ^ 2 * d - (a + 0 * b + 0 ^ 2 * d)) / h - b) with (h * d) by (field; auto).
  rewrite Rabs_mult. pose proof (Rabs_pos d). pose proof (Rabs_pos h).
  apply Rle_lt_trans with (Rabs h * (Rabs d + 1)); [nra|].
  apply Rmult_lt_compat_r with (r := Rabs d + 1) in Hd; [|lra].
  unfold Rdiv in Hd. rewrite Rmult_assoc, Rinv_l in Hd by lra. lra.
Qed.
Definition helicity (K : ax3 -> I -> R) (u : svec ax3 I) : R := power F3 ms w u (curl_hat K u).
Theorem C61_helicity (K : ax3 -> I -> R) mask nu (u rhs : svec ax3 I) b :
  (forall i k, masked mask i k -> u i k = C0) ->
  let du := fst (ComputeRHS_NS T K Vortex mask nu zero b rhs u) in
  derivable_pt_lim (fun s => helicity K (fun i k => u i k + RtoC s * du i k)%C) 0
    (- 2 * nu * power F3 ms w u (fun i k => RtoC (knorm2 F3 K k) * curl_hat K u i k)%C).
Proof.
  intros Hm du.
  assert (E : power F3 ms w (curl_hat K u) du
     = - nu * power F3 ms w u (fun i k => RtoC (knorm2 F3 K k) * curl_hat K u i k)%C).
  { unfold du. rewrite ComputeRHS_NS_fst.
    rewrite (power_ext F3 ms w (curl_hat K u) _ (fun i k => leray F3 K (mask_nyquist mask (conv_spec T K Vortex u)) i k
       + RtoC (- nu) * (RtoC (knorm2 F3 K k) * u i k))%C).
    2:{ intros i k _. rewrite RtoC_mul, RtoC_opp. ring. }
    rewrite power_add, power_leray by (intros k; apply kdot_curl).
    rewrite power_mask.
    - assert (E1 : power F3 ms w (curl_hat K u) (conv_spec T K Vortex u) = 0).
      { unfold power, conv_spec, ucrosscurl. cbn [elems F3 RsumL]. rewrite !(Ha _ _).
        rewrite Rplus_0_r, <- !Rmult_plus_distr_l, <- !RsumL_add.
        rewrite RsumL_0; [ring|]. intros x _. unfold crossR. ring. }
      rewrite E1, Rplus_0_l. unfold power. rewrite <- RsumL_scal. apply RsumL_ext. intros i _.
      rewrite inner_scal. f_equal. apply RsumL_ext. intros k _. unfold Re, Cconj, RtoC; simpl. ring.
    - intros i k Hk. unfold curl_hat. destruct i; rewrite !(Hm _ k) by exact Hk; ring. }
  replace (- 2 * nu * power F3 ms w u (fun i k => RtoC (knorm2 F3 K k) * curl_hat K u i k)%C)
    with (2 * power F3 ms w (curl_hat K u) du) by (rewrite E; ring).
  apply (derivable_quad _ (helicity K u) _ (helicity K du)). intros s. unfold helicity.
  assert (L : curl_hat K (fun i k => u i k + RtoC s * du i k)%C = (fun i k => curl_hat K u i k + RtoC s * curl_hat K du i k)%C).
  { extensionality i; extensionality k. unfold curl_hat. destruct i; ring. }
  rewrite L.
  assert (S1 : forall a v, power F3 ms w a (fun i k => RtoC s * v i k)%C = s * power F3 ms w a v).
  { intros a v. unfold power. rewrite <- RsumL_scal. apply RsumL_ext. intros. apply inner_scal. }
  rewrite power_add, S1, !(power_sym (fun i k => u i k + RtoC s * du i k)%C), !power_add, !S1.
  rewrite (power_sym (curl_hat K du) u), (curl_selfadjoint K u du), (power_sym (curl_hat K u) u), (power_sym (curl_hat K du) du). ring.
Qed.

(** ** C62 kinetic energy of the velocity-vorticity solver *)
Theorem C62_VV (K : ax3 -> I -> R) mask nu (wv rhs : svec ax3 I) b :
  (forall i k, masked mask i k -> wv i k = C0) ->
  let dw := fst (ComputeRHS_VV T K (K_over_K2_of F3 K) (K2_of F3 K) mask nu zero b rhs wv) in
  let vel := velocity_hat (K_over_K2_of F3 K) in
  derivable_pt_lim (fun s => energy F3 ms w (vel (fun i k => wv i k + RtoC s * dw i k)%C)) 0
    (- nu * gradsq F3 ms w (knorm2 F3 K) (vel wv)).
Proof.
  intros Hm dw vel. set (u := vel wv).
  assert (Hlin : forall (a v : svec ax3 I) s, vel (fun i k => a i k + RtoC s * v i k)%C = (fun i k => vel a i k + RtoC s * vel v i k)%C).
  { intros a v s. unfold vel. rewrite !velocity_hat_curl. extensionality i; extensionality k. unfold curl_hat. destruct i; ring. }
  assert (E : power F3 ms w u (vel dw) = - nu * gradsq F3 ms w (knorm2 F3 K) u).
  { set (v := mask_nyquist mask (fun i => fwd T (crossR (fun j => bwd T (u j)) (fun j => bwd T (wv j)) i)) : svec ax3 I).
    set (v' := fun i k => if Req_EM_T (knorm2 F3 K k) 0 then C0 else leray F3 K v i k : C).
    assert (Hv' : vel (curl_hat K v) = v').
    { unfold vel. replace (curl_hat K v) with (curl_hat K v').
      - apply velocity_of_curl.
        + intros k. unfold kdot, v'. destruct (Req_EM_T _ 0) as [E0|E0].
          * apply CsumL_0. intros; ring.
          * pose proof (kdot_leray F3 K v k) as H. exact H.
        + intros i k Hk. unfold v'. destruct (Req_EM_T _ 0) as [E0|E0]; [reflexivity|].
          exfalso. apply E0, knorm2_0, Hk.
      - extensionality i; extensionality k. unfold curl_hat, v', leray.
        destruct (Req_EM_T (knorm2 F3 K k) 0) as [E0|E0].
        + destruct i; rewrite !(mean_K F3 K _ k E0), RtoC_0; ring.
        + destruct i; ring. }
    assert (Hdw : vel dw = (fun i k => v' i k - RtoC (nu * knorm2 F3 K k) * u i k)%C).
    { unfold dw. rewrite ComputeRHS_VV_fst.
      transitivity (fun i k => vel (curl_hat K v) i k - RtoC (nu * knorm2 F3 K k) * u i k)%C.
      - unfold u, vel. rewrite !velocity_hat_curl. extensionality i; extensionality k.
        assert (Em : forall j, mask_nyquist mask (convVV_spec T K wv) j k = curl_hat K v j k).
        { intros j. unfold convVV_spec, v, u, vel. destruct mask as [mk|]; [|reflexivity]. unfold mask_nyquist.
          unfold curl_hat. destruct (mk k); [reflexivity|]. destruct j; ring. }
        unfold curl_hat at 1 3. destruct i; rewrite !Em; unfold curl_hat; ring.
      - rewrite Hv'. reflexivity. }
    rewrite Hdw.
    rewrite (power_ext F3 ms w u _ (fun i k => v' i k + (- (RtoC (nu * knorm2 F3 K k) * u i k)))%C) by (intros; ring).
    rewrite power_add, power_diff.
    assert (Hu : divfree F3 K u) by apply velocity_divfree.
    assert (E2 : power F3 ms w u v' = 0).
    { transitivity (power F3 ms w u (leray F3 K v)).
      - unfold power. apply RsumL_ext. intros i _. apply inner_ext0. intros k _. unfold v'.
        destruct (Req_EM_T _ 0) as [E0|E0]; [|reflexivity].
        unfold u, vel. rewrite velocity_mean by (apply (knorm2_0 F3), E0). unfold Re, Cconj, C0; simpl. ring.
      - rewrite power_leray by auto. unfold v. rewrite power_mask.
        + unfold power. cbn [elems F3 RsumL]. rewrite !(Ha _ _).
          rewrite Rplus_0_r, <- !Rmult_plus_distr_l, <- !RsumL_add.
          rewrite RsumL_0; [ring|]. intros x _. unfold crossR. ring.
        + intros i k Hk. unfold u, vel. rewrite velocity_hat_curl. unfold curl_hat.
          destruct i; rewrite !(Hm _ k) by exact Hk; ring. }
    rewrite E2. ring. }
  rewrite <- E. pose proof (energy_deriv F3 ms w u (vel dw)) as H.
  replace (fun s => energy F3 ms w (vel (fun i k => wv i k + RtoC s * dw i k)%C))
    with (fun s => energy F3 ms w (fun i k => u i k + RtoC s * vel dw i k)%C); [exact H|].
  extensionality s. rewrite Hlin. reflexivity.
Qed.

(** ** C63 kinetic energy of the Boussinesq solver: buoyancy flux and dissipation *)
Theorem C63_Bq (K : ax2 -> I -> R) mask nu Ri Pr (ur rhs : svec axb I) b :
  divfree F2 K (velo2 ur) -> (forall i k, masked mask i k -> velo2 ur i k = C0) ->
  let du := velo2 (fst (ComputeRHS_Bq T K mask nu Ri Pr b rhs ur)) in
  derivable_pt_lim (fun s => energy F2 ms w (fun i k => velo2 ur i k + RtoC s * du i k)%C) 0
    (- Ri * inner ms w (ur (Some a1)) (ur None) - nu * gradsq F2 ms w (knorm2 F2 K) (velo2 ur)).
Proof.
  intros Hd Hm du. set (u := velo2 ur) in *.
  replace (- Ri * inner ms w (ur (Some a1)) (ur None) - nu * gradsq F2 ms w (knorm2 F2 K) u)
    with (power F2 ms w u du); [apply energy_deriv|].
  unfold du. rewrite ComputeRHS_Bq_fst.
  rewrite (power_ext F2 ms w u _ (fun i k => leray F2 K (fun i k => mask_nyquist mask (velo2 (convB_spec T K ur)) i k + buoy Ri ur i k)%C i k
     + (- (RtoC (nu * knorm2 F2 K k) * u i k)))%C).
  2:{ intros i k _. unfold velo2, u.
      replace (fun (i0 : ax2) (k0 : I) => (mask_nyquist mask (convB_spec T K ur) (Some i0) k0 + buoy Ri ur i0 k0)%C)
        with (fun (i0 : ax2) (k0 : I) => (mask_nyquist mask (fun i => convB_spec T K ur (Some i)) i0 k0 + buoy Ri ur i0 k0)%C)
        by (destruct mask; reflexivity). unfold velo2. ring. }
  rewrite power_add, power_diff, power_leray by auto.
  rewrite (power_add F2 ms w u (mask_nyquist mask (velo2 (convB_spec T K ur)))), power_mask by auto.
  assert (E1 : power F2 ms w u (velo2 (convB_spec T K ur)) = 0).
  { exact (vortex2_power T ms w xs c Ha K u). }
  rewrite E1. unfold power. cbn [elems F2 RsumL].
  rewrite (inner_0 ms w (u a0)) by (intros; unfold buoy, Re, Cconj, C0; simpl; ring).
  assert (E2 : inner ms w (u a1) (buoy Ri ur a1) = - Ri * inner ms w (ur (Some a1)) (ur None)).
  { rewrite <- inner_scal. apply inner_ext0. intros k _. unfold buoy, u, velo2, Re, Cconj, RtoC; simpl. ring. }
  rewrite E2. ring.
Qed.
End Budget.

(** * The same for the real FFT on every mesh N, padded mesh M >= N and truncation tr *)
Section Fft.
Context (N M : ax3 -> nat) (tr : nat * nat * nat -> R) (k0 : ax3 -> R).
Context (HM : forall i, (0 < M i)%nat) (HN : (N x2 <= M x2)%nat).
(** the padded transform does not carry the unpaired mode of the last axis *)
Context (Htr : forall a b d, (2 * d = N x2)%nat -> M x2 <> N x2 -> tr (a, b, d) = 0).
Let Tp : transf (nat * nat * nat) (nat * nat * nat) := mkTransf _ _ (irfft3 N M tr) (rfft3 N M tr).
Let Hadj := rfft3_adjoint N M tr HM Htr HN.

Theorem C06_NS_rfft (cv : conv_kind) mask (u rhs : svec ax3 (nat * nat * nat)) b :
  cv = Vortex \/ cv = Skewed -> divfree F3 (wavenumber N k0) u -> (forall i k, masked mask i k -> u i k = C0) ->
  power F3 (modes3 N) (mult2 (N x2)) u
    (fst (ComputeRHS_NS Tp (wavenumber N k0) cv mask 0 (fun _ _ => C0) b rhs u)) = 0.
Proof. apply (C06_NS Tp _ _ _ _ Hadj). Qed.

Theorem C07_NS_rfft (cv : conv_kind) mask nu Source (u rhs : svec ax3 (nat * nat * nat)) b :
  cv = Vortex \/ cv = Skewed -> divfree F3 (wavenumber N k0) u -> (forall i k, masked mask i k -> u i k = C0) ->
  let du := fst (ComputeRHS_NS Tp (wavenumber N k0) cv mask nu Source b rhs u) in
  derivable_pt_lim (fun s => energy F3 (modes3 N) (mult2 (N x2)) (fun i k => u i k + RtoC s * du i k)%C) 0
    (- nu * gradsq F3 (modes3 N) (mult2 (N x2)) (knorm2 F3 (wavenumber N k0)) u
     + power F3 (modes3 N) (mult2 (N x2)) u Source).
Proof. apply (C07_NS Tp _ _ _ _ Hadj). Qed.

Theorem C61_helicity_rfft mask nu (u rhs : svec ax3 (nat * nat * nat)) b :
  (forall i k, masked mask i k -> u i k = C0) ->
  let du := fst (ComputeRHS_NS Tp (wavenumber N k0) Vortex mask nu (fun _ _ => C0) b rhs u) in
  derivable_pt_lim (fun s => helicity (modes3 N) (mult2 (N x2)) (wavenumber N k0) (fun i k => u i k + RtoC s * du i k)%C) 0
    (- 2 * nu * power F3 (modes3 N) (mult2 (N x2)) u
       (fun i k => RtoC (knorm2 F3 (wavenumber N k0) k) * curl_hat (wavenumber N k0) u i k)%C).
Proof. apply (C61_helicity Tp _ _ _ _ Hadj). Qed.
End Fft.

(** * Non-vacuity: u = (cos y, cos x, 0) on a 4^3 mesh with 3/2 padding, no truncated mode used *)
Definition exN (i : ax3) : nat := 4%nat.
Definition exM (i : ax3) : nat := 6%nat.
Definition extr (k : nat * nat * nat) : R := let '(_, _, d) := k in if (d =? 2)%nat then 0 else 1.
Definition exu (i : ax3) (k : nat * nat * nat) : C :=
  match i, k with
  | x0, (0, 1, 0)%nat | x0, (0, 3, 0)%nat | x1, (1, 0, 0)%nat | x1, (3, 0, 0)%nat => RtoC (/ 2)
  | _, _ => C0
  end.
Lemma exu_divfree : divfree F3 (wavenumber exN (fun _ => 1)) exu.
Proof.
  intros k. rewrite kdot3. destruct k as [[a b] d].
  destruct a as [|[|[|[|a]]]]; destruct b as [|[|[|[|b]]]]; destruct d as [|d];
  cbn [exu wavenumber freq exN Nat.mul Nat.add Nat.ltb Nat.leb Z.of_nat]; rewrite ?Rmult_0_l, ?RtoC_0; ring.
Qed.
Example ex_rate nu b rhs :
  let du := fst (ComputeRHS_NS (mkTransf _ _ (irfft3 exN exM extr) (rfft3 exN exM extr)) (wavenumber exN (fun _ => 1))
     Skewed None nu (fun _ _ => C0) b rhs exu) in
  derivable_pt_lim (fun s => energy F3 (modes3 exN) (mult2 4) (fun i k => exu i k + RtoC s * du i k)%C) 0 (- nu * 1).
Proof.
  intros du.
  assert (H := C07_NS_rfft exN exM extr (fun _ => 1) ltac:(intros; unfold exM; lia) ltac:(unfold exN, exM; lia)
     ltac:(intros a b' d Hd _; unfold exN in Hd; assert (d = 2%nat) as -> by lia; reflexivity)
     Skewed None nu (fun _ _ => C0) exu rhs b (or_intror eq_refl) exu_divfree ltac:(intros i k []; reflexivity)).
  cbv zeta in H. fold du in H. change (exN x2) with 4%nat in H.
  replace (power F3 (modes3 exN) (mult2 4) exu (fun _ _ => C0)) with 0 in H.
  2:{ unfold power. symmetry. apply RsumL_0. intros. apply inner_0. intros. unfold Re, Cconj, C0; simpl. ring. }
  rewrite Rplus_0_r in H.
  replace (gradsq F3 (modes3 exN) (mult2 4) (knorm2 F3 (wavenumber exN (fun _ => 1))) exu) with 1 in H; [exact H|].
  unfold gradsq, modes3, grid. cbn -[Rplus Rmult Cnorm2 INR knorm2 mult2 exu]. 
  unfold knorm2; cbn -[Rplus Rmult Rinv IZR Cnorm2 INR]. unfold Cnorm2, C0, RtoC; cbn -[Rplus Rmult IZR INR Rinv]. change (INR 0) with 0.
  field.
Qed.

Print Assumptions C06_convection.
Print Assumptions C06_NS.
Print Assumptions C06_NS2D.
Print Assumptions C06_NS_rfft.
Print Assumptions C07_NS.
Print Assumptions C07_NS2D.
Print Assumptions C07_decay.
Print Assumptions C07_parseval.
Print Assumptions C07_NS_rfft.
Print Assumptions C61_helicity.
Print Assumptions C61_helicity_rfft.
Print Assumptions C62_VV.
Print Assumptions C63_Bq.
