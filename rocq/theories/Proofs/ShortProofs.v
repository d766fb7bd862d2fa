(** Proofs about the stand-alone solver. *)
From Coq Require Import Reals ZArith List Arith Lra Lia FunctionalExtensionality Bool.
From Verif Require Import Base.Cplx Base.Sums Base.Fin Spec.Fourier Spec.RungeKutta
  Model.Maths Model.NS Model.Integrators Model.Short Proofs.Common Proofs.NSProofs.
Import ListNotations.

(** ** Aliasing *)
Section Alias.
Open Scope Z_scope.

Lemma below_kmax_iff N k : N mod 2 = 0 -> 0 < N -> below_kmax N k = true <-> 3 * Z.abs k < N + 2.
Proof.
  intros He Hp. unfold below_kmax, kmax_dealias.
  assert (E : N = 2 * (N / 2)) by (pose proof (Z.div_mod N 2); lia).
  destruct (Rlt_dec _ _) as [H|H].
  - split; [intros _|reflexivity].
    assert (H1 : (3 * IZR (Z.abs k) < 2 * IZR (N / 2 + 1))%R) by lra.
    rewrite <- !mult_IZR in H1. apply lt_IZR in H1. lia.
  - split; [discriminate|]. intros H1. exfalso. apply H.
    assert (H2 : 3 * Z.abs k < 2 * (N / 2 + 1)) by lia.
    apply IZR_lt in H2. rewrite !mult_IZR in H2. lra.
Qed.

Lemma kx_cases N i : 0 <= i < N -> kx N i = i \/ kx N i = i - N.
Proof. unfold kx, fftfreq. destruct (_ <? _); auto. Qed.
Lemma kx_low N i : N mod 2 = 0 -> 0 <= i -> 2 * i < N -> kx N i = i.
Proof.
  intros. unfold kx, fftfreq.
  assert (N = 2 * (N / 2)) by (pose proof (Z.div_mod N 2); lia).
  assert (2 * ((N - 1) / 2) <= N - 1 < 2 * ((N - 1) / 2) + 2) by (pose proof (Z.div_mod (N-1) 2); pose proof (Z.mod_pos_bound (N-1) 2); lia).
  destruct (Z.ltb_spec i ((N - 1) / 2 + 1)); lia.
Qed.
Lemma kx_high N i : N mod 2 = 0 -> i < N -> N <= 2 * i -> kx N i = i - N.
Proof.
  intros. unfold kx, fftfreq.
  assert (N = 2 * (N / 2)) by (pose proof (Z.div_mod N 2); lia).
  assert (2 * ((N - 1) / 2) <= N - 1 < 2 * ((N - 1) / 2) + 2) by (pose proof (Z.div_mod (N-1) 2); pose proof (Z.mod_pos_bound (N-1) 2); lia).
  destruct (Z.ltb_spec i ((N - 1) / 2 + 1)); lia.
Qed.

Lemma no_wrap N a b c : N mod 3 = 1 -> 3 * Z.abs a < N + 2 -> 3 * Z.abs b < N + 2 -> 3 * Z.abs c < N + 2 ->
  (N | a + b - c) -> a + b = c.
Proof.
  intros Hm Ha Hb Hc [q Hq].
  assert (E : N = 3 * (N / 3) + 1) by (pose proof (Z.div_mod N 3); lia).
  assert (Z.abs (a + b - c) < N) by lia.
  assert (q = 0) by nia. lia.
Qed.
End Alias.

(** ** Index arithmetic of the transposes *)
Section Index.
Open Scope nat_scope.
Lemma ix2_div d1 d2 i j k : j < d1 -> k < d2 -> ix2 d1 d2 i j k / (d1 * d2) = i.
Proof.
  intros. unfold ix2. rewrite (Nat.mul_comm d1 d2), <- Nat.div_div by lia.
  rewrite Nat.div_add_l by lia. rewrite (Nat.div_small k) by lia. rewrite Nat.add_0_r.
  rewrite Nat.div_add_l by lia. rewrite (Nat.div_small j) by lia. lia.
Qed.
Lemma ix2_mid d1 d2 i j k : j < d1 -> k < d2 -> (ix2 d1 d2 i j k / d2) mod d1 = j.
Proof.
  intros. unfold ix2. rewrite Nat.div_add_l by lia. rewrite (Nat.div_small k) by lia.
  rewrite Nat.add_0_r, Nat.add_comm, Nat.mod_add by lia. apply Nat.mod_small; lia.
Qed.
Lemma ix2_last d1 d2 i j k : k < d2 -> ix2 d1 d2 i j k mod d2 = k.
Proof.
  intros. unfold ix2. rewrite Nat.add_comm, Nat.mod_add by lia. apply Nat.mod_small; lia.
Qed.

Lemma rollaxis1_spec {A} s0 s1 s2 s3 (x : nat -> A) i0 i1 i2 i3 :
  i1 < s0 -> i2 < s2 -> i3 < s3 ->
  rollaxis1 s0 s1 s2 s3 x (ix3 s0 s2 s3 i0 i1 i2 i3) = x (ix3 s1 s2 s3 i1 i0 i2 i3).
Proof.
  intros. unfold rollaxis1. f_equal.
  assert (E3 : ix3 s0 s2 s3 i0 i1 i2 i3 mod s3 = i3).
  { unfold ix3. rewrite Nat.add_comm, Nat.mod_add by lia. apply Nat.mod_small; lia. }
  assert (D3 : ix3 s0 s2 s3 i0 i1 i2 i3 / s3 = (i0 * s0 + i1) * s2 + i2).
  { unfold ix3. rewrite Nat.div_add_l by lia. rewrite (Nat.div_small i3) by lia. lia. }
  assert (D2 : ix3 s0 s2 s3 i0 i1 i2 i3 / (s2 * s3) = i0 * s0 + i1).
  { rewrite (Nat.mul_comm s2 s3), <- Nat.div_div by lia. rewrite D3, Nat.div_add_l by lia.
    rewrite (Nat.div_small i2) by lia. lia. }
  assert (D1 : ix3 s0 s2 s3 i0 i1 i2 i3 / (s0 * s2 * s3) = i0).
  { replace (s0 * s2 * s3) with (s2 * s3 * s0) by ring. rewrite <- Nat.div_div by nia.
    rewrite D2, Nat.div_add_l by lia. rewrite (Nat.div_small i1) by lia. lia. }
  rewrite E3, D3, D2, D1.
  f_equal.
  - rewrite Nat.add_comm, Nat.mod_add by lia. apply Nat.mod_small; lia.
  - rewrite Nat.add_comm, Nat.mod_add by lia. apply Nat.mod_small; lia.
Qed.
Lemma Alltoall_spec {A} m (x : nat -> nat -> A) r s o : o < m ->
  Alltoall m x r (s * m + o) = x s (r * m + o).
Proof.
  intros. unfold Alltoall. rewrite Nat.div_add_l by lia. rewrite (Nat.div_small o) by lia.
  rewrite Nat.add_0_r. rewrite (Nat.add_comm (s * m)), Nat.mod_add by lia.
  rewrite (Nat.mod_small o) by lia. reflexivity.
Qed.

Section Transpose.
Context {A : Type} (N P Np : nat).
Let Nf := N / 2 + 1.
Hypothesis HN : N = P * Np.

(** fu[s*Np + a, b, c] on rank r is Uc_hatT[a, r*Np + b, c] of rank s *)
Lemma transpose_fwd_spec (x : nat -> nat -> A) r s a b c :
  r < P -> a < Np -> b < Np -> c < Nf ->
  transpose_fwd N P Np x r (ix2 Np Nf (s * Np + a) b c) = x s (ix2 N Nf a (r * Np + b) c).
Proof.
  intros Hr Ha Hb Hc. unfold transpose_fwd. fold Nf.
  assert (Ho : (a * Np + b) * Nf + c < Np * Np * Nf).
  { assert (a * Np + b < Np * Np) by nia. nia. }
  replace (ix2 Np Nf (s * Np + a) b c) with (s * (Np * Np * Nf) + ((a * Np + b) * Nf + c))
    by (unfold ix2; ring).
  rewrite Alltoall_spec by exact Ho.
  replace (r * (Np * Np * Nf) + ((a * Np + b) * Nf + c)) with (ix3 Np Np Nf r a b c) by (unfold ix3; ring).
  rewrite rollaxis1_spec by assumption. f_equal. unfold ix3, ix2. rewrite HN. ring.
Qed.
Lemma transpose_bwd_spec (y : nat -> nat -> A) r s a b c :
  s < P -> a < Np -> b < Np -> c < Nf ->
  transpose_bwd N P Np y r (ix2 N Nf a (s * Np + b) c) = y s (ix2 Np Nf (r * Np + a) b c).
Proof.
  intros Hs Ha Hb Hc. unfold transpose_bwd. fold Nf.
  replace (ix2 N Nf a (s * Np + b) c) with (ix3 P Np Nf a s b c) by (unfold ix3, ix2; rewrite HN; ring).
  rewrite rollaxis1_spec by assumption.
  assert (Ho : (a * Np + b) * Nf + c < Np * Np * Nf).
  { assert (a * Np + b < Np * Np) by nia. nia. }
  replace (ix3 Np Np Nf s a b c) with (s * (Np * Np * Nf) + ((a * Np + b) * Nf + c)) by (unfold ix3; ring).
  rewrite Alltoall_spec by exact Ho. f_equal. unfold ix2. ring.
Qed.
End Transpose.
End Index.

(** ** Right hand side and step *)
Section Solver.
Open Scope R_scope.
Context {I X : Type} (T : transf I X) (K : ax3 -> I -> R) (m : I -> bool) (nu : R).
Notation vec := (svec ax3 I).

Lemma Curl_spec (a : vec) c : Curl T K a c = fun i => bwd T (curl_hat K a i).
Proof. extensionality i. destruct i; reflexivity. Qed.
Lemma Cross_spec a b (c : vec) : Cross T a b c = fun i => fwd T (crossR a b i).
Proof. extensionality i. destruct i; reflexivity. Qed.

Definition f_short (u : vec) : vec :=
  fun i k => (leray F3 K (mask_nyquist (Some m) (ucrosscurl (bwd T) (fwd T) K u)) i k
              - RtoC (nu * knorm2 F3 K k) * u i k)%C.

Lemma ComputeRHS_short_spec rk (s : short I X) :
  ((0 < rk)%nat \/ sU s = bwdV T (sU_hat s)) ->
  s_dU (ComputeRHS_short T K m nu rk s) = f_short (sU_hat s) /\
  sU_hat (ComputeRHS_short T K m nu rk s) = sU_hat s /\
  sU_hat0 (ComputeRHS_short T K m nu rk s) = sU_hat0 s /\
  sU_hat1 (ComputeRHS_short T K m nu rk s) = sU_hat1 s.
Proof.
  intros HU. split; [|repeat split].
  assert (E : (if Nat.ltb 0 rk then fold_left (fun U i => upd F3 U i (bwd T (sU_hat s i))) (elems F3) (sU s)
               else sU s) = bwdV T (sU_hat s)).
  { destruct HU as [H|H].
    - rewrite (proj2 (Nat.ltb_lt _ _) H).
      rewrite (fold_upd_all F3 (fun i _ => bwd T (sU_hat s i))). reflexivity.
    - destruct (Nat.ltb 0 rk); [|exact H].
      rewrite (fold_upd_all F3 (fun i _ => bwd T (sU_hat s i))). reflexivity. }
  unfold ComputeRHS_short. rewrite E. cbn [s_dU]. rewrite Curl_spec, Cross_spec.
  pose proof (finish_rhs_fst F3 K (Some m) nu (fun _ _ => C0)
     (ucrosscurl (bwd T) (fwd T) K (sU_hat s)) (sU_hat s)) as H.
  unfold f_short. extensionality i; extensionality k.
  apply (f_equal (fun g => g i k)) in H. unfold finish_rhs, add_pressure_diffusion in H. cbn [fst] in H.
  assert (HH : forall z : C, (z + C0 = z)%C) by (intros; ring). rewrite !HH in H. rewrite <- H.
  rewrite (fold_upd_all F3 (fun i (r : I -> C) k => (r k - CsumL (elems F3)
     (fun i0 => (mask_nyquist (Some m) (ucrosscurl (bwd T) (fwd T) K (sU_hat s)) i0 k * RtoC (K_over_K2_of F3 K i0 k))%C)
       * RtoC (K i k))%C)).
  reflexivity.
Qed.

Definition f_state (s : short I X) := sU s = bwdV T (sU_hat s).

Lemma short_step_spec dt (s : short I X) : f_state s ->
  sU_hat (short_step T K m nu dt s) = rk4 f_short dt (sU_hat s) /\ f_state (short_step T K m nu dt s).
Proof.
  intros HU. unfold f_state in *. split.
  2:{ unfold short_step. cbn [sU sU_hat]. rewrite (fold_upd_all F3 (fun i _ => bwd T _)). reflexivity. }
  unfold short_step. cbn [sU_hat fold_left].
  set (s0 := mkShort (sU s) (sU_hat s) (sU_hat s) (sU_hat s) (s_dU s) (s_curl s) (sP_hat s)).
  set (s1 := short_stage T K m nu dt s0 0). set (s2 := short_stage T K m nu dt s1 1).
  set (s3 := short_stage T K m nu dt s2 2). set (s4 := short_stage T K m nu dt s3 3).
  assert (A0 : s_dU (ComputeRHS_short T K m nu 0 s0) = f_short (sU_hat s)).
  { apply (ComputeRHS_short_spec 0 s0). right. exact HU. }
  assert (B1 : sU_hat s1 = plus (sU_hat s) (dt / 2) (f_short (sU_hat s))).
  { unfold s1, short_stage. cbn [sU_hat Nat.ltb Nat.leb nth short_b]. rewrite A0.
    unfold plus. extensionality i; extensionality k. cbn. replace (0.5 * dt) with (dt / 2) by lra. reflexivity. }
  assert (A1 : s_dU (ComputeRHS_short T K m nu 1 s1) = f_short (sU_hat s1)).
  { apply (ComputeRHS_short_spec 1 s1). left. lia. }
  assert (B2 : sU_hat s2 = plus (sU_hat s) (dt / 2) (f_short (sU_hat s1))).
  { unfold s2, short_stage. cbn [sU_hat Nat.ltb Nat.leb nth short_b]. rewrite A1.
    unfold plus. extensionality i; extensionality k. cbn. replace (0.5 * dt) with (dt / 2) by lra. reflexivity. }
  assert (A2 : s_dU (ComputeRHS_short T K m nu 2 s2) = f_short (sU_hat s2)).
  { apply (ComputeRHS_short_spec 2 s2). left. lia. }
  assert (B3 : sU_hat s3 = plus (sU_hat s) dt (f_short (sU_hat s2))).
  { unfold s3, short_stage. cbn [sU_hat Nat.ltb Nat.leb nth short_b]. rewrite A2.
    unfold plus. extensionality i; extensionality k. cbn. replace (1 * dt) with dt by lra. reflexivity. }
  assert (A3 : s_dU (ComputeRHS_short T K m nu 3 s3) = f_short (sU_hat s3)).
  { apply (ComputeRHS_short_spec 3 s3). left. lia. }
  assert (HU1 : forall rk x, sU_hat1 (ComputeRHS_short T K m nu rk x) = sU_hat1 x) by (intros rk x; destruct rk; reflexivity).
  extensionality i; extensionality k.
  unfold s4, short_stage at 1. cbn [sU_hat1]. rewrite A3.
  rewrite (HU1 3%nat s3).
  unfold s3, short_stage at 1. cbn [sU_hat1]. rewrite A2.
  rewrite (HU1 2%nat s2).
  unfold s2, short_stage at 1. cbn [sU_hat1]. rewrite A1.
  rewrite (HU1 1%nat s1).
  unfold s1, short_stage at 1. cbn [sU_hat1]. rewrite A0.
  rewrite (HU1 0%nat s0). change (sU_hat1 s0) with (sU_hat s).
  cbn [nth short_a]. fold s1. fold s2. fold s3. unfold rk4, rk4_k4, rk4_k3, rk4_k2, rk4_k1.
  rewrite <- B1, <- B2, <- B3.
  replace (1/6*dt) with (dt/6) by lra. replace (1/3*dt) with (dt/6 * 2) by lra.
  rewrite RtoC_mul. ring.
Qed.
End Solver.

(** ** The distributed transforms compute the global transform *)
Section Global.
Open Scope nat_scope.
Context (N P Np : nat) (HN : N = P * Np).
Let Nf := N / 2 + 1.
Context (fft1 ifft1 : (nat -> C) -> nat -> C).
Context (rfft2 : (nat -> nat -> R) -> nat -> nat -> C) (irfft2 : (nat -> nat -> C) -> nat -> nat -> R).
Context (Hfft1 : forall f g, (forall i, i < N -> f i = g i) -> forall i, i < N -> fft1 f i = fft1 g i).
Context (Hifft1 : forall f g, (forall i, i < N -> f i = g i) -> forall i, i < N -> ifft1 f i = ifft1 g i).
Context (Hrfft2 : forall f g, (forall j k, j < N -> k < N -> f j k = g j k) ->
   forall j k, j < N -> k < Nf -> rfft2 f j k = rfft2 g j k).
Context (Hirfft2 : forall f g, (forall j k, j < N -> k < Nf -> f j k = g j k) ->
   forall j k, j < N -> k < N -> irfft2 f j k = irfft2 g j k).

Lemma split_index i : i < N -> exists s a, i = s * Np + a /\ s < P /\ a < Np.
Proof.
  intros H. exists (i / Np), (i mod Np).
  assert (Np <> 0) by nia. pose proof (Nat.div_mod i Np). pose proof (Nat.mod_upper_bound i Np).
  repeat split; [lia| |lia]. apply Nat.div_lt_upper_bound; lia.
Qed.

Lemma fftn_global (u : nat -> nat -> R) (U : nat -> nat -> nat -> R) :
  (forall r a j k, r < P -> a < Np -> j < N -> k < N -> u r (ix2 N N a j k) = U (r * Np + a) j k) ->
  forall r i b c, r < P -> i < N -> b < Np -> c < Nf ->
  fftn_mpi N P Np fft1 rfft2 u r (ix2 Np Nf i b c) = fft1 (fun i => rfft2 (U i) (r * Np + b) c) i.
Proof.
  intros HU r i b c Hr Hi Hb Hc. unfold fftn_mpi, along0. fold Nf.
  rewrite ix2_div, ix2_mid, ix2_last by assumption.
  apply Hfft1; [|exact Hi]. clear i Hi. intros i Hi.
  destruct (split_index i Hi) as (s & a & -> & Hs & Ha).
  unfold Nf. rewrite transpose_fwd_spec by assumption. fold Nf.
  unfold rfft2_axes12. fold Nf.
  assert (Hm : r * Np + b < N) by nia.
  rewrite ix2_div, ix2_mid, ix2_last by assumption.
  apply Hrfft2; [|exact Hm|exact Hc]. intros j k Hj Hk. apply HU; assumption.
Qed.

Lemma ifftn_global (fu : nat -> nat -> C) (F : nat -> nat -> nat -> C) :
  (forall r i b c, r < P -> i < N -> b < Np -> c < Nf -> fu r (ix2 Np Nf i b c) = F i (r * Np + b) c) ->
  forall r a j k, r < P -> a < Np -> j < N -> k < N ->
  ifftn_mpi N P Np ifft1 irfft2 fu r (ix2 N N a j k) =
  irfft2 (fun j c => ifft1 (fun i => F i j c) (r * Np + a)) j k.
Proof.
  intros HF r a j k Hr Ha Hj Hk. unfold ifftn_mpi, irfft2_axes12. fold Nf.
  rewrite ix2_div, ix2_mid, ix2_last by assumption.
  apply Hirfft2; [|exact Hj|exact Hk]. clear j k Hj Hk. intros j c Hj Hc.
  destruct (split_index j Hj) as (s & b & -> & Hs & Hb).
  unfold Nf. rewrite transpose_bwd_spec by assumption. fold Nf.
  assert (Hm : r * Np + a < N) by nia.
  unfold along0. fold Nf. rewrite ix2_div, ix2_mid, ix2_last by assumption.
  apply Hifft1; [|exact Hm]. intros i Hi. apply HF; assumption.
Qed.
End Global.

Section Support.
Open Scope R_scope.
Context {I X : Type} (T : transf I X) (K : ax3 -> I -> R) (m : I -> bool) (nu : R).
Definition supported (u : svec ax3 I) := forall i k, m k = false -> u i k = C0.
Lemma f_short_supported u : supported u -> supported (f_short T K m nu u).
Proof.
  intros H i k Hk. unfold f_short, leray, kdot. cbn [elems F3 CsumL mask_nyquist]. rewrite Hk, (H i k Hk).
  destruct (Req_EM_T _ _) as [e|n]; [ring|].
  pose proof (RtoC_neq0 _ n). field. assumption.
Qed.
Lemma plus_supported u c v : supported u -> supported v -> supported (plus u c v).
Proof. intros H1 H2 i k Hk. unfold plus. rewrite (H1 _ _ Hk), (H2 _ _ Hk). ring. Qed.
Lemma rk4_supported f dt u : (forall v, supported v -> supported (f v)) -> supported u -> supported (rk4 f dt u).
Proof.
  intros Hf Hu.
  assert (H1 : supported (rk4_k1 f u)) by (apply Hf, Hu).
  assert (H2 : supported (rk4_k2 f dt u)) by (apply Hf, plus_supported; assumption).
  assert (H3 : supported (rk4_k3 f dt u)) by (apply Hf, plus_supported; assumption).
  assert (H4 : supported (rk4_k4 f dt u)) by (apply Hf, plus_supported; assumption).
  intros i k Hk. unfold rk4. rewrite (Hu _ _ Hk), (H1 _ _ Hk), (H2 _ _ Hk), (H3 _ _ Hk), (H4 _ _ Hk). ring.
Qed.
Lemma short_steps_supported dt n : forall s : short I X, f_state T s -> supported (sU_hat s) ->
  supported (sU_hat (short_steps T K m nu dt n s)).
Proof.
  induction n as [|n IH]; intros s Hs Hu; [exact Hu|]. simpl.
  destruct (short_step_spec T K m nu dt s Hs) as [E1 E2].
  apply IH; [exact E2|]. rewrite E1. apply rk4_supported; [apply f_short_supported|exact Hu].
Qed.

(** n steps of the textbook method *)
Fixpoint iterate {A} (f : A -> A) (n : nat) (x : A) : A := match n with O => x | S n => iterate f n (f x) end.
Lemma short_steps_rk4 dt n : forall s : short I X, f_state T s ->
  sU_hat (short_steps T K m nu dt n s) = iterate (rk4 (f_short T K m nu) dt) n (sU_hat s) /\
  f_state T (short_steps T K m nu dt n s).
Proof.
  induction n as [|n IH]; intros s Hs; [split; [reflexivity|exact Hs]|]. simpl.
  destruct (short_step_spec T K m nu dt s Hs) as [E1 E2]. rewrite <- E1. apply IH. exact E2.
Qed.

Lemma f_short_NS u b rhs :
  f_short T K m nu u = fst (ComputeRHS_NS T K Vortex (Some m) nu (fun _ _ => C0) b rhs u).
Proof. rewrite ComputeRHS_NS_fst. unfold f_short. extensionality i; extensionality k. cbn [conv_spec]. ring. Qed.
End Support.
