(** Properties C47, C48 and C57: the stand-alone solver spectralDNS3D_short.py. *)
From Coq Require Import Reals ZArith List Arith Lra Lia FunctionalExtensionality Bool.
From Verif Require Import Base.Cplx Base.Sums Base.Fin Spec.Fourier Spec.RungeKutta
  Model.Maths Model.NS Model.Integrators Model.Short Proofs.Common Proofs.NSProofs Proofs.ShortProofs.
Import ListNotations.

(** ** C47: aliasing *)
Section C47.
Open Scope Z_scope.

(** A retained mode of the N^3 mesh distributed over P ranks (Np planes each): a mode held by some
    rank and kept by the mask, with its wavenumber vector. The transformed fields are real, so each
    stored mode k stands for k and -k; [retained] contains both. *)
Definition retained (N P : Z) (k : ax3 -> Z) : Prop :=
  exists r i j l, 0 <= r < P /\ 0 <= i < N /\ 0 <= j < N / P /\ 0 <= l <= N / 2 /\
    dealias N (N / P) r (i, j, l) = true /\
    ((forall d, k d = Kshort N (N / P) r d (i, j, l)) \/ (forall d, k d = - Kshort N (N / P) r d (i, j, l))).
(** Products are formed on the mesh, where wavenumbers are only known modulo N: a product of two
    retained modes contaminates a retained mode it should not reach. *)
Definition aliases (N P : Z) : Prop :=
  exists k1 k2 k3, retained N P k1 /\ retained N P k2 /\ retained N P k3 /\
    (forall d, (N | k1 d + k2 d - k3 d)) /\ exists d, k1 d + k2 d <> k3 d.

(** The mask removes all aliasing exactly for N = 1 (mod 3), whatever the number of ranks. *)
Theorem C47_alias_free : forall N P, 0 < P -> 0 < N -> (P | N) -> N mod 2 = 0 ->
  (~ aliases N P <-> N mod 3 = 1).
Proof.
  intros N P HP HN [q Hq] He.
  assert (Hdiv : N / P = q) by (rewrite Hq; apply Z.div_mul; lia).
  assert (Hqpos : 0 < q) by nia.
  assert (Hh : 0 <= N / 2) by (apply Z.div_pos; lia).
  assert (Hret : forall k, retained N P k -> forall d, 3 * Z.abs (k d) < N + 2).
  { intros k (r & i & j & l & Hr & Hi & Hj & Hl & Hd & Hk) d.
    unfold dealias in Hd. apply andb_prop in Hd. destruct Hd as [Hd H2].
    apply andb_prop in Hd. destruct Hd as [H0 H1].
    rewrite below_kmax_iff in H0, H1, H2 by lia.
    destruct Hk as [Hk|Hk]; rewrite Hk; rewrite ?Z.abs_opp; destruct d; assumption. }
  split.
  - intros Hna. assert (H3 : N mod 3 = 0 \/ N mod 3 = 1 \/ N mod 3 = 2) by (pose proof (Z.mod_pos_bound N 3); lia).
    destruct H3 as [H3|[H3|H3]]; [exfalso|exact H3|exfalso]; apply Hna; clear Hna.
    + (* k1 = k2 = (-N/3,0,0), k3 = (N/3,0,0) *)
      set (h := N / 3). assert (Hn : N = 3 * h) by (pose proof (Z.div_mod N 3); lia).
      assert (R0 : below_kmax N 0 = true) by (apply below_kmax_iff; lia).
      assert (Kx0 : kx N 0 = 0) by (apply kx_low; lia).
      assert (Kz0 : kz N 0 = 0) by (unfold kz; rewrite Kx0; destruct (_ =? _); reflexivity).
      assert (Kl : kx N h = h) by (apply kx_low; lia).
      assert (Kh : kx N (N - h) = - h).
      { unfold h in *. destruct (Z.le_gt_cases (2 * (N / 3)) N).
        - rewrite kx_high by lia. lia.
        - lia. }
      exists (fun d => match d with x0 => - h | _ => 0 end), (fun d => match d with x0 => - h | _ => 0 end),
             (fun d => match d with x0 => h | _ => 0 end).
      assert (Rm : retained N P (fun d => match d with x0 => - h | _ => 0 end)).
      { exists 0, (N - h), 0, 0. rewrite Hdiv. repeat split; try lia.
        - unfold dealias, Kshort. rewrite Kh, Z.mul_0_l, Z.add_0_l, Kx0, Kz0, R0.
          rewrite !andb_true_r. apply below_kmax_iff; lia.
        - left. intros []; unfold Kshort; rewrite ?Kh, ?Z.mul_0_l, ?Z.add_0_l, ?Kx0, ?Kz0; reflexivity. }
      split; [exact Rm|]. split; [exact Rm|]. split.
      * exists 0, h, 0, 0. rewrite Hdiv. repeat split; try lia.
        -- unfold dealias, Kshort. rewrite Kl, Z.mul_0_l, Z.add_0_l, Kx0, Kz0, R0.
           rewrite !andb_true_r. apply below_kmax_iff; lia.
        -- left. intros []; unfold Kshort; rewrite ?Kl, ?Z.mul_0_l, ?Z.add_0_l, ?Kx0, ?Kz0; reflexivity.
      * split; [intros []; [exists (-1); lia|exists 0; lia|exists 0; lia]|exists x0; lia].
    + (* N = 3h+2: k1 = k2 = (-(h+1),0,0), k3 = (h,0,0) *)
      set (h := N / 3). assert (Hn : N = 3 * h + 2) by (pose proof (Z.div_mod N 3); lia).
      assert (Hh0 : 0 <= h) by (apply Z.div_pos; lia).
      assert (Heh : exists e, h = 2 * e) by (exists (N / 2 - 1 - h); pose proof (Z.div_mod N 2); lia).
      destruct Heh as [e Heh].
      assert (R0 : below_kmax N 0 = true) by (apply below_kmax_iff; lia).
      assert (Kx0 : kx N 0 = 0) by (apply kx_low; lia).
      assert (Kz0 : kz N 0 = 0) by (unfold kz; rewrite Kx0; destruct (_ =? _); reflexivity).
      assert (Kl : kx N h = h) by (apply kx_low; lia).
      assert (Kh : kx N (N - (h + 1)) = - (h + 1)) by (rewrite kx_high; lia).
      exists (fun d => match d with x0 => - (h + 1) | _ => 0 end), (fun d => match d with x0 => - (h + 1) | _ => 0 end),
             (fun d => match d with x0 => h | _ => 0 end).
      assert (Rm : retained N P (fun d => match d with x0 => - (h + 1) | _ => 0 end)).
      { exists 0, (N - (h + 1)), 0, 0. rewrite Hdiv. repeat split; try lia.
        - unfold dealias, Kshort. rewrite Kh, Z.mul_0_l, Z.add_0_l, Kx0, Kz0, R0.
          rewrite !andb_true_r. apply below_kmax_iff; lia.
        - left. intros []; unfold Kshort; rewrite ?Kh, ?Z.mul_0_l, ?Z.add_0_l, ?Kx0, ?Kz0; reflexivity. }
      split; [exact Rm|]. split; [exact Rm|]. split.
      * exists 0, h, 0, 0. rewrite Hdiv. repeat split; try lia.
        -- unfold dealias, Kshort. rewrite Kl, Z.mul_0_l, Z.add_0_l, Kx0, Kz0, R0.
           rewrite !andb_true_r. apply below_kmax_iff; lia.
        -- left. intros []; unfold Kshort; rewrite ?Kl, ?Z.mul_0_l, ?Z.add_0_l, ?Kx0, ?Kz0; reflexivity.
      * split; [intros []; [exists (-1); lia|exists 0; lia|exists 0; lia]|exists x0; lia].
  - intros H3 (k1 & k2 & k3 & R1 & R2 & R3 & Hm & d & Hd). apply Hd.
    apply (no_wrap N); auto.
Qed.

(** Consequences: the shipped N = 2**6 and every even power of two are alias free; odd powers of two
    (N = 32, 128, 512, ...) and multiples of six are not. *)
Theorem C47_powers_of_two : forall p P, 1 <= p -> 0 < P -> (P | 2 ^ p) -> (~ aliases (2 ^ p) P <-> p mod 2 = 0).
Proof.
  intros p P Hp HP Hd.
  assert (H2 : 2 ^ p = 2 * 2 ^ (p - 1)) by (rewrite <- Z.pow_succ_r by lia; f_equal; lia).
  assert (Hpos : 0 < 2 ^ (p - 1)) by (apply Z.pow_pos_nonneg; lia).
  rewrite C47_alias_free; [|exact HP|lia|exact Hd|rewrite H2, Z.mul_comm; apply Z.mod_mul; lia].
  assert (E : p = 2 * (p / 2) + p mod 2) by (pose proof (Z.div_mod p 2); lia).
  assert (Hq : 0 <= p / 2) by (apply Z.div_pos; lia).
  assert (H4 : forall n, 0 <= n -> (2 ^ (2 * n)) mod 3 = 1).
  { intros n Hn. rewrite Z.pow_mul_r by lia. change (2 ^ 2) with 4.
    revert n Hn. apply (natlike_ind (fun n => 4 ^ n mod 3 = 1)); [reflexivity|].
    intros n Hn IH. rewrite Z.pow_succ_r by lia. rewrite Z.mul_mod, IH by lia. reflexivity. }
  assert (Hm : p mod 2 = 0 \/ p mod 2 = 1) by (pose proof (Z.mod_pos_bound p 2); lia).
  destruct Hm as [Hm|Hm]; rewrite Hm in *; rewrite E.
  - rewrite Z.add_0_r, H4 by lia. tauto.
  - rewrite Z.pow_add_r by lia. rewrite Z.mul_mod, H4 by lia. cbn. split; discriminate.
Qed.

Example C47_default_mesh : ~ aliases 64 4.
Proof. apply (C47_powers_of_two 6 4); [lia|lia|exists 16; reflexivity|reflexivity]. Qed.
Example C47_32_aliases : aliases 32 1.
Proof.
  destruct (C47_powers_of_two 5 1 ltac:(lia) ltac:(lia) ltac:(exists 32; reflexivity)) as [H _].
  exists (fun d => match d with x0 => -11 | _ => 0 end), (fun d => match d with x0 => -11 | _ => 0 end),
         (fun d => match d with x0 => 10 | _ => 0 end).
  assert (R : forall i k, 0 <= i < 32 -> kx 32 i = k -> 3 * Z.abs k < 34 ->
      retained 32 1 (fun d => match d with x0 => k | _ => 0 end)).
  { intros i k Hi Hk Hb. exists 0, i, 0, 0. repeat split; try lia; try (cbv; congruence); try reflexivity.
    - unfold dealias, Kshort. rewrite Hk.
      replace (below_kmax 32 (kx 32 (0 * (32 / 1) + 0))) with true by (symmetry; apply below_kmax_iff; reflexivity).
      replace (below_kmax 32 (kz 32 0)) with true by (symmetry; apply below_kmax_iff; reflexivity).
      rewrite !andb_true_r. apply below_kmax_iff; [reflexivity|reflexivity|lia].
    - left. intros []; cbn; [symmetry; exact Hk|reflexivity|reflexivity]. }
  split; [apply (R 21); [lia|reflexivity|lia]|]. split; [apply (R 21); [lia|reflexivity|lia]|].
  split; [apply (R 10); [lia|reflexivity|lia]|].
  split; [intros []; [exists (-1)|exists 0|exists 0]; reflexivity|exists x0; discriminate].
Qed.
End C47.

(** The velocity never leaves the retained modes: the products above are the only ones formed. *)
Theorem C47_support : forall {I X} (T : transf I X) (K : ax3 -> I -> R) (mask : I -> bool) nu dt n (s : short I X),
  sU s = bwdV T (sU_hat s) ->
  (forall i k, mask k = false -> sU_hat s i k = C0) ->
  forall i k, mask k = false -> sU_hat (short_steps T K mask nu dt n s) i k = C0.
Proof. intros I X T K mask nu dt n s H1 H2. exact (short_steps_supported T K mask nu dt n s H1 H2). Qed.

(** ** C48: the transposes *)
Section C48.
Open Scope nat_scope.
Context {A : Type} (N P Np : nat).

(** Ownership: if the ranks hold the x-slabs of a global array, they hold its y-slabs afterwards,
    and conversely. *)
Theorem C48_ownership : N = P * Np -> forall (x : nat -> nat -> A) (G : nat -> nat -> nat -> A),
  (forall r a j c, r < P -> a < Np -> j < N -> c < N / 2 + 1 -> x r (ix2 N (N/2+1) a j c) = G (r * Np + a) j c) ->
  forall r i b c, r < P -> i < N -> b < Np -> c < N / 2 + 1 ->
  transpose_fwd N P Np x r (ix2 Np (N/2+1) i b c) = G i (r * Np + b) c.
Proof.
  intros HN x G HG r i b c Hr Hi Hb Hc.
  destruct (split_index N P Np HN i Hi) as (s & a & -> & Hs & Ha).
  rewrite transpose_fwd_spec by assumption. apply HG; auto. nia.
Qed.
Theorem C48_ownership_back : N = P * Np -> forall (y : nat -> nat -> A) (G : nat -> nat -> nat -> A),
  (forall r i b c, r < P -> i < N -> b < Np -> c < N / 2 + 1 -> y r (ix2 Np (N/2+1) i b c) = G i (r * Np + b) c) ->
  forall r a j c, r < P -> a < Np -> j < N -> c < N / 2 + 1 ->
  transpose_bwd N P Np y r (ix2 N (N/2+1) a j c) = G (r * Np + a) j c.
Proof.
  intros HN y G HG r a j c Hr Ha Hj Hc.
  destruct (split_index N P Np HN j Hj) as (s & b & -> & Hs & Hb).
  rewrite transpose_bwd_spec by assumption. apply HG; auto. nia.
Qed.
(** The two exchanges undo each other on every rank and element, in both orders. *)
Theorem C48_inverse : N = P * Np -> forall x : nat -> nat -> A,
  (forall r a j c, r < P -> a < Np -> j < N -> c < N / 2 + 1 ->
     transpose_bwd N P Np (transpose_fwd N P Np x) r (ix2 N (N/2+1) a j c) = x r (ix2 N (N/2+1) a j c)) /\
  (forall r i b c, r < P -> i < N -> b < Np -> c < N / 2 + 1 ->
     transpose_fwd N P Np (transpose_bwd N P Np x) r (ix2 Np (N/2+1) i b c) = x r (ix2 Np (N/2+1) i b c)).
Proof.
  intros HN x. split.
  - intros r a j c Hr Ha Hj Hc.
    destruct (split_index N P Np HN j Hj) as (s & b & -> & Hs & Hb).
    rewrite transpose_bwd_spec, transpose_fwd_spec by assumption. reflexivity.
  - intros r i b c Hr Hi Hb Hc.
    destruct (split_index N P Np HN i Hi) as (s & a & -> & Hs & Ha).
    rewrite transpose_fwd_spec, transpose_bwd_spec by assumption. reflexivity.
Qed.
End C48.

(** The distributed transforms are the serial ones, for every number of ranks dividing N, and
    ifftn_mpi undoes fftn_mpi when the local transforms are inverse to each other. *)
Section C48fft.
Open Scope nat_scope.
(** an array operator that looks only at the first [n] entries *)
Definition local1 (n : nat) (op : (nat -> C) -> nat -> C) : Prop :=
  forall f g, (forall i, i < n -> f i = g i) -> forall i, i < n -> op f i = op g i.
Definition local2 {A B} (n k n' k' : nat) (op : (nat -> nat -> A) -> nat -> nat -> B) : Prop :=
  forall f g, (forall i j, i < n -> j < k -> f i j = g i j) -> forall i j, i < n' -> j < k' -> op f i j = op g i j.

Theorem C48_transform : forall N P Np fft1 rfft2, N = P * Np -> local1 N fft1 -> local2 N N N (N/2+1) rfft2 ->
  forall (u : nat -> nat -> R) (U : nat -> nat -> nat -> R),
  (forall r a j k, r < P -> a < Np -> j < N -> k < N -> u r (ix2 N N a j k) = U (r * Np + a) j k) ->
  forall r i b c, r < P -> i < N -> b < Np -> c < N / 2 + 1 ->
  fftn_mpi N P Np fft1 rfft2 u r (ix2 Np (N/2+1) i b c) = fft1 (fun i => rfft2 (U i) (r * Np + b) c) i.
Proof.
  intros N P Np fft1 rfft2 HN H1 H2 u U HU r i b c Hr Hi Hb Hc. apply fftn_global; assumption.
Qed.
Theorem C48_roundtrip : forall N P Np fft1 ifft1 rfft2 irfft2, N = P * Np ->
  local1 N ifft1 -> local1 N fft1 -> local2 N N N (N/2+1) rfft2 -> local2 N (N/2+1) N N irfft2 ->
  (forall f i, i < N -> ifft1 (fft1 f) i = f i) ->
  (forall p j k, j < N -> k < N -> irfft2 (rfft2 p) j k = p j k) ->
  forall (u : nat -> nat -> R) r a j k, r < P -> a < Np -> j < N -> k < N ->
  ifftn_mpi N P Np ifft1 irfft2 (fftn_mpi N P Np fft1 rfft2 u) r (ix2 N N a j k) = u r (ix2 N N a j k).
Proof.
  intros N P Np fft1 ifft1 rfft2 irfft2 HN H1 H2 H3 H4 Hi1 Hi2 u r a j k Hr Ha Hj Hk.
  set (U := fun i j k => u (i / Np) (ix2 N N (i mod Np) j k)).
  assert (HU : forall r a j k, r < P -> a < Np -> j < N -> k < N -> u r (ix2 N N a j k) = U (r * Np + a) j k).
  { intros. unfold U. rewrite Nat.div_add_l by lia. rewrite (Nat.div_small a0) by lia. rewrite Nat.add_0_r.
    rewrite (Nat.add_comm (r0 * Np)), Nat.mod_add by lia. rewrite Nat.mod_small by lia. reflexivity. }
  pose proof (fftn_global N P Np HN fft1 rfft2 H2 H3 u U HU) as E.
  rewrite (ifftn_global N P Np HN ifft1 irfft2 H1 H4 _ (fun i m c => fft1 (fun i => rfft2 (U i) m c) i) E)
    by assumption.
  assert (Hm : r * Np + a < N) by nia.
  rewrite HU by assumption. rewrite <- (Hi2 (U (r * Np + a)) j k Hj Hk).
  apply H4; [|exact Hj|exact Hk]. intros j' c' Hj' Hc'. apply (Hi1 (fun i => rfft2 (U i) j' c')). exact Hm.
Qed.
(** nothing depends on the number of ranks: two decompositions of the same global field agree *)
Corollary C48_rank_independent : forall N P Np P' Np' fft1 rfft2, N = P * Np -> N = P' * Np' ->
  local1 N fft1 -> local2 N N N (N/2+1) rfft2 ->
  forall u u' (U : nat -> nat -> nat -> R),
  (forall r a j k, r < P -> a < Np -> j < N -> k < N -> u r (ix2 N N a j k) = U (r * Np + a) j k) ->
  (forall r a j k, r < P' -> a < Np' -> j < N -> k < N -> u' r (ix2 N N a j k) = U (r * Np' + a) j k) ->
  forall r b r' b' i c, r < P -> b < Np -> r' < P' -> b' < Np' -> i < N -> c < N / 2 + 1 ->
  r * Np + b = r' * Np' + b' ->
  fftn_mpi N P Np fft1 rfft2 u r (ix2 Np (N/2+1) i b c) =
  fftn_mpi N P' Np' fft1 rfft2 u' r' (ix2 Np' (N/2+1) i b' c).
Proof.
  intros N P Np P' Np' fft1 rfft2 HN HN' H1 H2 u u' U HU HU' r b r' b' i c Hr Hb Hr' Hb' Hi Hc E.
  rewrite (C48_transform N P Np fft1 rfft2 HN H1 H2 u U HU) by assumption.
  rewrite (C48_transform N P' Np' fft1 rfft2 HN' H1 H2 u' U HU') by assumption.
  rewrite E. reflexivity.
Qed.
End C48fft.

(** Example: N = 4 on two ranks; element (2,1,1) of the spectral array is held by rank 0 and was
    computed by rank 1 *)
Example C48_example : forall x : nat -> nat -> R,
  transpose_fwd 4 2 2 x 0 (ix2 2 3 2 1 1) = x 1%nat (ix2 4 3 0 1 1).
Proof. intros. reflexivity. Qed.

(** ** C57: the stand-alone solver and the package solver do the same *)
Section C57.
Open Scope R_scope.
Context {I X : Type} (T : transf I X) (K : ax3 -> I -> R) (mask : I -> bool) (nu : R).

(** Every pass through the time loop is one classical Runge-Kutta step of the right hand side of
    solvers/NS.py with the Vortex form, no source and the script's mask in place of the Nyquist mask,
    whatever the arrays contained before; U stays the transform of U_hat. *)
Theorem C57_equals_NS : forall dt n (s : short I X) f,
  (forall u, exists b rhs, f u = fst (ComputeRHS_NS T K Vortex (Some mask) nu (fun _ _ => C0) b rhs u)) ->
  sU s = bwdV T (sU_hat s) ->
  sU_hat (short_steps T K mask nu dt n s) = Nat.iter n (rk4 f dt) (sU_hat s) /\
  sU (short_steps T K mask nu dt n s) = bwdV T (sU_hat (short_steps T K mask nu dt n s)).
Proof.
  intros dt n s f Hf Hs.
  assert (E : f = f_short T K mask nu).
  { extensionality u. destruct (Hf u) as (b & rhs & ->). symmetry. apply f_short_NS. }
  destruct (short_steps_rk4 T K mask nu dt n s Hs) as [H1 H2]. split; [|exact H2].
  rewrite H1, E. clear. revert s. generalize (rk4 (f_short T K mask nu) dt). intros g s.
  generalize (sU_hat s). induction n as [|n IH]; intros v; [reflexivity|].
  assert (Sw : forall k w, Nat.iter k g (g w) = g (Nat.iter k g w))
    by (induction k as [|k IHk]; intros w; [reflexivity|simpl; rewrite IHk; reflexivity]).
  simpl. rewrite IH. apply Sw.
Qed.

(** the initial state qualifies when the transforms are inverse to each other on the initial velocity *)
Theorem C57_start : forall U0 a b c d e g,
  (forall i, bwd T (fwd T (U0 i)) = U0 i) ->
  let s := short_init T U0 a b c d e g in
  sU s = bwdV T (sU_hat s) /\ sU_hat s = fwdV T U0.
Proof.
  intros U0 a b c d e g H. unfold short_init. cbn [sU sU_hat].
  rewrite (fold_upd_all F3 (fun i _ => fwd T (U0 i))). split; [|reflexivity].
  extensionality i. unfold bwdV. symmetry. apply H.
Qed.

(** hence it preserves incompressibility *)
Theorem C57_divfree : forall dt n (s : short I X),
  sU s = bwdV T (sU_hat s) -> divfree F3 K (sU_hat s) ->
  divfree F3 K (sU_hat (short_steps T K mask nu dt n s)).
Proof.
  intros dt n s Hs Hd. destruct (short_steps_rk4 T K mask nu dt n s Hs) as [-> _].
  revert Hd. generalize (sU_hat s). clear.
  assert (Hf : forall u, divfree F3 K u -> divfree F3 K (f_short T K mask nu u)).
  { intros u Hu k.
    rewrite (f_short_NS T K mask nu u (mkNsbuf (fun _ _ => 0) (fun _ _ => C0) (fun _ _ => 0) (fun _ _ => 0) (fun _ => C0)) (fun _ _ => C0)).
    rewrite kdot_NS, Hu. unfold kdot. cbn [elems F3 CsumL]. ring. }
  assert (Hp : forall u c v, divfree F3 K u -> divfree F3 K v -> divfree F3 K (plus u c v)).
  { intros u c v Hu Hv k. specialize (Hu k). specialize (Hv k). unfold kdot in *. cbn [elems F3 CsumL] in *.
    unfold plus.
    transitivity ((RtoC (K x0 k) * u x0 k + (RtoC (K x1 k) * u x1 k + (RtoC (K x2 k) * u x2 k + 0)))
      + RtoC c * (RtoC (K x0 k) * v x0 k + (RtoC (K x1 k) * v x1 k + (RtoC (K x2 k) * v x2 k + 0))))%C; [ring|].
    rewrite Hu, Hv. ring. }
  assert (Hr : forall u, divfree F3 K u -> divfree F3 K (rk4 (f_short T K mask nu) dt u)).
  { intros u Hu.
    assert (H1 := Hf u Hu).
    assert (H2 := Hf _ (Hp u (dt/2) _ Hu H1)). assert (H3 := Hf _ (Hp u (dt/2) _ Hu H2)).
    assert (H4 := Hf _ (Hp u dt _ Hu H3)).
    assert (E : rk4 (f_short T K mask nu) dt u =
      plus (plus (plus (plus u (dt/6) (rk4_k1 (f_short T K mask nu) u)) (dt/6*2) (rk4_k2 (f_short T K mask nu) dt u))
       (dt/6*2) (rk4_k3 (f_short T K mask nu) dt u)) (dt/6) (rk4_k4 (f_short T K mask nu) dt u)).
    { extensionality i; extensionality k. unfold rk4, plus. rewrite RtoC_mul. ring. }
    rewrite E. repeat apply Hp; assumption. }
  induction n as [|n IH]; intros v Hv; [exact Hv|]. simpl. apply IH, Hr, Hv.
Qed.
End C57.

Print Assumptions C47_alias_free.
Print Assumptions C47_powers_of_two.
Print Assumptions C47_support.
Print Assumptions C48_ownership.
Print Assumptions C48_ownership_back.
Print Assumptions C48_inverse.
Print Assumptions C48_transform.
Print Assumptions C48_roundtrip.
Print Assumptions C48_rank_independent.
Print Assumptions C57_equals_NS.
Print Assumptions C57_start.
Print Assumptions C57_divfree.
