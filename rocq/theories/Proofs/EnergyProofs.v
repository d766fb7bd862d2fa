(** Work done by convection, pressure and diffusion. *)
From Coq Require Import Reals Lra Lia List Arith ZArith Bool FunctionalExtensionality.
From Verif Require Import Base.Cplx Base.Sums Base.Fin Spec.Env Spec.Fourier Spec.Energy
  Model.Maths Model.NS Model.NS2D Proofs.Common Proofs.NSProofs.
Import ListNotations.
Open Scope R_scope.

Section Inner.
Context {I : Type} (ms : list I) (w : I -> R).
Notation inner := (inner ms w).
Lemma inner_ext a b b' : (forall k, In k ms -> b k = b' k) -> inner a b = inner a b'.
Proof. intros H. apply RsumL_ext. intros k Hk. rewrite H by auto. reflexivity. Qed.
Lemma inner_ext0 a b a' b' : (forall k, In k ms -> Re (Cconj (a k) * b k)%C = Re (Cconj (a' k) * b' k)%C) ->
  inner a b = inner a' b'.
Proof. intros H. apply RsumL_ext. intros k Hk. rewrite H by auto. reflexivity. Qed.
Lemma inner_add a b c : inner a (fun k => b k + c k)%C = inner a b + inner a c.
Proof.
  unfold Energy.inner. rewrite <- RsumL_add. apply RsumL_ext. intros. unfold Re, Cconj; simpl. ring.
Qed.
Lemma inner_scal a r b : inner a (fun k => RtoC r * b k)%C = r * inner a b.
Proof.
  unfold Energy.inner. rewrite <- RsumL_scal. apply RsumL_ext. intros. unfold Re, Cconj; simpl. ring.
Qed.
Lemma inner_0 a b : (forall k, In k ms -> Re (Cconj (a k) * b k)%C = 0) -> inner a b = 0.
Proof. intros H. apply RsumL_0. intros k Hk. rewrite H by auto. ring. Qed.
(** i K is antisymmetric *)
Lemma inner_deriv (Kj : I -> R) a b : inner a (deriv Kj b) = - inner (deriv Kj a) b.
Proof.
  rewrite <- (Rmult_1_l (inner (deriv Kj a) b)), <- Ropp_mult_distr_l_reverse. unfold Energy.inner. rewrite <- RsumL_scal.
  apply RsumL_ext. intros. unfold Re, Cconj, deriv, Ci, RtoC; simpl. ring.
Qed.
End Inner.

Section Power.
Context {D I : Type} (F : fin D) (ms : list I) (w : I -> R) (K : D -> I -> R).
Notation power := (power F ms w).

Lemma power_swap (u v : svec D I) :
  power u v = RsumL ms (fun k => w k * RsumL (elems F) (fun i => Re (Cconj (u i k) * v i k)%C)).
Proof.
  unfold Energy.power, inner. rewrite RsumL_swap. apply RsumL_ext. intros k _. symmetry. rewrite <- RsumL_scal. reflexivity.
Qed.
Lemma power_ext (u v v' : svec D I) : (forall i k, In k ms -> v i k = v' i k) -> power u v = power u v'.
Proof. intros H. apply RsumL_ext. intros i _. apply inner_ext. intros; apply H; auto. Qed.
Lemma power_add (u v v' : svec D I) : power u (fun i k => v i k + v' i k)%C = power u v + power u v'.
Proof. unfold Energy.power. rewrite <- RsumL_add. apply RsumL_ext. intros. apply inner_add. Qed.

(** a gradient does no work on a divergence free field *)
Lemma power_grad (u : svec D I) phi : divfree F K u -> power u (fun i k => RtoC (K i k) * phi k)%C = 0.
Proof.
  intros Hd. rewrite power_swap. apply RsumL_0. intros k _.
  assert (E : RsumL (elems F) (fun i => Re (Cconj (u i k) * (RtoC (K i k) * phi k))%C)
    = Re (Cconj (kdot F K u k) * phi k)%C).
  { unfold kdot. rewrite Cconj_CsumL.
    transitivity (Re (CsumL (elems F) (fun a => phi k * Cconj (RtoC (K a k) * u a k)))%C).
    - rewrite Re_CsumL. apply RsumL_ext. intros i _. f_equal. rewrite Cconj_mul, Cconj_R. ring.
    - rewrite CsumL_scal. f_equal. ring. }
  rewrite E, (Hd k), Cconj_0. unfold Re; simpl. ring.
Qed.
(** the pressure term of add_pressure_diffusion does no work *)
Lemma power_leray (u v : svec D I) : divfree F K u -> power u (leray F K v) = power u v.
Proof.
  intros Hd.
  set (phi := fun k => if Req_EM_T (knorm2 F K k) 0 then C0 else (- (kdot F K v k / RtoC (knorm2 F K k)))%C).
  rewrite (power_ext u _ (fun i k => v i k + RtoC (K i k) * phi k)%C).
  - rewrite power_add, power_grad by auto. ring.
  - intros i k _. unfold leray, phi. destruct (Req_EM_T _ 0); ring.
Qed.
Lemma power_mask (u v : svec D I) m : (forall i k, masked (D:=D) m i k -> u i k = C0) ->
  power u (mask_nyquist m v) = power u v.
Proof.
  intros H. destruct m as [m|]; [|reflexivity]. unfold Energy.power. apply RsumL_ext. intros i _.
  apply inner_ext0. intros k _. unfold mask_nyquist. destruct (m k) eqn:E; [reflexivity|].
  rewrite (H i k) by exact E. unfold Re, Cconj, C0; simpl. ring.
Qed.
Lemma power_diff (u : svec D I) nu (K2 : I -> R) :
  power u (fun i k => - (RtoC (nu * K2 k) * u i k))%C = - nu * gradsq F ms w K2 u.
Proof.
  unfold Energy.power, gradsq, inner. rewrite <- RsumL_scal. apply RsumL_ext. intros i _.
  rewrite <- RsumL_scal. apply RsumL_ext. intros k _. unfold Re, Cconj, Cnorm2, RtoC; simpl. ring.
Qed.
(** the whole right hand side: work of the convection, dissipation, work of the source *)
Lemma power_rhs (u v S : svec D I) m nu : divfree F K u -> (forall i k, masked (D:=D) m i k -> u i k = C0) ->
  power u (fun i k => leray F K (mask_nyquist m v) i k - RtoC (nu * knorm2 F K k) * u i k + S i k)%C
  = power u v - nu * gradsq F ms w (knorm2 F K) u + power u S.
Proof.
  intros Hd Hm.
  rewrite (power_ext u _ (fun i k => (leray F K (mask_nyquist m v) i k
      + (- (RtoC (nu * knorm2 F K k) * u i k))) + S i k)%C) by (intros; ring).
  rewrite (power_add u (fun i k => leray F K (mask_nyquist m v) i k + (- (RtoC (nu * knorm2 F K k) * u i k)))%C S).
  rewrite (power_add u (leray F K (mask_nyquist m v))).
  rewrite power_leray, power_mask, power_diff by auto. ring.
Qed.

(** rate of change of the energy along a direction *)
Lemma energy_deriv (u v : svec D I) :
  derivable_pt_lim (fun s => energy F ms w (fun i k => u i k + RtoC s * v i k)%C) 0 (power u v).
Proof.
  assert (E : forall s, energy F ms w (fun i k => u i k + RtoC s * v i k)%C
      = energy F ms w u + s * power u v + s ^ 2 * energy F ms w v).
  { intros s. unfold energy, Energy.power, inner.
    rewrite (RsumL_ext (elems F) _ (fun i => RsumL ms (fun k => w k * Cnorm2 (u i k))
        + (2 * s * RsumL ms (fun k => w k * Re (Cconj (u i k) * v i k)%C)
        + s ^ 2 * RsumL ms (fun k => w k * Cnorm2 (v i k))))).
    - rewrite !RsumL_add, !RsumL_scal. field.
    - intros i _. rewrite <- !RsumL_scal, <- !RsumL_add. apply RsumL_ext. intros k _.
      unfold Cnorm2, Re, Cconj, RtoC; simpl. ring. }
  intros eps He. exists (mkposreal (eps / (Rabs (energy F ms w v) + 1))
     ltac:(apply Rdiv_lt_0_compat; [auto|pose proof (Rabs_pos (energy F ms w v)); lra])).
  intros h Hh Hd. cbn in Hd. rewrite !E.
  replace ((energy F ms w u + (0 + h) * power u v + (0 + h) ^ 2 * energy F ms w v
      - (energy F ms w u + 0 * power u v + 0 ^ 2 * energy F ms w v)) / h - power u v)
    with (h * energy F ms w v) by (field; auto).
  rewrite Rabs_mult. pose proof (Rabs_pos (energy F ms w v)). pose proof (Rabs_pos h).
  apply Rle_lt_trans with (Rabs h * (Rabs (energy F ms w v) + 1)); [nra|].
  apply Rmult_lt_compat_r with (r := Rabs (energy F ms w v) + 1) in Hd; [|lra].
  unfold Rdiv in Hd. rewrite Rmult_assoc, Rinv_l in Hd by lra. lra.
Qed.
Lemma gradsq_nonneg (u : svec D I) (K2 : I -> R) : (forall k, In k ms -> 0 <= w k) -> (forall k, 0 <= K2 k) ->
  0 <= gradsq F ms w K2 u.
Proof.
  intros Hw HK. apply RsumL_nonneg. intros i _. apply RsumL_nonneg. intros k Hk.
  pose proof (Cnorm2_nonneg (u i k)). specialize (Hw k Hk). specialize (HK k). apply Rmult_le_pos; nra.
Qed.
End Power.

(** * Convection does no work *)
Section Conv.
Context {I X : Type} (T : transf I X) (ms : list I) (w : I -> R) (xs : list X) (c : R).
Context (Ha : adjoint ms w xs c (bwd T) (fwd T)).

Lemma vortex_power (K : ax3 -> I -> R) (u : svec ax3 I) :
  power F3 ms w u (conv_spec T K Vortex u) = 0.
Proof.
  unfold power, conv_spec, ucrosscurl. cbn [elems F3 RsumL]. rewrite !(Ha _ _).
  rewrite Rplus_0_r, <- !Rmult_plus_distr_l, <- !RsumL_add.
  rewrite RsumL_0; [ring|]. intros x _. unfold crossR. ring.
Qed.
Lemma vortex2_power (K : ax2 -> I -> R) (u : svec ax2 I) :
  power F2 ms w u (conv2_spec T K u) = 0.
Proof.
  unfold power, conv2_spec. cbn [elems F2 RsumL]. rewrite !(Ha _ _).
  rewrite Rplus_0_r, <- !Rmult_plus_distr_l, <- !RsumL_add.
  rewrite RsumL_0; [ring|]. intros x _. ring.
Qed.
Lemma skewed_power (K : ax3 -> I -> R) (u : svec ax3 I) :
  power F3 ms w u (conv_spec T K Skewed u) = 0.
Proof.
  assert (E : power F3 ms w u (ugradu (bwd T) (fwd T) F3 K u) + power F3 ms w u (divuu (bwd T) (fwd T) F3 K u) = 0).
  { unfold power. rewrite <- RsumL_add. apply RsumL_0. intros i _.
    unfold ugradu, divuu. cbn [elems F3 CsumL RsumL].
    rewrite !inner_add, !inner_deriv, !(Ha _ _).
    rewrite (inner_0 _ _ _ (fun _ => C0)); [|intros; unfold Re, Cconj, C0; simpl; ring].
    rewrite (RsumL_ext xs (fun x => bwd T (u i) x * (_ + _)) (fun x =>
        bwd T (deriv (K x0) (u i)) x * (bwd T (u i) x * bwd T (u x0) x)
      + (bwd T (deriv (K x1) (u i)) x * (bwd T (u i) x * bwd T (u x1) x)
      + bwd T (deriv (K x2) (u i)) x * (bwd T (u i) x * bwd T (u x2) x)))) by (intros; ring).
    rewrite !RsumL_add. ring. }
  unfold conv_spec.
  rewrite (power_ext F3 ms w u _ (fun i k => RtoC (- / 2) * (ugradu (bwd T) (fwd T) F3 K u i k + divuu (bwd T) (fwd T) F3 K u i k))%C)
    by (intros; rewrite RtoC_opp; ring).
  unfold power in *.
  rewrite (RsumL_ext (elems F3) _ (fun i => - / 2 * (inner ms w (u i) (ugradu (bwd T) (fwd T) F3 K u i)
     + inner ms w (u i) (divuu (bwd T) (fwd T) F3 K u i)))).
  - rewrite RsumL_scal, RsumL_add, E. ring.
  - intros i _. rewrite inner_scal, inner_add. reflexivity.
Qed.
End Conv.

(** * The discrete Fourier transform is such a pair *)
Lemma dft_adjoint {I X} (ms : list I) (xs : list X) (e : I -> X -> C) (w bw fw : I -> R) c :
  (forall k, In k ms -> w k * fw k = c * bw k) ->
  adjoint ms w xs c (fun a x => RsumL ms (fun k => bw k * Re (a k * e k x)%C))
    (fun f k => (RtoC (fw k) * CsumL xs (fun x => RtoC (f x) * Cconj (e k x)))%C).
Proof.
  intros H a f. unfold inner.
  transitivity (RsumL ms (fun k => RsumL xs (fun x => c * (bw k * Re (a k * e k x)%C * f x)))).
  - apply RsumL_ext. intros k Hk.
    transitivity (w k * fw k * Re (Cconj (a k) * CsumL xs (fun x => RtoC (f x) * Cconj (e k x)))%C).
    + unfold Re, Cconj, RtoC; simpl. ring.
    + rewrite H by auto. rewrite <- CsumL_scal, Re_CsumL, <- RsumL_scal. apply RsumL_ext. intros x _.
      unfold Re, Cconj, RtoC; simpl. ring.
  - rewrite RsumL_swap, <- RsumL_scal. apply RsumL_ext. intros x _. rewrite RsumL_scal. f_equal.
    rewrite Rmult_comm, <- RsumL_scal. apply RsumL_ext. intros; ring.
Qed.
Lemma rfft3_adjoint N M tr : (forall i, (0 < M i)%nat) ->
  (forall k0 k1 k2, (2 * k2 = N x2)%nat -> M x2 <> N x2 -> tr (k0, k1, k2) = 0) ->
  (N x2 <= M x2)%nat ->
  adjoint (modes3 N) (mult2 (N x2)) (points3 M) (/ npoints M) (irfft3 N M tr) (rfft3 N M tr).
Proof.
  intros HM Htr Hle. apply (dft_adjoint (modes3 N) (points3 M) (wave3 N M) (mult2 (N x2))
     (fun k => tr k * mult2 (M x2) k) (fun k => tr k / npoints M)).
  intros [[k0 k1] k2] Hk. unfold Rdiv.
  assert (E : tr (k0, k1, k2) * mult2 (N x2) (k0, k1, k2) = tr (k0, k1, k2) * mult2 (M x2) (k0, k1, k2)).
  { destruct (Nat.eq_dec (M x2) (N x2)) as [->|Hn]; [reflexivity|].
    destruct (Nat.eq_dec (2 * k2) (N x2)) as [He|He]; [rewrite (Htr k0 k1 k2) by auto; ring|].
    unfold mult2. destruct (Nat.eqb_spec k2 0); [reflexivity|]. cbn [orb].
    destruct (Nat.eqb_spec (2 * k2) (N x2)); [lia|].
    destruct (Nat.eqb_spec (2 * k2) (M x2)) as [E2|]; [|reflexivity].
    unfold modes3, grid in Hk. apply in_prod_iff in Hk. destruct Hk as [_ Hk]. apply in_seq in Hk.
    pose proof (Nat.div_mod (N x2) 2 ltac:(lia)). pose proof (Nat.mod_upper_bound (N x2) 2 ltac:(lia)). lia. }
  transitivity (/ npoints M * (tr (k0, k1, k2) * mult2 (N x2) (k0, k1, k2))); [ring|]. rewrite E. reflexivity.
Qed.
