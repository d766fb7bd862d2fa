(** Lemmas on the temperature basis of the Rayleigh-Benard solvers. *)
From Coq Require Import Reals List Bool Arith Lia Lra FunctionalExtensionality.
From Verif Require Import Base.Cplx Base.Sums Base.Fin Model.KMM Model.ChannelConv Model.ChannelAccess Model.RBConv Spec.Chebyshev Spec.Channel
  Spec.ChannelField Spec.Coupled Spec.Galerkin Spec.Temperature Proofs.ChebyshevProofs Proofs.KMMProofs Proofs.ChannelConvProofs
  Proofs.CoupledProofs Proofs.PressureProofs Proofs.GalerkinProofs.
Open Scope R_scope.

Lemma lift_series N (q : column) x : (2 <= N)%nat ->
  series N (lift_basis N) q x =
  (series (N - 2) phi q x + RtoC ((1 + x) / 2) * q (N - 2)%nat + RtoC ((1 - x) / 2) * q (N - 1)%nat)%C.
Proof.
  intros HN. destruct N as [|[|M]]; try lia. replace (S (S M) - 2)%nat with M by lia. replace (S (S M) - 1)%nat with (S M) by lia.
  unfold series. cbn [Csum]. unfold lift_basis at 2 3.
  replace (S (S M) - 2)%nat with M by lia. replace (S (S M) - 1)%nat with (S M) by lia.
  rewrite !Nat.eqb_refl. replace (S M =? M)%nat with false by (symmetry; apply Nat.eqb_neq; lia).
  rewrite (Csum_ext M (fun i => q i * RtoC (lift_basis (S (S M)) i x))%C (fun i => q i * RtoC (phi i x))%C).
  - ring.
  - intros i Hi. unfold lift_basis. replace (S (S M) - 2)%nat with M by lia. replace (S (S M) - 1)%nat with (S M) by lia.
    replace (i =? M)%nat with false by (symmetry; apply Nat.eqb_neq; lia).
    replace (i =? S M)%nat with false by (symmetry; apply Nat.eqb_neq; lia). reflexivity.
Qed.
Lemma series_phi_wall n (q : column) x : x = -1 \/ x = 1 -> series n phi q x = C0.
Proof. intros H. unfold series. apply Csum_0. intros i _. rewrite (phi_wall i x H), RtoC_0. ring. Qed.
Lemma lift_walls N (q : column) : (2 <= N)%nat ->
  series N (lift_basis N) q 1 = q (N - 2)%nat /\ series N (lift_basis N) q (- 1) = q (N - 1)%nat.
Proof.
  intros HN. rewrite !lift_series, !series_phi_wall by (auto; lra).
  replace ((1 + 1) / 2) with 1 by lra. replace ((1 - 1) / 2) with 0 by lra.
  replace ((1 + - 1) / 2) with 0 by lra. replace ((1 - - 1) / 2) with 1 by lra. rewrite RtoC_1, RtoC_0. split; ring.
Qed.
(** the coefficients of the derivative of the whole temperature *)
Definition dlift (N : nat) (q : col) : col := fun i =>
  (D_T N (coefs (N - 2) e_phi q) i + (if (i =? 0)%nat then RtoC (/ 2) * (q (N - 2)%nat - q (N - 1)%nat) else C0))%C.
Lemma Cderiv_add F G x l m : Cderiv F x l -> Cderiv G x m -> Cderiv (fun y => F y + G y)%C x (l + m)%C.
Proof.
  intros (A & B) (A' & B'). split; [apply (derivable_pt_lim_plus _ _ _ _ _ A A')|apply (derivable_pt_lim_plus _ _ _ _ _ B B')].
Qed.
Lemma Cderiv_affine (a b : C) x : Cderiv (fun y => a + RtoC y * b)%C x b.
Proof.
  assert (L : forall u v x, derivable_pt_lim (fun y => u + v * y) x v).
  { intros u v z. eapply dlim_val; [|apply derivable_pt_lim_plus; [apply derivable_pt_lim_const|apply derivable_pt_lim_scal, derivable_pt_lim_id]]. ring. }
  split.
  - eapply dlim_ext; [|apply (L (fst a) (fst b))]. intros y. simpl. ring.
  - eapply dlim_ext; [|apply (L (snd a) (snd b))]. intros y. simpl. ring.
Qed.
Lemma cheb_add N a b x : cheb N (fun i => a i + b i)%C x = (cheb N a x + cheb N b x)%C.
Proof. unfold cheb. rewrite <- Csum_add. apply Csum_ext. intros; ring. Qed.
Lemma cheb_const N z x : (1 <= N)%nat -> cheb N (fun i => if (i =? 0)%nat then z else C0) x = z.
Proof.
  intros HN. destruct N as [|M]; [lia|]. unfold cheb. clear HN. induction M as [|M IH].
  - cbn [Csum Nat.eqb]. change (T 0 x) with 1. rewrite RtoC_1. ring.
  - cbn [Csum] in *. rewrite IH. cbn [Nat.eqb]. ring.
Qed.
Lemma dlift_deriv N (q : column) x : (2 <= N)%nat -> Cderiv (series N (lift_basis N) q) x (cheb N (dlift N q) x).
Proof.
  intros HN. unfold dlift. rewrite (cheb_add N (D_T N (coefs (N - 2) e_phi q))), cheb_const by lia.
  apply (Cderiv_ext (fun y => cheb N (coefs (N - 2) e_phi q) y +
     (RtoC (/ 2) * (q (N - 2)%nat + q (N - 1)%nat) + RtoC y * (RtoC (/ 2) * (q (N - 2)%nat - q (N - 1)%nat))))%C).
  - intros y. rewrite lift_series by exact HN. rewrite (coefs_cheb N (N - 2) phi e_phi q y (phi_coef N)).
    replace ((1 + y) / 2) with (/ 2 + / 2 * y) by lra. replace ((1 - y) / 2) with (/ 2 - / 2 * y) by lra.
    rewrite RtoC_add, RtoC_sub, RtoC_mul. ring.
  - apply Cderiv_add; [apply D_T_deriv|apply Cderiv_affine].
Qed.

(** rows of a matrix with the test functions T_i *)
Lemma T_coef N : is_coef N N T dl.
Proof. intros k x Hk. symmetry. apply dl_sum, Hk. Qed.
Lemma rows_T_val N h nb b eb M : is_coef N nb b eb -> rows N h 1 nb b N T M ->
  forall q i, (i < N)%nat -> M q i = (RtoC (h i) * D_T N (coefs nb eb q) i)%C.
Proof.
  intros Hb HM q i Hi. rewrite (rows_val N h 1 nb b eb N T dl M Hb (T_coef N) HM q i Hi). unfold gmat.
  destruct (Nat.ltb_spec i N); [|lia]. cbn [Dn]. set (v := D_T N (coefs nb eb q)). clearbody v.
  transitivity (Csum N (fun l => if (l =? i)%nat then RtoC (h l) * v l else C0)%C).
  - apply Csum_ext. intros l _. unfold dl. destruct (l =? i)%nat; [rewrite Rmult_1_r|rewrite Rmult_0_r, RtoC_0]; ring.
  - rewrite Csum_delta. destruct (Nat.ltb_spec i N); [reflexivity|lia].
Qed.
