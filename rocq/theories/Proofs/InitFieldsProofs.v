(** Proofs about the initial fields of the demos (C78). *)
From Coq Require Import Reals Lra Lia Arith ZArith List FunctionalExtensionality.
From Verif Require Import Base.Cplx Base.Sums Base.Fin Spec.Fourier Spec.Energy Spec.Wave Spec.TaylorGreen Proofs.TaylorGreenProofs.
Import ListNotations.
Open Scope R_scope.

(** ** transform of one axis *)
Definition hat (M : nat) (f : nat -> R) (m : Z) : C :=
  (RtoC (/ INR M) * Csum M (fun j => RtoC (f j) * Cconj (wv M m j)))%C.
Definition delta (M : nat) (m : Z) : C := if (m mod Z.of_nat M =? 0)%Z then C1 else C0.
Lemma hat_ext M f g m : (forall j, (j < M)%nat -> f j = g j) -> hat M f m = hat M g m.
Proof. intros H. unfold hat. f_equal. apply Csum_ext. intros j Hj. rewrite H by exact Hj. reflexivity. Qed.
Lemma wv_conj M m j : Cconj (wv M m j) = wv M (- m) j.
Proof. unfold wv. rewrite cis_conj, opp_IZR. f_equal. unfold Rdiv. ring. Qed.
Lemma wv_mul M m n j : (wv M m j * wv M n j)%C = wv M (m + n) j.
Proof. unfold wv. rewrite <- cis_add, plus_IZR. f_equal. unfold Rdiv. ring. Qed.
Lemma wv_mean M m : (0 < M)%nat -> (RtoC (/ INR M) * Csum M (wv M m))%C = delta M m.
Proof.
  intros H. rewrite wv_sum by exact H. unfold delta. destruct (_ =? _)%Z; [|ring].
  rewrite <- RtoC_mul, Rinv_l by (apply not_0_INR; lia). reflexivity.
Qed.
Definition ang (M n j : nat) : R := 2 * PI * INR n * INR j / INR M.
Lemma wv_ang M n j : wv M (Z.of_nat n) j = cis (ang M n j).
Proof. unfold wv, ang. rewrite <- INR_IZR_INZ. reflexivity. Qed.
Lemma wv_ang_neg M n j : wv M (- Z.of_nat n) j = cis (- ang M n j).
Proof. rewrite <- wv_conj, wv_ang. apply cis_conj. Qed.
Lemma hat_cos M n m : (0 < M)%nat ->
  hat M (fun j => cos (ang M n j)) m = (RtoC (/ 2) * (delta M (Z.of_nat n - m) + delta M (- Z.of_nat n - m)))%C.
Proof.
  intros H. rewrite <- !wv_mean by exact H. unfold hat.
  rewrite (Csum_ext M _ (fun j => RtoC (/ 2) * (wv M (Z.of_nat n - m) j + wv M (- Z.of_nat n - m) j))%C).
  { rewrite Csum_scal, Csum_add. ring. }
  intros j _. unfold Z.sub. rewrite <- !wv_mul, <- wv_conj, wv_ang, wv_ang_neg. unfold cis. rewrite cos_neg, sin_neg.
  generalize (Cconj (wv M m j)). intros z. apply C_eq; unfold RtoC, Cmul, Cadd; cbn [fst snd]; field.
Qed.
Lemma hat_sin M n m : (0 < M)%nat ->
  hat M (fun j => sin (ang M n j)) m = (RtoC (/ 2) * (- Ci) * (delta M (Z.of_nat n - m) - delta M (- Z.of_nat n - m)))%C.
Proof.
  intros H. rewrite <- !wv_mean by exact H. unfold hat.
  rewrite (Csum_ext M _ (fun j => (RtoC (/ 2) * - Ci) * (wv M (Z.of_nat n - m) j - wv M (- Z.of_nat n - m) j))%C).
  { rewrite Csum_scal, Csum_sub. ring. }
  intros j _. unfold Z.sub. rewrite <- !wv_mul, <- wv_conj, wv_ang, wv_ang_neg. unfold cis. rewrite cos_neg, sin_neg.
  generalize (Cconj (wv M m j)). intros z. apply C_eq; unfold RtoC, Cmul, Csub, Cadd, Copp, Ci; cbn [fst snd]; field.
Qed.
(** k sin^ = -i cos^, k cos^ = i sin^ for resolved waves; k = m/n *)
Section Resolved.
Context (M n : nat) (m : Z) (Hn : (0 < n)%nat) (H2 : (2 * n < M)%nat) (Hm : (2 * Z.abs m <= Z.of_nat M)%Z).
Lemma delta_plus : delta M (Z.of_nat n - m) = if (m =? Z.of_nat n)%Z then C1 else C0.
Proof.
  unfold delta. rewrite mod_0_small by lia. destruct (Z.eqb_spec (Z.of_nat n - m) 0), (Z.eqb_spec m (Z.of_nat n)); auto; lia.
Qed.
Lemma delta_minus : delta M (- Z.of_nat n - m) = if (m =? - Z.of_nat n)%Z then C1 else C0.
Proof.
  unfold delta. rewrite mod_0_small by lia. destruct (Z.eqb_spec (- Z.of_nat n - m) 0), (Z.eqb_spec m (- Z.of_nat n)); auto; lia.
Qed.
Let HI : INR n <> 0. Proof. apply not_0_INR. lia. Qed.
Lemma k_delta_plus : (RtoC (IZR m / INR n) * delta M (Z.of_nat n - m))%C = delta M (Z.of_nat n - m).
Proof.
  rewrite delta_plus. destruct (Z.eqb_spec m (Z.of_nat n)) as [->|]; [|ring].
  rewrite <- INR_IZR_INZ. unfold Rdiv. rewrite Rinv_r, RtoC_1 by exact HI. ring.
Qed.
Lemma k_delta_minus : (RtoC (IZR m / INR n) * delta M (- Z.of_nat n - m))%C = (- delta M (- Z.of_nat n - m))%C.
Proof.
  rewrite delta_minus. destruct (Z.eqb_spec m (- Z.of_nat n)) as [->|]; [|ring].
  rewrite opp_IZR, <- INR_IZR_INZ. unfold Rdiv. rewrite Ropp_mult_distr_l_reverse, Rinv_r, RtoC_opp, RtoC_1 by exact HI. ring.
Qed.
Lemma k_sin : (RtoC (IZR m / INR n) * hat M (fun j => sin (ang M n j)) m)%C = (- Ci * hat M (fun j => cos (ang M n j)) m)%C.
Proof.
  rewrite hat_sin, hat_cos by lia. pose proof k_delta_plus as P. pose proof k_delta_minus as Q.
  set (k := RtoC (IZR m / INR n)) in *. set (a := delta _ _) in *. set (b := delta M (- _ - _)) in *.
  transitivity (RtoC (/2) * - Ci * (k * a - k * b))%C; [ring|]. rewrite P, Q. ring.
Qed.
Lemma k_cos : (RtoC (IZR m / INR n) * hat M (fun j => cos (ang M n j)) m)%C = (Ci * hat M (fun j => sin (ang M n j)) m)%C.
Proof.
  rewrite hat_sin, hat_cos by lia. pose proof k_delta_plus as P. pose proof k_delta_minus as Q.
  set (k := RtoC (IZR m / INR n)) in *. set (a := delta _ _) in *. set (b := delta M (- _ - _)) in *.
  transitivity (RtoC (/2) * (k * a + k * b))%C; [ring|]. rewrite P, Q.
  transitivity (- (Ci * Ci) * (RtoC (/2) * (a - b)))%C; [rewrite Ci_sq; ring|ring].
Qed.
End Resolved.
Lemma hat_sin_0 M n : (0 < n)%nat -> (2 * n < M)%nat -> hat M (fun j => sin (ang M n j)) 0 = C0.
Proof.
  intros H1 H2. rewrite hat_sin by lia. rewrite delta_plus, delta_minus by lia.
  destruct (Z.eqb_spec 0 (Z.of_nat n)); [lia|]. destruct (Z.eqb_spec 0 (- Z.of_nat n)); [lia|]. ring.
Qed.

(** a constant has no other mode *)
Lemma hat_const M c m : (0 < M)%nat -> (m mod Z.of_nat M <> 0)%Z -> hat M (fun _ => c) m = C0.
Proof.
  intros H Hm. unfold hat.
  rewrite (Csum_ext M _ (fun j => RtoC c * wv M (- m) j)%C) by (intros j _; rewrite wv_conj; reflexivity).
  rewrite Csum_scal, wv_sum by exact H.
  replace (- m mod Z.of_nat M =? 0)%Z with false; [ring|]. symmetry. apply Z.eqb_neq. intros E.
  apply Z.mod_divide in E; [|lia]. apply Hm, Z.mod_divide; [lia|]. destruct E as [q Hq]. exists (- q)%Z. lia.
Qed.

(** frequencies *)
Lemma freq_abs N k : (k < N)%nat -> (2 * Z.abs (freq N k) <= Z.of_nat N)%Z.
Proof. intros H. unfold freq. destruct (Nat.ltb_spec (2 * k) N); lia. Qed.
Lemma freq_mod N k : (k < N)%nat -> freq N k <> 0%Z -> (freq N k mod Z.of_nat N <> 0)%Z.
Proof.
  intros H Hn E. pose proof (freq_abs N k H). assert (G := mod_0_small (freq N k) (Z.of_nat N) ltac:(lia)).
  rewrite E in G. symmetry in G. apply Z.eqb_eq in G. contradiction.
Qed.
Lemma half_mod N k : (0 < N)%nat -> (k <= N / 2)%nat -> Z.of_nat k <> 0%Z -> (Z.of_nat k mod Z.of_nat N <> 0)%Z.
Proof.
  intros H Hk Hn E. assert (2 * k <= N)%nat by (pose proof (Nat.div_mod_eq N 2); lia).
  assert (G := mod_0_small (Z.of_nat k) (Z.of_nat N) ltac:(lia)). rewrite E in G. symmetry in G. apply Z.eqb_eq in G. contradiction.
Qed.

(** ** three dimensions *)
Section T3.
Context (N : ax3 -> nat) (tr : nat * nat * nat -> R).
Notation idx := (nat * nat * nat)%type.
(** the integer wavenumber of a mode *)
Definition wn (i : ax3) (k : idx) : Z :=
  let '(a, b, c) := k in match i with x0 => freq (N x0) a | x1 => freq (N x1) b | x2 => Z.of_nat c end.
Lemma wavenumber_wn k0 i k : wavenumber N k0 i k = IZR (wn i k) * k0 i.
Proof. destruct k as [[a b] c]. destruct i; cbn; [reflexivity|reflexivity|]. rewrite INR_IZR_INZ. reflexivity. Qed.
Lemma in_modes3 k : In k (modes3 N) ->
  (fst (fst k) < N x0)%nat /\ (snd (fst k) < N x1)%nat /\ (snd k <= N x2 / 2)%nat.
Proof.
  destruct k as [[a b] c]. unfold modes3, grid. rewrite !in_prod_iff, !in_seq. cbn [fst snd]. lia.
Qed.
Lemma wn_abs i k : In k (modes3 N) -> (2 * Z.abs (wn i k) <= Z.of_nat (N i))%Z.
Proof.
  intros H. apply in_modes3 in H. destruct k as [[a b] c]. cbn [fst snd] in H. destruct H as (Ha & Hb & Hc).
  destruct i; cbn [wn]; [apply freq_abs, Ha|apply freq_abs, Hb|]. pose proof (Nat.div_mod_eq (N x2) 2). lia.
Qed.
Lemma wn_mod i k : (forall i, (0 < N i)%nat) -> In k (modes3 N) -> wn i k <> 0%Z -> (wn i k mod Z.of_nat (N i) <> 0)%Z.
Proof.
  intros HN H. apply in_modes3 in H. destruct k as [[a b] c]. cbn [fst snd] in H. destruct H as (Ha & Hb & Hc).
  destruct i; cbn [wn]; [apply freq_mod, Ha|apply freq_mod, Hb|apply half_mod; [apply HN|exact Hc]].
Qed.
Lemma wave3_wv a b c j0 j1 j2 : (forall i, (0 < N i)%nat) ->
  wave3 N N (a, b, c) (j0, j1, j2) =
  (wv (N x0) (wn x0 (a, b, c)) j0 * wv (N x1) (wn x1 (a, b, c)) j1 * wv (N x2) (wn x2 (a, b, c)) j2)%C.
Proof.
  intros HN. unfold wave3, wv, wn. rewrite <- !cis_add. f_equal. rewrite <- INR_IZR_INZ.
  assert (G : forall i, INR (N i) <> 0) by (intros i; apply not_0_INR; specialize (HN i); lia).
  pose proof (G x0). pose proof (G x1). pose proof (G x2). field. auto.
Qed.
Lemma rfft3_sep f g h k : (forall i, (0 < N i)%nat) ->
  rfft3 N N tr (fun x => let '(j0, j1, j2) := x in f j0 * g j1 * h j2) k =
  (RtoC (tr k) * (hat (N x0) f (wn x0 k) * hat (N x1) g (wn x1 k) * hat (N x2) h (wn x2 k)))%C.
Proof.
  intros HN. destruct k as [[a b] c]. unfold rfft3, points3, grid. rewrite !CsumL_prod, CsumL_seq.
  assert (G : forall i, INR (N i) <> 0) by (intros i; apply not_0_INR; specialize (HN i); lia).
  set (A := fun j => (RtoC (f j) * Cconj (wv (N x0) (wn x0 (a, b, c)) j))%C).
  set (B := fun j => (RtoC (g j) * Cconj (wv (N x1) (wn x1 (a, b, c)) j))%C).
  set (D := fun j => (RtoC (h j) * Cconj (wv (N x2) (wn x2 (a, b, c)) j))%C).
  rewrite (Csum_ext (N x0) _ (fun j0 => (Csum (N x1) B * Csum (N x2) D) * A j0)%C).
  - rewrite Csum_scal. unfold hat. fold A B D. unfold npoints, Rdiv. rewrite !Rinv_mult, !RtoC_mul. ring.
  - intros j0 _. rewrite CsumL_seq.
    rewrite (Csum_ext (N x1) _ (fun j1 => (A j0 * Csum (N x2) D) * B j1)%C).
    + rewrite Csum_scal. ring.
    + intros j1 _. rewrite CsumL_seq.
      rewrite (Csum_ext (N x2) _ (fun j2 => (A j0 * B j1) * D j2)%C); [rewrite Csum_scal; ring|].
      intros j2 _. rewrite (wave3_wv a b c) by exact HN. unfold A, B, D. rewrite !Cconj_mul, !RtoC_mul. ring.
Qed.
(** a field that does not depend on x_0 has no mode with k_0 <> 0 *)
Lemma rfft3_indep0 f k : (forall i, (0 < N i)%nat) -> In k (modes3 N) -> wn x0 k <> 0%Z ->
  rfft3 N N tr (fun x => let '(_, j1, j2) := x in f j1 j2) k = C0.
Proof.
  intros HN Hk Hn. pose proof (wn_mod x0 k HN Hk Hn) as Hm. destruct k as [[a b] c]. unfold rfft3, points3, grid.
  rewrite !CsumL_prod, CsumL_seq.
  set (S := CsumL (seq 0 (N x1)) (fun j1 => CsumL (seq 0 (N x2)) (fun j2 =>
     RtoC (f j1 j2) * Cconj (wv (N x1) (wn x1 (a, b, c)) j1 * wv (N x2) (wn x2 (a, b, c)) j2)))%C).
  rewrite (Csum_ext (N x0) _ (fun j0 => S * wv (N x0) (- wn x0 (a, b, c)) j0)%C).
  - rewrite Csum_scal. pose proof (hat_const (N x0) 1 (wn x0 (a, b, c)) (HN x0) Hm) as H. unfold hat in H.
    rewrite (Csum_ext (N x0) _ (wv (N x0) (- wn x0 (a, b, c)))) in H by (intros j _; rewrite wv_conj, RtoC_1; ring).
    apply Cmul_eq0 in H. destruct H as [H|H].
    + exfalso. apply (f_equal fst) in H. cbn in H. apply Rinv_neq_0_compat in H; [exact H|]. apply not_0_INR. specialize (HN x0). lia.
    + rewrite H. ring.
  - intros j0 _. unfold S. rewrite <- wv_conj.
    transitivity (Cconj (wv (N x0) (wn x0 (a, b, c)) j0) * CsumL (seq 0 (N x1)) (fun j1 => CsumL (seq 0 (N x2)) (fun j2 =>
      RtoC (f j1 j2) * Cconj (wv (N x1) (wn x1 (a, b, c)) j1 * wv (N x2) (wn x2 (a, b, c)) j2))))%C; [|ring].
    rewrite <- CsumL_scal. apply CsumL_ext. intros j1 _. rewrite <- CsumL_scal. apply CsumL_ext. intros j2 _.
    rewrite (wave3_wv a b c) by exact HN. rewrite !Cconj_mul. ring.
Qed.
End T3.

(** ** sums of squares over the mesh *)
Lemma cos2_sum M n : (0 < n)%nat -> (2 * n < M)%nat -> Rsum M (fun j => cos (ang M n j) * cos (ang M n j)) = INR M / 2.
Proof.
  intros H1 H2. assert (HM : (0 < M)%nat) by lia.
  assert (W : Csum M (wv M (Z.of_nat (2 * n))) = C0).
  { rewrite wv_sum by exact HM. rewrite mod_0_small by lia. destruct (Z.eqb_spec (Z.of_nat (2 * n)) 0); [lia|reflexivity]. }
  assert (S : Rsum M (fun j => cos (ang M (2 * n) j)) = 0).
  { apply (f_equal Re) in W. rewrite Re_Csum in W. cbn [C0 Re fst] in W. transitivity (Rsum M (fun j => Re (wv M (Z.of_nat (2 * n)) j))); [|exact W]. apply Rsum_ext. intros j _. rewrite wv_ang. reflexivity. }
  rewrite (Rsum_ext M _ (fun j => /2 + /2 * cos (ang M (2 * n) j))).
  - rewrite Rsum_add, Rsum_scal, S, Rsum_const. field.
  - intros j _. replace (ang M (2 * n) j) with (2 * ang M n j) by (unfold ang; rewrite mult_INR; cbn [INR]; unfold Rdiv; ring).
    rewrite cos_2a_cos. lra.
Qed.
Lemma sin2_sum M n : (0 < n)%nat -> (2 * n < M)%nat -> Rsum M (fun j => sin (ang M n j) * sin (ang M n j)) = INR M / 2.
Proof.
  intros H1 H2. rewrite (Rsum_ext M _ (fun j => 1 - cos (ang M n j) * cos (ang M n j))).
  - rewrite Rsum_sub, Rsum_const, cos2_sum by assumption. lra.
  - intros j _. pose proof (sin2_cos2 (ang M n j)). unfold Rsqr in *. lra.
Qed.
Lemma RsumL_seq n f : RsumL (seq 0 n) f = Rsum n f.
Proof.
  induction n as [|n IH]; [reflexivity|]. rewrite seq_S, RsumL_app. cbn [Rsum RsumL]. rewrite IH. cbn. ring.
Qed.
Lemma RsumL_map {A B} (g : A -> B) (l : list A) f : RsumL (map g l) f = RsumL l (fun a => f (g a)).
Proof. induction l as [|a l IH]; simpl; [reflexivity|rewrite IH; reflexivity]. Qed.
Lemma RsumL_prod {A B} (l : list A) (m : list B) f :
  RsumL (list_prod l m) f = RsumL l (fun a => RsumL m (fun b => f (a, b))).
Proof.
  induction l as [|a l IH]; cbn [list_prod RsumL]; [reflexivity|]. rewrite RsumL_app, IH, RsumL_map. reflexivity.
Qed.
Lemma grid_sum a b c (f g h : nat -> R) :
  RsumL (grid a b c) (fun x => let '(i, j, k) := x in f i * g j * h k) = Rsum a f * Rsum b g * Rsum c h.
Proof.
  unfold grid. rewrite !RsumL_prod, RsumL_seq.
  rewrite (Rsum_ext a _ (fun i => (Rsum b g * Rsum c h) * f i)).
  - rewrite Rsum_scal. ring.
  - intros i _. rewrite RsumL_seq. rewrite (Rsum_ext b _ (fun j => (f i * Rsum c h) * g j)); [rewrite Rsum_scal; ring|].
    intros j _. rewrite RsumL_seq. rewrite (Rsum_scal c (f i * g j) h). ring.
Qed.
