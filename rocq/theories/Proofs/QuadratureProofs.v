(** Cosine sums, Chebyshev quadrature and the reduction over ranks. *)
From Coq Require Import Reals Lra Lia Arith ZArith Bool.
From Verif Require Import Base.Cplx Base.Sums Spec.Chebyshev Spec.Quadrature Model.Dx Proofs.ChebyshevProofs.
Open Scope R_scope.

(** * Cosine sums *)
Lemma cos_sum n h a :
  2 * sin (h / 2) * Rsum n (fun k => cos (h * INR k + a)) = sin (h * INR n - h / 2 + a) - sin (a - h / 2).
Proof.
  induction n as [|n IH].
  - cbn [Rsum INR]. replace (h * 0 - h / 2 + a) with (a - h / 2) by lra. ring.
  - cbn [Rsum]. rewrite Rmult_plus_distr_l, IH, S_INR.
    replace (h * (INR n + 1) - h / 2 + a) with (h * INR n + a + h / 2) by lra.
    replace (h * INR n - h / 2 + a) with (h * INR n + a - h / 2) by lra.
    rewrite sin_plus, sin_minus. ring.
Qed.
Lemma sin_nPI n : sin (INR n * PI) = 0.
Proof. rewrite INR_IZR_INZ. apply sin_int. Qed.
Lemma cos_nPI n : cos (INR n * PI) = (-1) ^ n.
Proof.
  induction n as [|n IH]; [simpl; rewrite Rmult_0_l; apply cos_0|].
  rewrite S_INR, Rmult_plus_distr_r, Rmult_1_l, neg_cos, IH. simpl. ring.
Qed.
Lemma sin_frac_pos m M : (0 < m < M)%nat -> 0 < sin (PI * INR m / INR M).
Proof.
  intros [H1 H2]. assert (0 < INR m) by (apply lt_0_INR; lia). assert (INR m < INR M) by (apply lt_INR; lia).
  pose proof PI_RGT_0. apply sin_gt_0.
  - apply Rdiv_lt_0_compat; nra.
  - apply Rmult_lt_reg_r with (INR M); [lra|]. unfold Rdiv. rewrite Rmult_assoc, Rinv_l, Rmult_1_r by lra. nra.
Qed.

(** periodic grid: a whole number of waves sums to zero *)
Lemma per_sum N m a : (0 < m < N)%nat ->
  Rsum N (fun j => cos (2 * PI * INR m / INR N * INR j + a)) = 0.
Proof.
  intros H. pose proof (sin_frac_pos m N H) as Hs.
  assert (INR N <> 0) by (apply not_0_INR; lia).
  pose proof (cos_sum N (2 * PI * INR m / INR N) a) as E.
  replace (2 * PI * INR m / INR N / 2) with (PI * INR m / INR N) in E by (field; auto).
  replace (2 * PI * INR m / INR N * INR N - PI * INR m / INR N + a) with
     (a - PI * INR m / INR N + 2 * INR m * PI) in E by (field; auto).
  rewrite sin_period in E. apply Rmult_eq_reg_l with (2 * sin (PI * INR m / INR N)); [|lra].
  rewrite E. ring.
Qed.

(** Gauss points *)
Definition CG (M m : nat) : R := Rsum M (fun k => cos (INR m * (PI * (INR k + 1 / 2) / INR M))).
Lemma CG_0 M : CG M 0 = INR M.
Proof.
  unfold CG. rewrite (Rsum_ext _ _ (fun _ => 1)), Rsum_const; [ring|].
  intros. simpl. rewrite Rmult_0_l. apply cos_0.
Qed.
Lemma CG_m M m : (0 < m < 2 * M)%nat -> CG M m = 0.
Proof.
  intros H. pose proof (sin_frac_pos m (2 * M) H) as Hs. unfold CG.
  assert (HM : INR M <> 0) by (apply not_0_INR; lia).
  rewrite mult_INR in Hs. simpl INR in Hs.
  pose proof (cos_sum M (PI * INR m / INR M) (PI * INR m / INR M / 2)) as E.
  replace (PI * INR m / INR M * INR M - PI * INR m / INR M / 2 + PI * INR m / INR M / 2)
    with (INR m * PI) in E by (field; auto).
  rewrite sin_nPI in E. replace (PI * INR m / INR M / 2 - PI * INR m / INR M / 2) with 0 in E by ring.
  rewrite sin_0 in E.
  replace (PI * INR m / INR M / 2) with (PI * INR m / ((1 + 1) * INR M)) in E at 1 by (field; auto).
  rewrite (Rsum_ext _ _ (fun k => cos (PI * INR m / INR M * INR k + PI * INR m / INR M / 2))).
  - apply Rmult_eq_reg_l with (2 * sin (PI * INR m / ((1 + 1) * INR M))); [|lra]. rewrite E. ring.
  - intros. f_equal. field; auto.
Qed.
Lemma cos_cos a b : cos a * cos b = (cos (a + b) + cos (a - b)) / 2.
Proof. rewrite cos_plus, cos_minus. field. Qed.
Lemma cos_diff n j t : cos (INR n * t - INR j * t) = cos (INR (n - j + (j - n)) * t).
Proof.
  destruct (Nat.le_ge_cases j n) as [H|H].
  - replace (n - j + (j - n))%nat with (n - j)%nat by lia. rewrite minus_INR by lia. f_equal. ring.
  - replace (n - j + (j - n))%nat with (j - n)%nat by lia. rewrite minus_INR by lia.
    rewrite <- cos_neg. f_equal. ring.
Qed.
Lemma CG_orth M n j : (n < M)%nat -> (j < M)%nat ->
  Rsum M (fun k => cos (INR n * (PI * (INR k + 1 / 2) / INR M)) * cos (INR j * (PI * (INR k + 1 / 2) / INR M)))
  = if (n =? j)%nat then (if (n =? 0)%nat then INR M else INR M / 2) else 0.
Proof.
  intros Hn Hj.
  rewrite (Rsum_ext _ _ (fun k => (cos (INR (n + j) * (PI * (INR k + 1 / 2) / INR M))
      + cos (INR (n - j + (j - n)) * (PI * (INR k + 1 / 2) / INR M))) * (1 / 2))).
  2:{ intros i _. generalize (PI * (INR i + 1 / 2) / INR M). intros t.
      rewrite cos_cos, cos_diff, (plus_INR n j), (Rmult_plus_distr_r (INR n)). field. }
  rewrite Rsum_scal_r, Rsum_add. fold (CG M (n + j)) (CG M (n - j + (j - n))).
  destruct (Nat.eqb_spec n j) as [->|Hd].
  - replace (j - j + (j - j))%nat with 0%nat by lia. rewrite CG_0.
    destruct (Nat.eqb_spec j 0) as [->|]; [rewrite CG_0; field|]. rewrite CG_m by lia. field.
  - rewrite !CG_m by lia. ring.
Qed.

(** the integral of T n over [-1, 1] *)
Definition IT (n : nat) : R := if Nat.odd n then 0 else 2 / (1 - INR n ^ 2).
Lemma T_p1 n : T n 1 = 1.
Proof. rewrite <- cos_0, T_cos. rewrite Rmult_0_r, cos_0. reflexivity. Qed.
Lemma T_m1 n : T n (-1) = (-1) ^ n.
Proof. rewrite <- cos_PI at 1. rewrite T_cos. apply cos_nPI. Qed.
Lemma pow_m1 n : (-1) ^ n = if Nat.odd n then -1 else 1.
Proof.
  induction n as [|n IH]; [reflexivity|]. rewrite Nat.odd_succ, <- Nat.negb_odd. simpl. rewrite IH.
  destruct (Nat.odd n); simpl; ring.
Qed.
Lemma Int_T n : Int (T n) (-1) 1 (IT n).
Proof.
  destruct n as [|[|n]].
  - exists (fun x => x). split; [intros; apply derivable_pt_lim_id|]. unfold IT. simpl. field.
  - exists (fun x => / 4 * T 2 x). split.
    + intros x. replace (T 1 x) with (/ 4 * (INR 2 * Um 2 x)).
      * apply (derivable_pt_lim_scal (T 2) (/ 4) x), dT.
      * rewrite T_1, (Um_SS 0). unfold Um. simpl. field.
    + unfold IT. rewrite T_p1, T_m1. simpl. field.
  - assert (E1 : INR (S (S (S n))) = INR n + 3) by (rewrite !S_INR; ring).
    assert (E2 : INR (S n) = INR n + 1) by (rewrite !S_INR; ring).
    pose proof (pos_INR n).
    exists (fun x => / (2 * INR (S (S (S n)))) * T (S (S (S n))) x + - / (2 * INR (S n)) * T (S n) x). split.
    + intros x. replace (T (S (S n)) x) with
        (/ (2 * INR (S (S (S n)))) * (INR (S (S (S n))) * Um (S (S (S n))) x)
          + - / (2 * INR (S n)) * (INR (S n) * Um (S n) x)).
      * apply (derivable_pt_lim_plus (fun x => / (2 * INR (S (S (S n)))) * T (S (S (S n))) x)
            (fun x => - / (2 * INR (S n)) * T (S n) x)); apply derivable_pt_lim_scal, dT.
      * rewrite Um_step, E1, E2. field. lra.
    + unfold IT. rewrite !T_p1, !T_m1, E1, E2.
      replace (INR (S (S n))) with (INR n + 2) by (rewrite !S_INR; ring).
      assert ((INR n + 3) * (INR n + 1) <> 0) by nra.
      rewrite !pow_m1, !Nat.odd_succ_succ, Nat.odd_succ, <- Nat.negb_odd.
      destruct (Nat.odd n); simpl; field; try lra; repeat split; nra.
Qed.

(** * Gauss quadrature *)
Lemma hstk_even n : Nat.even n = true -> hstk (n / 2) = 1 - INR n ^ 2.
Proof.
  intros H. apply Nat.even_spec in H. destruct H as [m ->].
  rewrite (Nat.mul_comm 2 m), Nat.div_mul by lia. destruct m as [|m]; [simpl; ring|].
  unfold hstk. rewrite mult_INR, S_INR. simpl INR. ring.
Qed.
Lemma GC_T M n : (n < M)%nat -> sum_GC M (fun k => T n (x_GC M k)) = IT n.
Proof.
  intros Hn. assert (HM : INR M <> 0) by (apply not_0_INR; lia).
  unfold sum_GC, x_GC.
  set (th := fun k => PI * (INR k + 1 / 2) / INR M).
  transitivity (Rsum M (fun k => Rsum M (fun j => (if (j =? 0)%nat then 1 else 2) * d_GC M j
      * (cos (INR n * th k) * cos (INR j * th k))))).
  - apply Rsum_ext. intros k Hk. fold (th k). rewrite T_cos. unfold dct3.
    destruct M as [|M']; [lia|]. rewrite Rsum_S_l. cbn [Nat.eqb]. replace (S M' - 1)%nat with M' by lia.
    replace (INR 0 * th k) with 0 by (simpl; ring). rewrite cos_0.
    rewrite Rmult_plus_distr_l. f_equal; [ring|].
    rewrite <- Rmult_assoc, <- Rsum_scal. apply Rsum_ext. intros j Hj.
    replace (PI * INR (S j) * (INR k + 1 / 2) / INR (S M')) with (INR (S j) * th k) by (unfold th; field; auto).
    ring.
  - rewrite Rsum_swap.
    rewrite (Rsum_ext _ _ (fun j => if (j =? n)%nat then INR M * d_GC M j else 0)).
    + rewrite Rsum_delta. destruct (Nat.ltb_spec n M); [|lia]. unfold d_GC, IT.
      rewrite <- Nat.negb_even. destruct (Nat.even n) eqn:En; cbn [negb]; [|ring].
      rewrite hstk_even by auto. unfold Rdiv. rewrite <- !Rmult_assoc. field_simplify_eq; auto.
      split; auto. intros E.
      assert (INR n ^ 2 = 1) by lra. assert (INR n = 1) by (pose proof (pos_INR n); nra).
      assert (n = 1)%nat by (apply INR_eq; simpl; lra). subst. discriminate.
    + intros j Hj. rewrite Rsum_scal. unfold th. rewrite CG_orth by auto. rewrite (Nat.eqb_sym n j).
      destruct (Nat.eqb_spec j n) as [->|]; [|ring]. destruct (Nat.eqb n 0); field.
Qed.

(** * Gauss-Lobatto quadrature *)
Definition DL (L m : nat) : R :=
  (1 + (-1) ^ m) / 2 + Rsum (L - 1) (fun j => cos (PI * INR m * INR (S j) / INR L)).
Lemma DL_0 L : (1 <= L)%nat -> DL L 0 = INR L.
Proof.
  intros H. unfold DL. rewrite (Rsum_ext _ _ (fun _ => 1)), Rsum_const.
  - rewrite minus_INR by lia. simpl. field.
  - intros. simpl INR. replace (PI * 0 * _ / INR L) with 0 by (unfold Rdiv; ring). apply cos_0.
Qed.
Lemma DL_2L L : (1 <= L)%nat -> DL L (2 * L) = INR L.
Proof.
  intros H. unfold DL. rewrite (Rsum_ext _ _ (fun _ => 1)), Rsum_const.
  - rewrite pow_mult. replace ((-1) ^ 2) with 1 by ring. rewrite pow1, minus_INR by lia. simpl. field.
  - intros i _. rewrite mult_INR. simpl INR at 1.
    assert (INR L <> 0) by (apply not_0_INR; lia).
    replace (PI * ((1 + 1) * INR L) * INR (S i) / INR L) with (0 + 2 * INR (S i) * PI) by (field; auto).
    rewrite cos_period. apply cos_0.
Qed.
Lemma DL_m L m : (0 < m < 2 * L)%nat -> DL L m = 0.
Proof.
  intros H. pose proof (sin_frac_pos m (2 * L) H) as Hs.
  assert (HL : INR L <> 0) by (apply not_0_INR; lia).
  rewrite mult_INR in Hs. simpl INR in Hs.
  pose proof (cos_sum L (PI * INR m / INR L) 0) as E.
  rewrite Rplus_0_r in E.
  replace (PI * INR m / INR L * INR L) with (INR m * PI) in E by (field; auto).
  rewrite sin_minus, sin_nPI, cos_nPI in E. rewrite Rminus_0_l, sin_neg in E.
  replace (PI * INR m / INR L / 2) with (PI * INR m / ((1 + 1) * INR L)) in E by (field; auto).
  set (s := sin (PI * INR m / ((1 + 1) * INR L))) in *.
  destruct L as [|L']; [lia|].
  rewrite Rsum_S_l in E. simpl INR in E at 2. rewrite Rmult_0_r, Rplus_0_r, cos_0 in E.
  unfold DL. replace (S L' - 1)%nat with L' by lia.
  rewrite (Rsum_ext _ _ (fun i => cos (PI * INR m / INR (S L') * INR (S i) + 0))).
  2:{ intros. f_equal. field; auto. }
  set (Q := Rsum L' _) in *.
  apply Rmult_eq_reg_l with (2 * s); [|lra]. rewrite Rmult_0_r. lra.
Qed.
Lemma dct1_T L n k : (1 <= L)%nat -> (n <= L)%nat -> (k <= L)%nat ->
  dct1 (S L) (fun j => T n (x_GL (S L) j)) k = DL L (n + k) + DL L (n - k + (k - n)).
Proof.
  intros HL Hn Hk. assert (INR L <> 0) by (apply not_0_INR; lia).
  unfold dct1, x_GL, DL. replace (S L - 1)%nat with L by lia. replace (S L - 2)%nat with (L - 1)%nat by lia.
  rewrite !T_cos. replace (INR n * (PI * INR 0 / INR L)) with 0 by (simpl; field; auto).
  replace (INR n * (PI * INR L / INR L)) with (INR n * PI) by (field; auto).
  rewrite cos_0, cos_nPI.
  rewrite (Rsum_ext _ (fun j => T n _ * _)
    (fun j => (cos (PI * INR (n + k) * INR (S j) / INR L)
             + cos (PI * INR (n - k + (k - n)) * INR (S j) / INR L)) * (1 / 2))).
  - rewrite Rsum_scal_r, Rsum_add.
    assert (E : (-1) ^ (n - k + (k - n)) = (-1) ^ (n + k)).
    { rewrite !pow_m1. f_equal.
      destruct (Nat.le_ge_cases k n).
      - replace (n + k)%nat with (n - k + (k - n) + 2 * k)%nat by lia. rewrite Nat.odd_add_mul_2. reflexivity.
      - replace (n + k)%nat with (n - k + (k - n) + 2 * n)%nat by lia. rewrite Nat.odd_add_mul_2. reflexivity. }
    rewrite E, pow_add. set (A := Rsum _ _). set (B := Rsum _ _). field.
  - intros j _. rewrite T_cos.
    set (t := PI * INR (S j) / INR L).
    replace (PI * INR (S j) * INR k / INR L) with (INR k * t) by (unfold t; field; auto).
    replace (PI * INR (n + k) * INR (S j) / INR L) with (INR n * t + INR k * t)
      by (rewrite plus_INR; unfold t; field; auto).
    replace (PI * INR (n - k + (k - n)) * INR (S j) / INR L) with (INR (n - k + (k - n)) * t)
      by (unfold t; field; auto).
    rewrite cos_cos, cos_diff. field.
Qed.
Lemma GL_T L n : (1 <= L)%nat -> (n <= L)%nat ->
  sum_GL (S L) (fun j => T n (x_GL (S L) j))
  = if ((n =? L) && Nat.even L)%bool then 2 * IT n else IT n.
Proof.
  intros HL Hn. assert (HL' : INR L <> 0) by (apply not_0_INR; lia).
  unfold sum_GL.
  rewrite (Rsum_ext _ _ (fun k => if (k =? n)%nat then
      (1 + (if (n =? 0)%nat then 1 else if (n =? L)%nat then 1 else 0)) * w_GL k else 0)).
  - rewrite Rsum_delta. destruct (Nat.ltb_spec n (S L)); [|lia].
    unfold w_GL, IT. rewrite <- Nat.negb_even.
    destruct (Nat.even n) eqn:En; cbn [negb].
    + destruct n as [|n].
      * destruct L; [lia|]. simpl. field.
      * cbn [Nat.eqb]. destruct L as [|L]; [lia|]. cbn [Nat.eqb].
        destruct (Nat.eqb_spec n L) as [->|]; cbn [andb]; [rewrite En|]; ring.
    + destruct (Nat.eqb_spec n L) as [->|]; [rewrite En|]; cbn [andb]; ring.
  - intros k Hk. rewrite dct1_T by lia. replace (S L - 1)%nat with L by lia.
    destruct (Nat.eqb_spec k n) as [->|Hd].
    + replace (n - n + (n - n))%nat with 0%nat by lia. rewrite (DL_0 L) by lia.
      destruct (Nat.eqb_spec n 0) as [->|]; [rewrite DL_0 by lia; field; auto|].
      destruct (Nat.eqb_spec n L) as [->|].
      * replace (L + L)%nat with (2 * L)%nat by lia. rewrite DL_2L by lia. field; auto.
      * rewrite DL_m by lia. field; auto.
    + rewrite !DL_m by lia. field; auto.
Qed.

(** * Linearity *)
Lemma dct1_lin M X Y a b k :
  dct1 M (fun j => a * X j + b * Y j) k = a * dct1 M X k + b * dct1 M Y k.
Proof.
  unfold dct1.
  rewrite (Rsum_ext _ (fun j => (a * X (S j) + b * Y (S j)) * _)
    (fun j => a * (X (S j) * cos (PI * INR (S j) * INR k / INR (M - 1)))
            + b * (Y (S j) * cos (PI * INR (S j) * INR k / INR (M - 1))))).
  - rewrite Rsum_add, !Rsum_scal. ring.
  - intros. ring.
Qed.
Lemma dct1_ext M X Y k : (forall i, (i < M)%nat -> X i = Y i) -> (1 <= M)%nat -> dct1 M X k = dct1 M Y k.
Proof.
  intros H HM. unfold dct1. rewrite (H 0%nat), (H (M - 1)%nat) by lia.
  do 2 f_equal. apply Rsum_ext. intros. rewrite H by lia. reflexivity.
Qed.
Lemma weighted_ext b M X Y : (forall i, (i < M)%nat -> X i = Y i) -> weighted b M X = weighted b M Y.
Proof.
  intros H. destruct b; unfold weighted, sum_GL, sum_GC; apply Rsum_ext; intros; try (rewrite H by auto; reflexivity).
  rewrite (dct1_ext M X Y) by (auto; lia). reflexivity.
Qed.
Lemma weighted_lin bs M X Y a b :
  weighted bs M (fun j => a * X j + b * Y j) = a * weighted bs M X + b * weighted bs M Y.
Proof.
  destruct bs; unfold weighted, sum_GL, sum_GC; rewrite <- !Rsum_scal, <- Rsum_add;
  apply Rsum_ext; intros; try ring. rewrite dct1_lin. unfold Rdiv. ring.
Qed.
Lemma weighted_0 bs M : weighted bs M (fun _ => 0) = 0.
Proof.
  rewrite (weighted_ext bs M _ (fun j => 0 * 0 + 0 * 0)) by (intros; ring). rewrite (weighted_lin bs M (fun _ => 0) (fun _ => 0)). ring.
Qed.
Lemma weighted_sum bs M n c X :
  weighted bs M (fun j => Rsum n (fun q => c q * X q j)) = Rsum n (fun q => c q * weighted bs M (X q)).
Proof.
  induction n as [|n IH]; [apply weighted_0|]. cbn [Rsum].
  rewrite (weighted_ext bs M _ (fun j => 1 * Rsum n (fun q => c q * X q j) + c n * X n j)) by (intros; ring).
  rewrite weighted_lin, IH. ring.
Qed.

(** * Integrals *)
Lemma Int_ext p q a b v : (forall x, p x = q x) -> Int p a b v -> Int q a b v.
Proof. intros E [F [H1 H2]]. exists F. split; auto. intros x. rewrite <- E. apply H1. Qed.
Lemma Int_lin p q a b v w c d : Int p a b v -> Int q a b w -> Int (fun x => c * p x + d * q x) a b (c * v + d * w).
Proof.
  intros [F [H1 ->]] [G [H2 ->]]. exists (fun x => c * F x + d * G x). split; [|ring].
  intros x. apply (derivable_pt_lim_plus (fun x => c * F x) (fun x => d * G x));
  apply derivable_pt_lim_scal; auto.
Qed.
Lemma Int_zero a b : Int (fun _ => 0) a b 0.
Proof. exists (fun _ => 0). split; [intros; apply derivable_pt_lim_const|ring]. Qed.
Lemma Int_const c a b : Int (fun _ => c) a b (c * (b - a)).
Proof.
  exists (fun x => c * x). split; [|ring]. intros x.
  pose proof (derivable_pt_lim_scal id c x 1 (derivable_pt_lim_id x)) as H. rewrite Rmult_1_r in H. exact H.
Qed.
Lemma Int_sum n c p a b v : (forall q, (q < n)%nat -> Int (p q) a b (v q)) ->
  Int (fun x => Rsum n (fun q => c q * p q x)) a b (Rsum n (fun q => c q * v q)).
Proof.
  induction n as [|n IH]; intros H; [apply Int_zero|]. cbn [Rsum].
  assert (H0 : Int (fun x => Rsum n (fun q => c q * p q x)) a b (Rsum n (fun q => c q * v q))) by (apply IH; intros; apply H; lia).
  pose proof (Int_lin _ _ a b _ _ 1 (c n) H0 (H n (Nat.lt_succ_diag_r n))) as H1.
  replace (Rsum n (fun q => c q * v q) + c n * v n) with (1 * Rsum n (fun q => c q * v q) + c n * v n) by ring.
  eapply Int_ext; [|exact H1]. intros x. cbn beta. ring.
Qed.
Lemma Int_unique p a b v w : a <= b -> Int p a b v -> Int p a b w -> v = w.
Proof.
  intros Hab [F [H1 ->]] [G [H2 ->]].
  destruct (Req_dec a b) as [->|Hn]; [ring|].
  assert (Hd : forall x, derivable_pt_lim (fun x => F x - G x) x 0).
  { intros x. replace 0 with (p x - p x) by ring. apply (derivable_pt_lim_minus F G); auto. }
  destruct (MVT_cor2 (fun x => F x - G x) (fun _ => 0) a b) as [c [Hc _]]; [lra|intros; apply Hd|].
  lra.
Qed.
Lemma Int3_unique u a0 b0 a1 b1 a2 b2 V W : a0 <= b0 -> a1 <= b1 -> a2 <= b2 ->
  Int3 u a0 b0 a1 b1 a2 b2 V -> Int3 u a0 b0 a1 b1 a2 b2 W -> V = W.
Proof.
  intros Ha Hb Hc [h [g [H1 [H2 H3]]]] [h' [g' [H1' [H2' H3']]]].
  assert (Eh : forall x y, h x y = h' x y) by (intros; eapply Int_unique; eauto).
  assert (Eg : forall x, g x = g' x).
  { intros x. apply (Int_unique (fun y => h' x y) a1 b1); auto. eapply Int_ext; [|apply H2]. intros; apply Eh. }
  apply (Int_unique g' a0 b0); auto. eapply Int_ext; eauto.
Qed.

(** * Polynomials in the Chebyshev basis *)
Definition span (n : nat) (p : R -> R) : Prop := exists b, forall x, p x = Rsum n (fun i => b i * T i x).
Lemma span_lin n p q c d : span n p -> span n q -> span n (fun x => c * p x + d * q x).
Proof.
  intros [a Ha] [b Hb]. exists (fun i => c * a i + d * b i). intros x.
  rewrite Ha, Hb, <- !Rsum_scal, <- Rsum_add. apply Rsum_ext. intros; ring.
Qed.
Lemma span_ext n p q : (forall x, p x = q x) -> span n p -> span n q.
Proof. intros E [b H]. exists b. intros. rewrite <- E. apply H. Qed.
Lemma span_T n i : (i < n)%nat -> span n (T i).
Proof.
  intros H. exists (fun j => if (j =? i)%nat then 1 else 0). intros x.
  rewrite (Rsum_ext _ _ (fun j => if (j =? i)%nat then T j x else 0)).
  - rewrite Rsum_delta. destruct (Nat.ltb_spec i n); [reflexivity|lia].
  - intros j _. destruct (j =? i)%nat; ring.
Qed.
Lemma span_0 n : span n (fun _ => 0).
Proof. exists (fun _ => 0). intros. symmetry. apply Rsum_0. intros; ring. Qed.
Lemma span_sum n m c p : (forall i, (i < m)%nat -> span n (p i)) -> span n (fun x => Rsum m (fun i => c i * p i x)).
Proof.
  induction m as [|m IH]; intros H; [apply span_0|]. cbn [Rsum].
  eapply span_ext; [|apply (span_lin n (fun x => Rsum m (fun i => c i * p i x)) (p m) 1 (c m))].
  - intros x. cbn beta. ring.
  - apply IH. intros; apply H; lia.
  - apply H; lia.
Qed.
Lemma span_x n p : span n p -> span (S n) (fun x => x * p x).
Proof.
  intros [b H].
  apply (span_ext _ (fun x => Rsum n (fun i => b i * (x * T i x)))).
  { intros x. rewrite H, <- Rsum_scal. apply Rsum_ext. intros; ring. }
  apply (span_sum (S n) n b (fun i x => x * T i x)). intros i Hi. destruct i as [|i].
  - apply (span_ext _ (T 1)); [intros; rewrite T_1, T_0; ring|]. apply span_T; lia.
  - apply (span_ext _ (fun x => 1 / 2 * T (S (S i)) x + 1 / 2 * T i x)).
    + intros x. rewrite T_SS. field.
    + apply span_lin; apply span_T; lia.
Qed.
Lemma span_pow n k : (k < n)%nat -> span n (fun x => x ^ k).
Proof.
  revert n; induction k as [|k IH]; intros n H.
  - apply (span_ext _ (T 0)); [intros; reflexivity|]. apply span_T; auto.
  - destruct n; [lia|]. apply (span_ext _ (fun x => x * x ^ k)); [intros; reflexivity|]. apply span_x, IH. lia.
Qed.
Lemma span_poly n a : span n (poly n a).
Proof. apply (span_sum n n a (fun k x => x ^ k)). intros. apply span_pow; auto. Qed.

Definition exactT (bs : basis) (M n : nat) (x : nat -> R) : Prop :=
  forall i, (i < n)%nat -> weighted bs M (fun k => T i (x k)) = IT i.
Lemma exact_poly bs M n x a : exactT bs M n x -> Int (poly n a) (-1) 1 (weighted bs M (fun k => poly n a (x k))).
Proof.
  intros H. destruct (span_poly n a) as [b Hb].
  rewrite (weighted_ext bs M _ (fun k => Rsum n (fun i => b i * T i (x k)))) by (intros; apply Hb).
  rewrite (weighted_sum bs M n b (fun i k => T i (x k))).
  apply (Int_ext (fun y => Rsum n (fun i => b i * T i y))); [intros; symmetry; apply Hb|].
  apply Int_sum. intros q Hq. rewrite H by auto. apply Int_T.
Qed.

(** * Periodic directions *)
Lemma wave_int Lp m phi : 0 < Lp ->
  Int (wave Lp m phi) 0 Lp (if (m =? 0)%nat then Lp * cos phi else 0).
Proof.
  intros HL. destruct (Nat.eqb_spec m 0) as [->|Hm].
  - apply (Int_ext (fun _ => cos phi)).
    + intros y. unfold wave. f_equal. simpl. field. lra.
    + replace (Lp * cos phi) with (cos phi * (Lp - 0)) by ring. apply Int_const.
  - set (w := 2 * PI * INR m / Lp).
    assert (0 < INR m) by (apply lt_0_INR; lia). pose proof PI_RGT_0.
    assert (Hw : w <> 0). { unfold w. apply Rgt_not_eq. apply Rdiv_lt_0_compat; nra. }
    exists (fun y => / w * sin (w * y + phi)). split.
    + intros y. replace (wave Lp m phi y) with (/ w * (cos (w * y + phi) * (w * 1 + 0))).
      * apply derivable_pt_lim_scal.
        apply (derivable_pt_lim_comp (fun y => w * y + phi) sin).
        -- apply (derivable_pt_lim_plus (fun y => w * y) (fun _ => phi)); [|apply derivable_pt_lim_const].
           apply (derivable_pt_lim_scal id w y 1), derivable_pt_lim_id.
        -- apply derivable_pt_lim_sin.
      * unfold wave. replace (2 * PI * INR m * y / Lp) with (w * y) by (unfold w; field; lra). field; auto.
    + replace (w * Lp + phi) with (phi + 2 * INR m * PI) by (unfold w; field; lra).
      rewrite sin_period, Rmult_0_r, Rplus_0_l. ring.
Qed.
Lemma wave_sum Lp N m phi : 0 < Lp -> (m < N)%nat ->
  Lp / INR N * Rsum N (fun j => wave Lp m phi (x_per Lp N j)) = if (m =? 0)%nat then Lp * cos phi else 0.
Proof.
  intros HL H. assert (HN : INR N <> 0) by (apply not_0_INR; lia).
  destruct (Nat.eqb_spec m 0) as [->|Hm].
  - rewrite (Rsum_ext _ _ (fun _ => cos phi)), Rsum_const; [field; auto|].
    intros. unfold wave. f_equal. simpl. field. lra.
  - rewrite (Rsum_ext _ _ (fun j => cos (2 * PI * INR m / INR N * INR j + phi))).
    + rewrite per_sum by lia. ring.
    + intros j _. unfold wave, x_per. do 2 f_equal. field. split; auto; lra.
Qed.

(** * Reduction over the ranks *)
Lemma Rsum_box n lo len f : (lo + len <= n)%nat ->
  Rsum len (fun j => f (lo + j)%nat)
  = Rsum n (fun j => if ((lo <=? j) && (j <? lo + len))%nat%bool then f j else 0).
Proof.
  intros H. replace n with (lo + (len + (n - lo - len)))%nat by lia.
  rewrite !Rsum_split.
  rewrite (Rsum_0 lo), (Rsum_0 (n - lo - len)).
  - rewrite Rplus_0_l, Rplus_0_r. apply Rsum_ext. intros i Hi.
    destruct (Nat.leb_spec lo (lo + i)); [|lia]. destruct (Nat.ltb_spec (lo + i) (lo + len)); [|lia]. reflexivity.
  - intros i Hi. destruct (Nat.ltb_spec (lo + (len + i)) (lo + len)); [lia|]. rewrite andb_false_r. reflexivity.
  - intros i Hi. destruct (Nat.leb_spec lo i); [lia|]. reflexivity.
Qed.
Definition inbx (lo len i : nat) : bool := ((lo <=? i) && (i <? lo + len))%nat%bool.
Lemma inbx_spec lo len i : inbx lo len i = true <-> (lo <= i < lo + len)%nat.
Proof. unfold inbx. rewrite andb_true_iff, Nat.leb_le, Nat.ltb_lt. tauto. Qed.
Lemma c_root_plane P n lo len U u axis i :
  decomposition P n lo len -> scattered P lo len U u -> (i < n (match axis with 0 => 0 | 1 => 1 | _ => 2 end))%nat ->
  (axis < 3)%nat -> c_root P lo len u axis i = plane axis n U i.
Proof.
  intros [Hin Hun] Hsc Hi Hax.
  unfold c_root.
  set (own := fun r i j k => (inbx (lo r 0%nat) (len r 0%nat) i && inbx (lo r 1%nat) (len r 1%nat) j && inbx (lo r 2%nat) (len r 2%nat) k)%bool).
  assert (Hone : forall i j k, (i < n 0)%nat -> (j < n 1)%nat -> (k < n 2)%nat ->
     Rsum P (fun r => if own r i j k then U i j k else 0) = U i j k).
  { intros i' j k H1 H2 H3. destruct (Hun i' j k H1 H2 H3) as [r [Hr [Ho Hu]]].
    rewrite (Rsum_ext _ _ (fun r' => if (r' =? r)%nat then U i' j k else 0)).
    - rewrite Rsum_delta. destruct (Nat.ltb_spec r P); [reflexivity|lia].
    - intros r' Hr'. assert (E : own r' i' j k = (r' =? r)%nat); [|rewrite E; reflexivity].
      apply eq_true_iff_eq. unfold own. rewrite !andb_true_iff, !inbx_spec, Nat.eqb_eq.
      split; [intros [[A B] D]; apply Hu; auto; repeat split; lia|].
      intros ->. destruct Ho as [A [B D]]. auto. }
  assert (H3 : axis = 0%nat \/ axis = 1%nat \/ axis = 2%nat) by lia.
  destruct H3 as [->|[->| ->]]; unfold plane, cc, uu.
  - transitivity (Rsum P (fun r => Rsum (n 1%nat) (fun j => Rsum (n 2%nat) (fun k => if own r i j k then U i j k else 0)))).
    + apply Rsum_ext. intros r Hr. fold (inbx (lo r 0%nat) (len r 0%nat) i).
      unfold own. destruct (inbx (lo r 0%nat) (len r 0%nat) i) eqn:E; cbn [andb].
      * apply inbx_spec in E. rewrite (Rsum_ext _ _ (fun j => Rsum (len r 2%nat) (fun k => U i (lo r 1 + j) (lo r 2 + k))%nat)).
        2:{ intros j Hj. apply Rsum_ext. intros k Hk. rewrite Hsc by lia. f_equal; lia. }
        rewrite (Rsum_box (n 1%nat) (lo r 1%nat) (len r 1%nat) (fun j => Rsum (len r 2%nat) (fun k => U i j (lo r 2 + k)%nat))) by (apply Hin; lia).
        apply Rsum_ext. intros j Hj. fold (inbx (lo r 1%nat) (len r 1%nat) j).
        destruct (inbx (lo r 1%nat) (len r 1%nat) j); cbn [andb]; [|symmetry; apply Rsum_0; auto].
        apply (Rsum_box (n 2%nat) (lo r 2%nat) (len r 2%nat) (fun k => U i j k)). apply Hin; lia.
      * symmetry. apply Rsum_0. intros. apply Rsum_0. auto.
    + rewrite Rsum_swap. apply Rsum_ext. intros j Hj. rewrite Rsum_swap. apply Rsum_ext. intros k Hk. apply Hone; auto.
  - transitivity (Rsum P (fun r => Rsum (n 0%nat) (fun j => Rsum (n 2%nat) (fun k => if own r j i k then U j i k else 0)))).
    + apply Rsum_ext. intros r Hr. fold (inbx (lo r 1%nat) (len r 1%nat) i).
      unfold own. destruct (inbx (lo r 1%nat) (len r 1%nat) i) eqn:E.
      * apply inbx_spec in E. rewrite (Rsum_ext _ _ (fun j => Rsum (len r 2%nat) (fun k => U (lo r 0 + j) i (lo r 2 + k))%nat)).
        2:{ intros j Hj. apply Rsum_ext. intros k Hk. rewrite Hsc by lia. f_equal; lia. }
        rewrite (Rsum_box (n 0%nat) (lo r 0%nat) (len r 0%nat) (fun j => Rsum (len r 2%nat) (fun k => U j i (lo r 2 + k)%nat))) by (apply Hin; lia).
        apply Rsum_ext. intros j Hj. fold (inbx (lo r 0%nat) (len r 0%nat) j).
        destruct (inbx (lo r 0%nat) (len r 0%nat) j); cbn [andb]; [|symmetry; apply Rsum_0; auto].
        apply (Rsum_box (n 2%nat) (lo r 2%nat) (len r 2%nat) (fun k => U j i k)). apply Hin; lia.
      * symmetry. apply Rsum_0. intros. apply Rsum_0. intros. rewrite andb_false_r. reflexivity.
    + rewrite Rsum_swap. apply Rsum_ext. intros j Hj. rewrite Rsum_swap. apply Rsum_ext. intros k Hk. apply Hone; auto.
  - transitivity (Rsum P (fun r => Rsum (n 0%nat) (fun j => Rsum (n 1%nat) (fun k => if own r j k i then U j k i else 0)))).
    + apply Rsum_ext. intros r Hr. fold (inbx (lo r 2%nat) (len r 2%nat) i).
      unfold own. destruct (inbx (lo r 2%nat) (len r 2%nat) i) eqn:E.
      * apply inbx_spec in E. rewrite (Rsum_ext _ _ (fun j => Rsum (len r 1%nat) (fun k => U (lo r 0 + j) (lo r 1 + k) i)%nat)).
        2:{ intros j Hj. apply Rsum_ext. intros k Hk. rewrite Hsc by lia. f_equal; lia. }
        rewrite (Rsum_box (n 0%nat) (lo r 0%nat) (len r 0%nat) (fun j => Rsum (len r 1%nat) (fun k => U j (lo r 1 + k)%nat i))) by (apply Hin; lia).
        apply Rsum_ext. intros j Hj. fold (inbx (lo r 0%nat) (len r 0%nat) j).
        destruct (inbx (lo r 0%nat) (len r 0%nat) j); cbn [andb]; [|symmetry; apply Rsum_0; auto].
        rewrite (Rsum_box (n 1%nat) (lo r 1%nat) (len r 1%nat) (fun k => U j k i)) by (apply Hin; lia).
        apply Rsum_ext. intros k Hk. rewrite andb_true_r. reflexivity.
      * symmetry. apply Rsum_0. intros. apply Rsum_0. intros. rewrite andb_false_r. reflexivity.
    + rewrite Rsum_swap. apply Rsum_ext. intros j Hj. rewrite Rsum_swap. apply Rsum_ext. intros k Hk. apply Hone; auto.
Qed.
