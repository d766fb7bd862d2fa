(** Chebyshev polynomials: derivative, orthogonality (no code of /repo). *)
From Coq Require Import Reals List Arith Bool Lia Lra FunctionalExtensionality.
From Verif Require Import Base.Cplx Base.Sums Spec.Chebyshev.
Open Scope R_scope.

Lemma snd_TT n x : snd (TT n x) = T (S n) x.
Proof. unfold T. simpl. destruct (TT n x). reflexivity. Qed.
Lemma T_0 x : T 0 x = 1. Proof. reflexivity. Qed.
Lemma T_1 x : T 1 x = x. Proof. reflexivity. Qed.
Lemma T_SS n x : T (S (S n)) x = 2 * x * T (S n) x - T n x.
Proof.
  rewrite <- snd_TT. unfold T at 1 2. simpl. destruct (TT n x) as [a b]. reflexivity.
Qed.

(** U_{n-1} *)
Fixpoint UU (n : nat) (x : R) : R * R :=
  match n with
  | O => (0, 1)
  | S n => let '(a, b) := UU n x in (b, 2 * x * b - a)
  end.
Definition Um (n : nat) (x : R) : R := fst (UU n x).
Lemma snd_UU n x : snd (UU n x) = Um (S n) x.
Proof. unfold Um. simpl. destruct (UU n x). reflexivity. Qed.
Lemma Um_SS n x : Um (S (S n)) x = 2 * x * Um (S n) x - Um n x.
Proof. rewrite <- snd_UU. unfold Um at 1 2. simpl. destruct (UU n x) as [a b]. reflexivity. Qed.

Lemma T_Um n x : T n x = Um (S n) x - x * Um n x.
Proof.
  enough (T n x = Um (S n) x - x * Um n x /\ T (S n) x = Um (S (S n)) x - x * Um (S n) x) by tauto.
  induction n as [|n [I1 I2]].
  - unfold T, Um; simpl; split; ring.
  - split; [exact I2|]. rewrite T_SS, I1, I2, !Um_SS. ring.
Qed.
Lemma Um_step n x : Um (S (S n)) x = Um n x + 2 * T (S n) x.
Proof. rewrite (T_Um (S n)), !Um_SS. ring. Qed.

Lemma dT n x : derivable_pt_lim (T n) x (INR n * Um n x).
Proof.
  enough (derivable_pt_lim (T n) x (INR n * Um n x) /\ derivable_pt_lim (T (S n)) x (INR (S n) * Um (S n) x)) by tauto.
  induction n as [|n [I1 I2]].
  - split.
    + replace (INR 0 * Um 0 x) with 0 by (simpl; ring). apply derivable_pt_lim_const.
    + replace (INR 1 * Um 1 x) with 1 by (unfold Um; simpl; ring). apply derivable_pt_lim_id.
  - split; [exact I2|].
    assert (D : derivable_pt_lim (fun y => 2 * y * T (S n) y - T n y) x
       ((2 * T (S n) x + 2 * x * (INR (S n) * Um (S n) x)) - INR n * Um n x)).
    { apply derivable_pt_lim_minus; [|exact I1].
      apply (derivable_pt_lim_mult (fun y => 2 * y)).
      - pose proof (derivable_pt_lim_scal id 2 x 1 (derivable_pt_lim_id x)) as L. rewrite Rmult_1_r in L. exact L.
      - exact I2. }
    replace (T (S (S n))) with (fun y => 2 * y * T (S n) y - T n y)
      by (extensionality y; rewrite T_SS; reflexivity).
    replace (INR (S (S n)) * Um (S (S n)) x)
      with (2 * T (S n) x + 2 * x * (INR (S n) * Um (S n) x) - INR n * Um n x); [exact D|].
    rewrite (T_Um (S n)), !Um_SS, !S_INR. ring.
Qed.

(** derivative of a Dirichlet basis function *)
Lemma d_basis k x :
  derivable_pt_lim (fun y => T k y - T (k + 2) y) x (- (2 * (INR k + 2)) * T (k + 1) x - 2 * Um k x).
Proof.
  replace (k + 2)%nat with (S (S k)) by lia. replace (k + 1)%nat with (S k) by lia.
  replace (- (2 * (INR k + 2)) * T (S k) x - 2 * Um k x)
    with (INR k * Um k x - INR (S (S k)) * Um (S (S k)) x).
  - apply derivable_pt_lim_minus; apply dT.
  - rewrite Um_step, !S_INR. ring.
Qed.

(** ** U_{q-1} as a sum of T_i *)
Definition ind (i q : nat) : bool := (i <? q) && Nat.odd (q - i).
Definition ec (i : nat) : R := match i with O => 1 | _ => 2 end.

Lemma Rsum_delta n k f : Rsum n (fun i => if (i =? k)%nat then f i else 0) = if (k <? n)%nat then f k else 0.
Proof.
  induction n as [|n IH]; [reflexivity|]. simpl. rewrite IH.
  destruct (Nat.eqb_spec n k) as [->|Hn].
  - destruct (Nat.ltb_spec k k); [lia|]. destruct (Nat.ltb_spec k (S k)); [ring|lia].
  - destruct (Nat.ltb_spec k n), (Nat.ltb_spec k (S n)); try lia; ring.
Qed.
Lemma Csum_delta n k f : Csum n (fun i => if (i =? k)%nat then f i else C0) = if (k <? n)%nat then f k else C0.
Proof.
  induction n as [|n IH]; [reflexivity|]. simpl. rewrite IH.
  destruct (Nat.eqb_spec n k) as [->|Hn].
  - destruct (Nat.ltb_spec k k); [lia|]. destruct (Nat.ltb_spec k (S k)); [ring|lia].
  - destruct (Nat.ltb_spec k n), (Nat.ltb_spec k (S n)); try lia; ring.
Qed.

Lemma ind_SS i q : ind i (S (S q)) = (ind i q || (i =? S q))%bool /\ (ind i q = true -> i <> S q).
Proof.
  unfold ind. destruct (Nat.ltb_spec i q) as [H|H].
  - replace (S (S q) - i)%nat with (S (S (q - i))) by lia.
    destruct (Nat.ltb_spec i (S (S q))); [|lia].
    destruct (Nat.eqb_spec i (S q)); [lia|]. cbn [andb]. rewrite orb_false_r.
    split; [reflexivity | auto].
  - simpl orb. destruct (Nat.eqb_spec i (S q)) as [->|Hn].
    + destruct (Nat.ltb_spec (S q) (S (S q))); [|lia].
      replace (S (S q) - S q)%nat with 1%nat by lia. split; [reflexivity | discriminate].
    + split; [|discriminate]. destruct (Nat.ltb_spec i (S (S q))); [|reflexivity].
      assert (i = q) by lia. subst. replace (S (S q) - q)%nat with 2%nat by lia. reflexivity.
Qed.

Lemma Um_sum B q x : (q <= B)%nat ->
  Um q x = Rsum B (fun i => if ind i q then ec i * T i x else 0).
Proof.
  revert q.
  enough (forall q, ((q <= B)%nat -> Um q x = Rsum B (fun i => if ind i q then ec i * T i x else 0)) /\
                    ((S q <= B)%nat -> Um (S q) x = Rsum B (fun i => if ind i (S q) then ec i * T i x else 0)))
    by (intros q; apply H).
  induction q as [|q [I1 I2]].
  - split; intros H.
    + rewrite Rsum_0; [reflexivity|]. intros i _. unfold ind. destruct (Nat.ltb_spec i 0); [lia|reflexivity].
    + transitivity (Rsum B (fun i => if (i =? 0)%nat then ec i * T i x else 0)).
      * rewrite Rsum_delta. destruct (Nat.ltb_spec 0 B); [|lia]. unfold Um, T; simpl; ring.
      * apply Rsum_ext. intros i _. unfold ind. destruct i; [reflexivity|].
        destruct (Nat.ltb_spec (S i) 1); [lia|reflexivity].
  - split; [exact I2|]. intros H. rewrite Um_step, I1 by lia.
    transitivity (Rsum B (fun i => if ind i q then ec i * T i x else 0)
                  + Rsum B (fun i => if (i =? S q)%nat then ec i * T i x else 0)).
    + rewrite Rsum_delta. destruct (Nat.ltb_spec (S q) B); [|lia]. reflexivity.
    + rewrite <- Rsum_add. apply Rsum_ext. intros i _.
      destruct (ind_SS i q) as (E & D). rewrite E. destruct (ind i q) eqn:Ei; simpl.
      * destruct (Nat.eqb_spec i (S q)); [exfalso; apply (D eq_refl); assumption | ring].
      * destruct (i =? S q)%nat; ring.
Qed.

(** ** Derivative of a Dirichlet series *)
Lemma Cderiv_sum n (c : nat -> C) (g : nat -> R -> R) (d : nat -> R) x :
  (forall k, (k < n)%nat -> derivable_pt_lim (g k) x (d k)) ->
  Cderiv (fun y => Csum n (fun k => (c k * RtoC (g k y))%C)) x (Csum n (fun k => (c k * RtoC (d k))%C)).
Proof.
  induction n as [|n IH]; intros H.
  - split; simpl; apply derivable_pt_lim_const.
  - destruct (IH ltac:(auto)) as (I1 & I2). pose proof (H n ltac:(lia)) as Hn. split; simpl.
    + apply (derivable_pt_lim_plus (fun y => fst (Csum n (fun k => (c k * RtoC (g k y))%C)))); [exact I1|].
      replace (fst (c n) * d n - snd (c n) * 0) with (fst (c n) * d n) by ring.
      replace (fun y : R => fst (c n) * g n y - snd (c n) * 0) with (fun y => fst (c n) * g n y)
        by (extensionality y; ring).
      apply derivable_pt_lim_scal, Hn.
    + apply (derivable_pt_lim_plus (fun y => snd (Csum n (fun k => (c k * RtoC (g k y))%C)))); [exact I2|].
      replace (fst (c n) * 0 + snd (c n) * d n) with (snd (c n) * d n) by ring.
      replace (fun y : R => fst (c n) * 0 + snd (c n) * g n y) with (fun y => snd (c n) * g n y)
        by (extensionality y; ring).
      apply derivable_pt_lim_scal, Hn.
Qed.

(** Chebyshev coefficients of the derivative *)
Definition dcoef (N : nat) (f : nat -> C) (i : nat) : C :=
  ((if (1 <=? i)%nat && (i <=? N - 2)%nat then RtoC (- 2 * (INR i + 1)) * f (i - 1)%nat else C0)
   - RtoC (2 * ec i) * Csum (N - 2) (fun q => if ind i q then f q else C0))%C.

Lemma dirichlet_deriv N f x : (2 <= N)%nat -> Cderiv (dirichlet N f) x (cheb N (dcoef N f) x).
Proof.
  intros HN.
  pose proof (Cderiv_sum (N - 2) f (fun k y => T k y - T (k + 2) y)
    (fun k => - (2 * (INR k + 2)) * T (k + 1) x - 2 * Um k x) x (fun k _ => d_basis k x)) as D.
  match type of D with Cderiv _ _ ?z => replace (cheb N (dcoef N f) x) with z; [exact D|] end.
  unfold cheb, dcoef.
  transitivity (Csum N (fun i => ((if (1 <=? i)%nat && (i <=? N - 2)%nat then RtoC (- 2 * (INR i + 1)) * f (i - 1)%nat else C0) * RtoC (T i x))%C)
     - Csum N (fun i => (RtoC (2 * ec i) * Csum (N - 2) (fun q => if ind i q then f q else C0)) * RtoC (T i x))%C)%C.
  2: { rewrite <- Csum_sub. apply Csum_ext. intros. ring. }
  assert (E2 : Csum N (fun i => (RtoC (2 * ec i) * Csum (N - 2) (fun q => if ind i q then f q else C0)) * RtoC (T i x))%C
     = Csum (N - 2) (fun q => (f q * RtoC (2 * Um q x))%C)).
  { transitivity (Csum N (fun i => Csum (N - 2) (fun q => (f q * RtoC (2 * (if ind i q then ec i * T i x else 0)))%C))).
    - apply Csum_ext. intros i _. rewrite <- Csum_scal, <- Csum_scal_r. apply Csum_ext. intros q _.
      destruct (ind i q); rewrite ?Rmult_0_r, ?RtoC_0, ?RtoC_mul; ring.
    - rewrite Csum_swap. apply Csum_ext. intros q Hq. rewrite Csum_scal. f_equal.
      rewrite (Um_sum N q x) by lia. rewrite <- Rsum_scal. symmetry. apply RtoC_Rsum. }
  assert (E1 : Csum N (fun i => ((if (1 <=? i)%nat && (i <=? N - 2)%nat then RtoC (- 2 * (INR i + 1)) * f (i - 1)%nat else C0) * RtoC (T i x))%C)
     = Csum (N - 2) (fun k => (f k * RtoC (- (2 * (INR k + 2)) * T (k + 1) x))%C)).
  { replace N with (S (S (N - 2))) at 1 by lia. rewrite Csum_S_l.
    set (h := fun i : nat => _). change (Csum (S (N - 2)) h) with (Csum (N - 2) h + h (N - 2)%nat)%C.
    assert (H0 : h (N - 2)%nat = C0).
    { unfold h. destruct (Nat.leb_spec (S (N - 2)) (N - 2)); [lia|]. rewrite andb_false_r. ring. }
    rewrite H0. cbn [Nat.leb andb]. rewrite (Csum_ext (N - 2) h (fun k => (f k * RtoC (- (2 * (INR k + 2)) * T (k + 1) x))%C)).
    - ring.
    - intros i Hi. unfold h. destruct (Nat.leb_spec (S i) (N - 2)); [|lia]. simpl andb.
      replace (S i - 1)%nat with i by lia. replace (i + 1)%nat with (S i) by lia.
      rewrite S_INR. replace (- (2 * (INR i + 2))) with (- 2 * (INR i + 1 + 1)) by ring.
      change (1 <=? S i)%nat with true. cbv iota. rewrite (RtoC_mul _ (T (S i) x)). ring. }
  rewrite E1, E2, <- Csum_sub. apply Csum_ext. intros k _. rewrite RtoC_sub. ring.
Qed.

(** ** Weighted integrals *)
Lemma wint_unique f a b : wint f a -> wint f b -> a = b.
Proof.
  intros (F & HF & ->) (G & HG & ->).
  assert (D : forall t, derivable_pt_lim (fun t => F t - G t) t 0).
  { intros t. replace 0 with (f (cos t) - f (cos t)) by ring.
    apply derivable_pt_lim_minus; [apply HF | apply HG]. }
  assert (pr : derivable (fun t => F t - G t)) by (intros t; exists 0; apply D).
  assert (C : constant (fun t => F t - G t)).
  { apply (null_derivative_1 _ pr). intros t. apply derive_pt_eq_0, D. }
  pose proof (C PI 0) as E. cbv beta in E. lra.
Qed.
Lemma wint_zero : wint (fun _ => 0) 0.
Proof. exists (fun _ => 0). split; [intros; apply derivable_pt_lim_const | ring]. Qed.
Lemma wint_add f g a b : wint f a -> wint g b -> wint (fun x => f x + g x) (a + b).
Proof.
  intros (F & HF & ->) (G & HG & ->). exists (fun t => F t + G t). split; [|ring].
  intros t. apply derivable_pt_lim_plus; [apply HF | apply HG].
Qed.
Lemma wint_scal c f a : wint f a -> wint (fun x => c * f x) (c * a).
Proof.
  intros (F & HF & ->). exists (fun t => c * F t). split; [|ring].
  intros t. apply derivable_pt_lim_scal, HF.
Qed.
Lemma wint_ext f g a : (forall x, f x = g x) -> wint f a -> wint g a.
Proof. intros H (F & HF & E). exists F. split; [|exact E]. intros t. rewrite <- H. apply HF. Qed.

Lemma T_cos n t : T n (cos t) = cos (INR n * t).
Proof.
  enough (T n (cos t) = cos (INR n * t) /\ T (S n) (cos t) = cos (INR (S n) * t)) by tauto.
  induction n as [|n [I1 I2]].
  - split; [simpl; rewrite Rmult_0_l, cos_0; reflexivity | simpl; rewrite Rmult_1_l; reflexivity].
  - split; [exact I2|]. rewrite T_SS, I1, I2.
    replace (INR (S (S n)) * t) with (INR (S n) * t + t) by (rewrite !S_INR; ring).
    replace (INR n * t) with (INR (S n) * t - t) by (rewrite !S_INR; ring).
    rewrite cos_plus, cos_minus. ring.
Qed.

Lemma sin_int n : sin (IZR n * PI) = 0.
Proof. apply sin_eq_0_1. exists n. reflexivity. Qed.

(** integral of cos (n t) *)
Lemma wint_cosZ (n : Z) : n <> 0%Z -> exists F, (forall t, derivable_pt_lim F t (cos (IZR n * t))) /\ 0 = F PI - F 0.
Proof.
  intros Hn. assert (HR : IZR n <> 0) by (apply IZR_neq, Hn).
  exists (fun t => / IZR n * sin (IZR n * t)). split.
  - intros t. replace (cos (IZR n * t)) with (/ IZR n * (cos (IZR n * t) * (IZR n * 1))) by (field; exact HR).
    apply derivable_pt_lim_scal.
    apply (derivable_pt_lim_comp (fun t => IZR n * t) sin).
    + apply derivable_pt_lim_scal, derivable_pt_lim_id.
    + apply derivable_pt_lim_sin.
  - rewrite sin_int, !Rmult_0_r, sin_0. ring.
Qed.

Definition cw (i : nat) : R := match i with O => PI | _ => PI / 2 end.
Lemma wint_TT i j : wint (fun x => T i x * T j x) (if (i =? j)%nat then cw i else 0).
Proof.
  assert (E : forall t, T i (cos t) * T j (cos t)
     = / 2 * (cos (IZR (Z.of_nat i - Z.of_nat j) * t) + cos (IZR (Z.of_nat i + Z.of_nat j) * t))).
  { intros t. rewrite !T_cos. rewrite minus_IZR, plus_IZR, <- !INR_IZR_INZ.
    rewrite Rmult_minus_distr_r, Rmult_plus_distr_r, cos_minus, cos_plus. field. }
  assert (G : forall n, exists F, (forall t, derivable_pt_lim F t (cos (IZR n * t))) /\
      (if (n =? 0)%Z then PI else 0) = F PI - F 0).
  { intros n. destruct (Z.eqb_spec n 0) as [->|Hn]; [|apply wint_cosZ, Hn].
    exists (fun t => t). split; [|ring]. intros t. rewrite Rmult_0_l, cos_0. apply derivable_pt_lim_id. }
  destruct (G (Z.of_nat i - Z.of_nat j)%Z) as (F1 & D1 & V1).
  destruct (G (Z.of_nat i + Z.of_nat j)%Z) as (F2 & D2 & V2).
  exists (fun t => / 2 * (F1 t + F2 t)). split.
  - intros t. rewrite E. apply derivable_pt_lim_scal, derivable_pt_lim_plus; [apply D1 | apply D2].
  - replace (/ 2 * (F1 PI + F2 PI) - / 2 * (F1 0 + F2 0)) with (/ 2 * ((F1 PI - F1 0) + (F2 PI - F2 0))) by ring.
    rewrite <- V1, <- V2.
    destruct (Nat.eqb_spec i j) as [->|Hij].
    + replace (Z.of_nat j - Z.of_nat j =? 0)%Z with true by (symmetry; apply Z.eqb_eq; lia).
      destruct j; [simpl; field|].
      replace (Z.of_nat (S j) + Z.of_nat (S j) =? 0)%Z with false by (symmetry; apply Z.eqb_neq; lia).
      simpl; field.
    + replace (Z.of_nat i - Z.of_nat j =? 0)%Z with false by (symmetry; apply Z.eqb_neq; lia).
      replace (Z.of_nat i + Z.of_nat j =? 0)%Z with false by (symmetry; apply Z.eqb_neq; lia).
      ring.
Qed.

Lemma Cwint_sum n (c : nat -> C) (g : nat -> R -> R) (d : nat -> R) :
  (forall k, (k < n)%nat -> wint (g k) (d k)) ->
  Cwint (fun x => Csum n (fun k => (c k * RtoC (g k x))%C)) (Csum n (fun k => (c k * RtoC (d k))%C)).
Proof.
  induction n as [|n IH]; intros H.
  - split; simpl; apply wint_zero.
  - destruct (IH ltac:(auto)) as (I1 & I2). pose proof (H n ltac:(lia)) as Hn. split; simpl.
    + apply wint_add; [exact I1|].
      replace (fst (c n) * d n - snd (c n) * 0) with (fst (c n) * d n) by ring.
      apply (wint_ext (fun x => fst (c n) * g n x)); [intros; ring | apply wint_scal, Hn].
    + apply wint_add; [exact I2|].
      replace (fst (c n) * 0 + snd (c n) * d n) with (snd (c n) * d n) by ring.
      apply (wint_ext (fun x => snd (c n) * g n x)); [intros; ring | apply wint_scal, Hn].
Qed.

(** inner product of a Chebyshev series with a Neumann test function, k >= 1 *)
Lemma cheb_neumann N a k : (1 <= k)%nat -> (k + 2 < N)%nat ->
  Cwint (fun x => (cheb N a x * RtoC (neumann k x))%C)
    (RtoC (PI / 2) * (a k - RtoC ((INR k / INR (k + 2)) ^ 2) * a (k + 2)%nat))%C.
Proof.
  intros Hk HN. set (s := (INR k / INR (k + 2)) ^ 2).
  pose proof (Cwint_sum N a (fun i x => T i x * neumann k x)
    (fun i => (if (i =? k)%nat then cw i else 0) + - s * (if (i =? k + 2)%nat then cw i else 0))) as P.
  destruct P as (P1 & P2).
  { intros i _. apply (wint_ext (fun x => T i x * T k x + - s * (T i x * T (k + 2) x))).
    - intros x. unfold neumann. fold s. ring.
    - apply wint_add; [apply wint_TT | apply wint_scal, wint_TT]. }
  set (z := Csum N _) in *.
  replace (RtoC (PI / 2) * (a k - RtoC s * a (k + 2)%nat))%C with z.
  - split; [refine (wint_ext _ _ _ _ P1) | refine (wint_ext _ _ _ _ P2)]; intros x; unfold cheb;
    rewrite <- Csum_scal_r; f_equal; apply Csum_ext; intros i _; rewrite RtoC_mul; ring.
  - unfold z.
    transitivity (Csum N (fun i => if (i =? k)%nat then (a i * RtoC (cw i))%C else C0)
                + Csum N (fun i => if (i =? k + 2)%nat then (a i * RtoC (- s * cw i))%C else C0))%C.
    + rewrite <- Csum_add. apply Csum_ext. intros i _.
      destruct (i =? k)%nat, (i =? k + 2)%nat; rewrite ?RtoC_add, ?Rmult_0_r, ?RtoC_0; ring.
    + rewrite !Csum_delta. destruct (Nat.ltb_spec k N); [|lia]. destruct (Nat.ltb_spec (k + 2) N); [|lia].
      destruct k as [|k]; [lia|]. simpl cw. rewrite RtoC_mul, RtoC_opp. ring.
Qed.

(** Chebyshev coefficients of a Dirichlet series *)
Definition tcoef (N : nat) (f : nat -> C) (i : nat) : C :=
  ((if (i <? N - 2)%nat then f i else C0) - (if (2 <=? i)%nat then f (i - 2)%nat else C0))%C.
Lemma dirichlet_cheb N f x : (2 <= N)%nat -> dirichlet N f x = cheb N (tcoef N f) x.
Proof.
  intros HN. unfold cheb, tcoef, dirichlet.
  transitivity (Csum N (fun i => (if (i <? N - 2)%nat then f i * RtoC (T i x) else C0)%C)
    - Csum N (fun i => (if (2 <=? i)%nat then f (i - 2)%nat * RtoC (T i x) else C0)%C))%C.
  2: { rewrite <- Csum_sub. apply Csum_ext. intros i _. destruct (i <? N - 2)%nat, (2 <=? i)%nat; ring. }
  assert (E1 : Csum N (fun i => (if (i <? N - 2)%nat then f i * RtoC (T i x) else C0)%C)
             = Csum (N - 2) (fun i => (f i * RtoC (T i x))%C)).
  { generalize (eq_refl (N - 2)%nat). generalize (N - 2)%nat at 2 3 4. intros m Hm.
    replace N with (m + 2)%nat by lia. rewrite Csum_split.
    rewrite (Csum_0 2). 2: { intros i _. destruct (Nat.ltb_spec (m + i) m); [lia|reflexivity]. }
    rewrite (Csum_ext m _ (fun i => (f i * RtoC (T i x))%C)); [ring|].
    intros i Hi. destruct (Nat.ltb_spec i m); [reflexivity|lia]. }
  assert (E2 : Csum N (fun i => (if (2 <=? i)%nat then f (i - 2)%nat * RtoC (T i x) else C0)%C)
             = Csum (N - 2) (fun i => (f i * RtoC (T (i + 2) x))%C)).
  { generalize (eq_refl (N - 2)%nat). generalize (N - 2)%nat at 2 3. intros m Hm.
    replace N with (2 + m)%nat by lia. rewrite Csum_split.
    rewrite (Csum_0 2). 2: { intros i Hi. destruct (Nat.leb_spec 2 i); [lia|reflexivity]. }
    rewrite (Csum_ext m _ (fun i => (f i * RtoC (T (i + 2) x))%C)); [ring|].
    intros i Hi. replace (2 + i - 2)%nat with i by lia. replace (i + 2)%nat with (2 + i)%nat by lia. reflexivity. }
  rewrite E1, E2, <- Csum_sub. apply Csum_ext. intros k _. rewrite RtoC_sub. ring.
Qed.
