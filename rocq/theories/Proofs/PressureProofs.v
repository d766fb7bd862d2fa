(** Lemmas for KMM.get_pressure: derivatives of Chebyshev series and the triangular system. *)
From Coq Require Import Reals Lra Lia List Arith Bool FunctionalExtensionality.
From Verif Require Import Base.Cplx Base.Sums Spec.Chebyshev Model.KMM Model.ChannelAccess Proofs.ChebyshevProofs.
Open Scope R_scope.

Lemma PI_C : RtoC PI <> C0.
Proof. apply RtoC_neq0. pose proof PI_RGT_0. lra. Qed.

(** ** the derivative of a Chebyshev series *)
Lemma D_T_deriv N (b : col) x : Cderiv (cheb N b) x (cheb N (D_T N b) x).
Proof.
  pose proof (Cderiv_sum N b T (fun k => INR k * Um k x) x (fun k _ => dT k x)) as D.
  match type of D with Cderiv _ _ ?z => replace (cheb N (D_T N b) x) with z; [exact D|] end.
  unfold cheb, D_T.
  transitivity (Csum N (fun i => Csum N (fun q => (RtoC (INR q) * b q * RtoC (if ind i q then ec i * T i x else 0))%C))).
  - rewrite Csum_swap. apply Csum_ext. intros q Hq. rewrite Csum_scal, (Um_sum N q x) by lia.
    rewrite RtoC_mul, RtoC_Rsum. ring.
  - apply Csum_ext. intros i _. rewrite <- !Csum_scal, <- !Csum_scal_r. apply Csum_ext. intros q _.
    unfold ind. change (match i with 0%nat => 1 | S _ => 2 end) with (ec i).
    destruct ((i <? q)%nat && Nat.odd (q - i)); rewrite ?RtoC_mul, ?RtoC_0; ring.
Qed.
Lemma cheb_ext N a b x : (forall i, (i < N)%nat -> a i = b i) -> cheb N a x = cheb N b x.
Proof. intros H. apply Csum_ext. intros i Hi. now rewrite H. Qed.
Lemma ST_to_T_tcoef N v : ST_to_T N v = tcoef N v.
Proof. reflexivity. Qed.
Lemma ST_cheb N v x : (2 <= N)%nat -> dirichlet N v x = cheb N (ST_to_T N v) x.
Proof. apply dirichlet_cheb. Qed.
(** the T_{N-1} coefficient of a derivative vanishes *)
Lemma D_T_last N b : D_T N b (N - 1)%nat = C0.
Proof.
  unfold D_T. rewrite Csum_0; [ring|]. intros q Hq. destruct (Nat.ltb_spec (N - 1) q); [lia|reflexivity].
Qed.

(** ** the system *)
Definition tail (N : nat) (f : nat -> C) (i : nat) : C := Csum N (fun q => if ind i q then f q else C0).
Lemma ind_l i q : ind i q = ((q =? S i)%nat || ind (S (S i)) q)%bool /\ (ind (S (S i)) q = true -> q <> S i).
Proof.
  unfold ind. destruct (Nat.ltb_spec (S (S i)) q) as [H|H].
  - destruct (Nat.ltb_spec i q); [|lia]. destruct (Nat.eqb_spec q (S i)); [lia|]. cbn [andb orb].
    replace (q - i)%nat with (S (S (q - S (S i)))) by lia. split; [reflexivity|auto].
  - cbn [andb]. rewrite orb_false_r. split; [|discriminate].
    destruct (Nat.eqb_spec q (S i)) as [->|Hn].
    + destruct (Nat.ltb_spec i (S i)); [|lia]. replace (S i - i)%nat with 1%nat by lia. reflexivity.
    + destruct (Nat.ltb_spec i q); [|reflexivity]. assert (q = S (S i)) by lia. subst.
      replace (S (S i) - i)%nat with 2%nat by lia. reflexivity.
Qed.
Lemma tail_step N f i : tail N f i = ((if (S i <? N)%nat then f (S i) else C0) + tail N f (S (S i)))%C.
Proof.
  unfold tail. rewrite <- Csum_delta, <- Csum_add. apply Csum_ext. intros q _.
  destruct (ind_l i q) as (E & D). rewrite E. destruct (Nat.eqb_spec q (S i)) as [Hq|Hq]; cbn [orb].
  - destruct (ind (S (S i)) q) eqn:I; [exfalso; now apply D|ring].
  - destruct (ind (S (S i)) q); ring.
Qed.
Lemma tail_0 N f i : (N <= S i)%nat -> tail N f i = C0.
Proof.
  intros H. apply Csum_0. intros q Hq. unfold ind. destruct (Nat.ltb_spec i q); [lia|reflexivity].
Qed.
Lemma tail_ext N f f' i : (forall q, (i < q < N)%nat -> f q = f' q) -> tail N f i = tail N f' i.
Proof.
  intros H. apply Csum_ext. intros q Hq. unfold ind. destruct (Nat.ltb_spec i q); [|reflexivity]. cbn [andb].
  destruct (Nat.odd (q - i)); [apply H; lia|reflexivity].
Qed.
(** the rows of the matrix *)
Lemma CT_row N p i : (i < N - 1)%nat ->
  Csum N (fun j => (RtoC (CT_mat N i j) * p j)%C) = tail N (fun q => RtoC (INR q * PI) * p q)%C i.
Proof.
  intros H. apply Csum_ext. intros q Hq. unfold CT_mat. destruct (Nat.eqb_spec i (N - 1)); [lia|]. cbn [andb].
  unfold ind. destruct ((i <? q)%nat && Nat.odd (q - i)); rewrite ?RtoC_0; ring.
Qed.
Lemma CT_last N p : (1 <= N)%nat -> Csum N (fun j => (RtoC (CT_mat N (N - 1) j) * p j)%C) = p 0%nat.
Proof.
  intros H. transitivity (Csum N (fun j => if (j =? 0)%nat then p j else C0)).
  - apply Csum_ext. intros q Hq. unfold CT_mat. rewrite Nat.eqb_refl. cbn [andb].
    destruct (Nat.eqb_spec q 0) as [->|Hn]; [rewrite RtoC_1; ring|].
    destruct (Nat.ltb_spec (N - 1) q); [lia|]. cbn [andb]. rewrite RtoC_0. ring.
  - rewrite Csum_delta. destruct (Nat.ltb_spec 0 N); [reflexivity|lia].
Qed.
(** the solution by back substitution *)
Definition backsub (N : nat) (r : col) : col := fun j =>
  match j with
  | O => r (N - 1)%nat
  | S i => (/ RtoC (INR (S i) * PI) * (r i - (if (S (S i) <? N - 1)%nat then r (S (S i)) else C0)))%C
  end.
Lemma INR_PI i : RtoC (INR (S i) * PI) <> C0.
Proof. apply RtoC_neq0. pose proof PI_RGT_0. pose proof (lt_0_INR (S i) ltac:(lia)). nra. Qed.
Lemma backsub_solves N r : (2 <= N)%nat -> CT_solves N r (backsub N r).
Proof.
  intros HN i Hi. destruct (Nat.eq_dec i (N - 1)) as [->|Hn].
  { rewrite CT_last by lia. reflexivity. }
  rewrite CT_row by lia.
  assert (G : forall m i, (N - i <= m)%nat -> (i < N - 1)%nat ->
     tail N (fun q => RtoC (INR q * PI) * backsub N r q)%C i = r i).
  { induction m as [|m IH]; intros k Hk Hk'; [lia|]. rewrite tail_step.
    destruct (Nat.ltb_spec (S k) N); [|lia]. unfold backsub at 1.
    destruct (Nat.ltb_spec (S (S k)) (N - 1)) as [L|L].
    - rewrite IH by lia. field. apply INR_PI.
    - rewrite tail_0 by lia. field. apply INR_PI. }
  apply (G N); lia.
Qed.
Lemma CT_unique N r p : (2 <= N)%nat -> CT_solves N r p -> forall j, (j < N)%nat -> p j = backsub N r j.
Proof.
  intros HN H [|i] Hj.
  - rewrite <- (CT_last N p) by lia. rewrite H by lia. reflexivity.
  - pose proof (H i ltac:(lia)) as Ei. rewrite CT_row, tail_step in Ei by lia.
    destruct (Nat.ltb_spec (S i) N); [|lia]. unfold backsub.
    destruct (Nat.ltb_spec (S (S i)) (N - 1)) as [L|L].
    + pose proof (H (S (S i)) ltac:(lia)) as E2. rewrite CT_row in E2 by lia. rewrite E2 in Ei.
      rewrite <- Ei. field. apply INR_PI.
    + rewrite (tail_0 _ _ (S (S i))) in Ei by lia. rewrite <- Ei. field. apply INR_PI.
Qed.

(** if r is the scalar product of the function with Chebyshev coefficients b with T_0 .. T_{N-1}, the solution has
    the derivative b without the last coefficient *)
Lemma CT_derivative N (b p : col) : (2 <= N)%nat -> CT_solves N (inner_T b) p ->
  (forall i, (i < N - 1)%nat -> D_T N p i = b i) /\ p 0%nat = (RtoC (PI / 2) * b (N - 1)%nat)%C.
Proof.
  intros HN H. split.
  - intros i Hi. pose proof (H i ltac:(lia)) as E. rewrite CT_row in E by lia.
    unfold D_T. change (Csum N _) with (tail N (fun q => RtoC (INR q) * p q)%C i).
    assert (E1 : tail N (fun q => RtoC (INR q * PI) * p q)%C i = (RtoC PI * tail N (fun q => RtoC (INR q) * p q) i)%C).
    { unfold tail. rewrite <- Csum_scal. apply Csum_ext. intros q _. destruct (ind i q); rewrite ?RtoC_mul; ring. }
    rewrite E1 in E. set (t := tail N _ i) in *. unfold inner_T in E.
    assert (Et : t = (/ RtoC PI * (RtoC PI * t))%C) by (field; apply PI_C). rewrite Et, E.
    destruct i; [rewrite RtoC_1; field; apply PI_C|]. unfold Rdiv. rewrite RtoC_mul, RtoC_inv by lra.
    field. split; [apply RtoC_neq0; lra|apply PI_C].
  - rewrite <- (CT_last N p) by lia. rewrite H by lia. unfold inner_T. destruct (N - 1)%nat eqn:E; [lia|reflexivity].
Qed.

(** Chebyshev coefficients are unique *)
Lemma cheb_inj N a a' : (forall x, cheb N a x = cheb N a' x) -> forall i, (i < N)%nat -> a i = a' i.
Proof.
  intros E i Hi.
  assert (W : forall b, Cwint (fun x => (cheb N b x * RtoC (T i x))%C) (b i * RtoC (cw i))%C).
  { intros b. pose proof (Cwint_sum N b (fun k x => T k x * T i x) (fun k => if (k =? i)%nat then cw k else 0)
      (fun k _ => wint_TT k i)) as (W1 & W2).
    assert (S : Csum N (fun k => (b k * RtoC (if (k =? i)%nat then cw k else 0))%C) = (b i * RtoC (cw i))%C).
    { rewrite (Csum_ext _ _ (fun k => if (k =? i)%nat then (b i * RtoC (cw i))%C else C0)).
      - rewrite (Csum_delta N i (fun _ => (b i * RtoC (cw i))%C)). destruct (Nat.ltb_spec i N); [reflexivity|lia].
      - intros k _. destruct (Nat.eqb_spec k i) as [->|]; rewrite ?RtoC_0; ring. }
    rewrite S in W1, W2.
    assert (F : forall x, Csum N (fun k => (b k * RtoC (T k x * T i x))%C) = (cheb N b x * RtoC (T i x))%C).
    { intros x. unfold cheb. rewrite <- Csum_scal_r. apply Csum_ext. intros k _. rewrite RtoC_mul. ring. }
    split; [replace (fun x => fst (cheb N b x * RtoC (T i x))%C) with (fun x => fst (Csum N (fun k => (b k * RtoC (T k x * T i x))%C)))
      by (extensionality x; now rewrite F); exact W1
     |replace (fun x => snd (cheb N b x * RtoC (T i x))%C) with (fun x => snd (Csum N (fun k => (b k * RtoC (T k x * T i x))%C)))
      by (extensionality x; now rewrite F); exact W2]. }
  pose proof (W a) as (A1 & A2). pose proof (W a') as (B1 & B2).
  assert (F : cheb N a = cheb N a') by (extensionality x; apply E). rewrite F in A1, A2.
  assert (X : (a i * RtoC (cw i))%C = (a' i * RtoC (cw i))%C).
  { apply C_eq; [exact (wint_unique _ _ _ A1 B1)|exact (wint_unique _ _ _ A2 B2)]. }
  assert (Z : RtoC (cw i) <> C0).
  { apply RtoC_neq0. unfold cw. pose proof PI_RGT_0. destruct i; lra. }
  replace (a i) with (a i * RtoC (cw i) * / RtoC (cw i))%C by (field; exact Z). rewrite X. field. exact Z.
Qed.
(** a series with vanishing derivative is constant *)
Lemma D_T_zero N (b : col) : (forall i, (i < N)%nat -> D_T N b i = C0) -> forall j, (1 <= j < N)%nat -> b j = C0.
Proof.
  intros H. destruct (le_lt_dec N 1) as [L|L]; [intros; lia|].
  set (b' := fun j => match j with O => C0 | _ => b j end).
  assert (Hs : CT_solves N czero b').
  { intros i Hi. destruct (Nat.eq_dec i (N - 1)) as [->|Hn]; [rewrite CT_last by lia; reflexivity|].
    rewrite CT_row by lia.
    assert (E1 : tail N (fun q => RtoC (INR q * PI) * b' q)%C i = (RtoC PI * tail N (fun q => RtoC (INR q) * b q) i)%C).
    { unfold tail. rewrite <- Csum_scal. apply Csum_ext. intros q _. destruct (ind i q) eqn:Ei; [|ring].
      destruct q; [discriminate Ei|]. unfold b'. rewrite RtoC_mul. ring. }
    rewrite E1. pose proof (H i Hi) as E. unfold D_T in E. change (Csum N _) with (tail N (fun q => RtoC (INR q) * b q)%C i) in E.
    clear E1. set (t := tail N (fun q => RtoC (INR q) * b q)%C i) in *.
    assert (Et : t = C0).
    { destruct i; [rewrite RtoC_1 in E; replace t with (C1 * t)%C by ring; exact E|].
      replace t with (/ RtoC 2 * (RtoC 2 * t))%C by (field; apply RtoC_neq0; lra). rewrite E. ring. }
    rewrite Et. unfold czero. ring. }
  assert (Hb : forall i, backsub N czero i = C0).
  { intros i. unfold backsub, czero. destruct i; [reflexivity|]. destruct (_ <? _)%nat; field; apply INR_PI. }
  intros [|j] Hj; [lia|]. pose proof (CT_unique N czero b' ltac:(lia) Hs (S j) ltac:(lia)) as X. rewrite Hb in X. exact X.
Qed.
Lemma Cderiv_unique f x a b : Cderiv f x a -> Cderiv f x b -> a = b.
Proof. intros (A1 & A2) (B1 & B2). apply C_eq; eapply uniqueness_limite; eassumption. Qed.
