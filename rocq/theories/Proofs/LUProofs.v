(** The line operators of LUsolve.pyx compute the closed forms of Proofs/ChebyshevProofs.v. *)
From Coq Require Import Reals List Arith Bool Lia Lra FunctionalExtensionality.
From Verif Require Import Base.Cplx Base.Sums Model.LU Spec.Chebyshev Proofs.ChebyshevProofs.
Open Scope R_scope.

Lemma set_same m a x : set m a x a = x.
Proof. unfold set. rewrite Nat.eqb_refl. reflexivity. Qed.
Lemma set_other m a b x : b <> a -> set m a x b = m b.
Proof. intros H. unfold set. destruct (Nat.eqb_spec b a); [contradiction|reflexivity]. Qed.

(** parity sums *)
Definition parsum (B : nat) (f : nat -> C) (i : nat) : C := Csum B (fun q => if ind i q then f q else C0).
Lemma parsum_hi B f i : (B <= i + 1)%nat -> parsum B f i = C0.
Proof.
  intros H. apply Csum_0. intros q Hq. unfold ind. destruct (Nat.ltb_spec i q); [lia|reflexivity].
Qed.
Lemma ind_step i q : ind i q = ((q =? i + 1)%nat || ind (i + 2) q)%bool /\ (ind (i + 2) q = true -> q <> (i + 1)%nat).
Proof.
  unfold ind. destruct (Nat.eqb_spec q (i + 1)) as [->|Hn].
  - destruct (Nat.ltb_spec i (i + 1)); [|lia]. replace (i + 1 - i)%nat with 1%nat by lia.
    split; [reflexivity|]. destruct (Nat.ltb_spec (i + 2) (i + 1)); [lia|discriminate].
  - split; [|auto]. cbn [orb]. destruct (Nat.ltb_spec i q), (Nat.ltb_spec (i + 2) q); try lia; try reflexivity; simpl.
    + replace (q - i)%nat with (S (S (q - (i + 2)))) by lia. reflexivity.
    + assert (q = (i + 2)%nat) by lia. subst. replace (i + 2 - i)%nat with 2%nat by lia. reflexivity.
Qed.
Lemma parsum_step B f i : (i + 1 < B)%nat -> parsum B f i = (f (i + 1)%nat + parsum B f (i + 2))%C.
Proof.
  intros H. unfold parsum.
  transitivity (Csum B (fun q => if (q =? i + 1)%nat then f q else C0) + Csum B (fun q => if ind (i + 2) q then f q else C0))%C.
  - rewrite <- Csum_add. apply Csum_ext. intros q _. destruct (ind_step i q) as (E & D). rewrite E. clear E.
    destruct (Nat.eqb_spec q (i + 1)) as [Hq|Hq]; simpl.
    + subst q. destruct (ind (i + 2) (i + 1)); [exfalso; apply (D eq_refl); reflexivity | ring].
    + destruct (ind (i + 2) q); ring.
  - rewrite Csum_delta. destruct (Nat.ltb_spec (i + 1) B); [reflexivity|lia].
Qed.

(** ** Mult_CTD *)
Section CTD.
Context (N : nat) (v w : mem) (o st : nat).
Hypothesis HN : (4 <= N)%nat.
Hypothesis Hst : (1 <= st)%nat.
Notation A i := (o + i * st)%nat.
Lemma A_inj i j : A i = A j -> i = j.
Proof. intros H. nia. Qed.
Definition onl (f : mem) : nat -> C := fun i => f (A i).

Definition val (f : nat -> C) (i : nat) : C :=
  (RtoC (- 2 * (INR i + 1)) * f (i - 1)%nat - parsum (N - 2) f i * RtoC 4)%C.

Definition evs (i : nat) (e d : C) (f : nat -> C) : Prop :=
  (if Nat.even i then e else d) = parsum (N - 2) f (i + 2) /\
  (if Nat.even i then d else e) = parsum (N - 2) f (i + 1).

Definition off_line (a : nat) : Prop := forall i, (i < N)%nat -> a <> A i.

Lemma loop_spec i c : (i <= N - 4)%nat ->
  evs i (su0 c) (su1 c) (onl v) -> evs i (su2 c) (su3 c) (onl w) ->
  let c' := ctd_loop v w o st i c in
  evs 0 (su0 c') (su1 c') (onl v) /\ evs 0 (su2 c') (su3 c') (onl w) /\
  (forall l, (1 <= l <= i)%nat -> cbv c' (A l) = val (onl v) l /\ cbw c' (A l) = val (onl w) l) /\
  (forall a, (forall l, (1 <= l <= i)%nat -> a <> A l) -> cbv c' a = cbv c a /\ cbw c' a = cbw c a).
Proof.
  revert c. induction i as [|i IH]; intros c Hi Hv Hw c'.
  - unfold c'. simpl. repeat split; try (intros; lia); try apply Hv; try apply Hw.
  - unfold c'. cbn [ctd_loop]. set (b := ctd_body v w o st (S i) c).
    assert (Eo : Nat.even (S i) = negb (Nat.even i)) by (rewrite Nat.even_succ, <- Nat.negb_even; reflexivity).
    destruct Hv as (V1 & V2), Hw as (W1 & W2).
    assert (P : forall f : nat -> C, parsum (N - 2) f (S i) = (parsum (N - 2) f (S i + 2) + f (S i + 1)%nat)%C)
      by (intros f; rewrite (parsum_step (N - 2) f (S i)) by lia; ring).
    assert (B1 : evs i (su0 b) (su1 b) (onl v) /\ evs i (su2 b) (su3 b) (onl w)).
    { unfold b, ctd_body, evs. rewrite Eo in *.
      replace (S i + 1)%nat with (i + 2)%nat in * by lia.
      replace (i + 1)%nat with (S i) by lia. rewrite !P.
      replace (S i + 1)%nat with (i + 2)%nat in * by lia.
      destruct (Nat.even i); simpl in *; rewrite ?V1, ?V2, ?W1, ?W2; unfold onl; auto. }
    assert (B2 : cbv b (A (S i)) = val (onl v) (S i) /\ cbw b (A (S i)) = val (onl w) (S i)).
    { unfold b, ctd_body, val. cbv zeta. rewrite !P. destruct (Nat.even (S i)); cbn [cbv cbw];
      rewrite !set_same, ?V1, ?W1; unfold onl; split; ring. }
    assert (B3 : forall a, a <> A (S i) -> cbv b a = cbv c a /\ cbw b a = cbw c a).
    { intros a Ha. unfold b, ctd_body. cbv zeta.
      destruct (Nat.even (S i)); cbn [cbv cbw]; rewrite !set_other by exact Ha; auto. }
    destruct (IH b ltac:(lia) (proj1 B1) (proj2 B1)) as (C1 & C2 & C3 & C4).
    split; [exact C1 | split; [exact C2 | split]].
    + intros l Hl. destruct (Nat.eq_dec l (S i)) as [->|Hne]; [|apply C3; lia].
      destruct (C4 (A (S i))) as (X1 & X2).
      { intros l Hl' E. apply A_inj in E. lia. }
      rewrite X1, X2. exact B2.
    + intros a Ha. destruct (C4 a) as (X1 & X2); [intros l Hl; apply Ha; lia|].
      rewrite X1, X2. apply B3, Ha. lia.
Qed.

Lemma val_hi f i : (N - 3 <= i)%nat -> val f i = (RtoC (- 2 * (INR i + 1)) * f (i - 1)%nat)%C.
Proof. intros H. unfold val. rewrite parsum_hi by lia. ring. Qed.

Lemma dcoef_val f i : (1 <= i <= N - 2)%nat -> dcoef N f i = val f i.
Proof.
  intros H. unfold dcoef, val. fold (parsum (N - 2) f i).
  destruct (Nat.leb_spec 1 i); [|lia]. destruct (Nat.leb_spec i (N - 2)); [|lia].
  destruct i; [lia|]. simpl ec. replace (2 * 2) with 4 by ring. simpl andb. cbv iota. ring.
Qed.
Lemma dcoef_0 f : dcoef N f 0 = (- parsum (N - 2) f 0 * RtoC 2)%C.
Proof. unfold dcoef. fold (parsum (N - 2) f 0). simpl. rewrite Rmult_1_r. ring. Qed.
Lemma dcoef_last f : dcoef N f (N - 1) = C0.
Proof.
  unfold dcoef. fold (parsum (N - 2) f (N - 1)). rewrite parsum_hi by lia.
  destruct (Nat.leb_spec (N - 1) (N - 2)); [lia|]. rewrite andb_false_r. ring.
Qed.

Theorem ctd_1d_spec bv bw :
  let '(bv', bw') := Mult_CTD_1D N v w o st bv bw in
  (forall i, (i < N)%nat -> bv' (A i) = dcoef N (onl v) i /\ bw' (A i) = dcoef N (onl w) i) /\
  (forall a, off_line a -> bv' a = bv a /\ bw' a = bw a).
Proof.
  unfold Mult_CTD_1D. cbv zeta. set (c := mkCtd _ _ _ _ _ _).
  assert (I : forall f, evs (N - 4) C0 C0 f).
  { intros f. unfold evs. rewrite !parsum_hi by lia. destruct (Nat.even (N - 4)); auto. }
  destruct (loop_spec (N - 4) c (Nat.le_refl _) (I _) (I _)) as (L1 & L2 & L3 & L4).
  set (c' := ctd_loop v w o st (N - 4) c) in *.
  destruct L1 as (S0 & _), L2 as (S2 & _). simpl Nat.even in S0, S2. cbv iota in S0, S2.
  assert (P0 : forall f : nat -> C, parsum (N - 2) f 0 = (parsum (N - 2) f 2 + f 1%nat)%C)
    by (intros f; rewrite (parsum_step (N - 2) f 0) by lia; simpl; ring).
  assert (E1 : INR (N - 2) = INR N - 2) by (rewrite minus_INR by lia; simpl; ring).
  assert (E2 : INR (N - 3) = INR N - 3) by (rewrite minus_INR by lia; simpl; ring).
  assert (Ne : forall i j, i <> j -> A i <> A j) by (intros i j H E; apply A_inj in E; auto).
  unfold at_. split.
  - intros i Hi. destruct (Nat.eq_dec i 0) as [->|H0].
    + rewrite !set_same, !dcoef_0, !P0, S0, S2. auto.
    + rewrite !set_other by (apply Ne, H0).
      destruct (le_lt_dec i (N - 4)) as [Hl|Hl].
      * rewrite !dcoef_val by lia. apply L3. lia.
      * destruct (L4 (A i)) as (X1 & X2); [intros l Hl'; apply Ne; lia|]. rewrite X1, X2.
        unfold c. cbn [cbv cbw].
        destruct (Nat.eq_dec i (N - 3)) as [->|]; [|destruct (Nat.eq_dec i (N - 2)) as [->|]].
        -- rewrite !set_same. rewrite !dcoef_val by lia. rewrite !val_hi by lia. rewrite E2.
           replace (N - 3 - 1)%nat with (N - 4)%nat by lia. unfold onl.
           replace (INR N - 3 + 1) with (INR N - 2) by ring. auto.
        -- rewrite !(set_other _ (A (N - 3))) by (apply Ne; lia). rewrite !set_same.
           rewrite !dcoef_val by lia. rewrite !val_hi by lia. rewrite E1.
           replace (N - 2 - 1)%nat with (N - 3)%nat by lia. unfold onl.
           replace (INR N - 2 + 1) with (INR N - 1) by ring. auto.
        -- assert (i = (N - 1)%nat) by lia. subst i.
           rewrite !(set_other _ (A (N - 3))), !(set_other _ (A (N - 2))) by (apply Ne; lia).
           rewrite !set_same, !dcoef_last. auto.
  - intros a Ha. rewrite !set_other by (apply Ha; lia).
    destruct (L4 a) as (X1 & X2); [intros l Hl; apply Ha; lia|]. rewrite X1, X2.
    unfold c. cbn [cbv cbw]. rewrite !set_other by (apply Ha; lia). auto.
Qed.
End CTD.

(** ** Mult_Div_1D *)
Section Div.
Context (N : nat) (m n : R) (u v w : nat -> C).
Hypothesis HN : (7 <= N)%nat.
Notation M := (N - 3)%nat.

(** coefficient b_k of row i = k - 1 in terms of Chebyshev coefficients *)
Definition row (f g h : nat -> C) (k : nat) : C :=
  let a i := (dcoef N f i + Ci * RtoC m * tcoef N g i + Ci * RtoC n * tcoef N h i)%C in
  (RtoC (PI / 2) * (a k - RtoC ((INR k / INR (k + 2)) ^ 2) * a (k + 2)%nat))%C.

Lemma frac_eq i : frac (i + 1) = INR (i + 1) / INR (i + 1 + 2).
Proof. unfold frac. rewrite !plus_INR. simpl. rewrite Rmult_1_r. reflexivity. Qed.

(** generic form of a row: the terms that are out of range are absent *)
Definition grow (i : nat) : C :=
  let s := (INR (i + 1) / INR (i + 1 + 2)) ^ 2 in
  let vv (f : nat -> C) := ((if (1 <=? i)%nat then RtoC (- PI / 2) * f (i - 1)%nat else C0)
      + RtoC (PI / 2 * (1 + s)) * f (i + 1)%nat
      + (if (i + 3 <=? M)%nat then RtoC (- PI / 2 * s) * f (i + 3)%nat else C0))%C in
  (Ci * (RtoC m * vv v + RtoC n * vv w)
   + RtoC (- (INR (i + 1) + 1) * PI) * u i
   + (if (i + 2 <=? M)%nat then RtoC (- PI * (2 - s * (INR (i + 1) + 3))) * u (i + 2)%nat else C0)
   + RtoC (- 2 * PI * (1 - s)) * parsum (N - 2) u (i + 3))%C.

Lemma grow_row i : (i < M)%nat -> grow i = row u v w (i + 1).
Proof.
  intros Hi. unfold grow, row. set (s := (INR (i + 1) / INR (i + 1 + 2)) ^ 2). clearbody s.
  rewrite (dcoef_val N 1 ltac:(lia) ltac:(lia) u (i + 1)) by lia.
  assert (T1 : forall f, tcoef N f (i + 1) = (f (i + 1)%nat - if (1 <=? i)%nat then f (i - 1)%nat else C0)%C).
  { intros f. unfold tcoef. destruct (Nat.ltb_spec (i + 1) (N - 2)); [|lia].
    destruct (Nat.leb_spec 2 (i + 1)), (Nat.leb_spec 1 i); try lia; [|reflexivity].
    replace (i + 1 - 2)%nat with (i - 1)%nat by lia. reflexivity. }
  assert (T2 : forall f, tcoef N f (i + 1 + 2) = ((if (i + 3 <=? M)%nat then f (i + 3)%nat else C0) - f (i + 1)%nat)%C).
  { intros f. unfold tcoef. destruct (Nat.leb_spec 2 (i + 1 + 2)); [|lia].
    replace (i + 1 + 2 - 2)%nat with (i + 1)%nat by lia. replace (i + 1 + 2)%nat with (i + 3)%nat by lia.
    destruct (Nat.ltb_spec (i + 3) (N - 2)), (Nat.leb_spec (i + 3) M); try lia; reflexivity. }
  rewrite !T1, !T2. unfold val.
  assert (D2 : dcoef N u (i + 1 + 2) =
     ((if (i + 2 <=? M)%nat then RtoC (- 2 * (INR (i + 1) + 3)) * u (i + 2)%nat else C0)
      - RtoC 4 * parsum (N - 2) u (i + 3))%C).
  { unfold dcoef. replace (i + 1 + 2)%nat with (i + 3)%nat by lia. fold (parsum (N - 2) u (i + 3)).
    destruct (Nat.leb_spec 1 (i + 3)); [|lia].
    replace (INR (i + 3) + 1) with (INR (i + 1) + 3) by (rewrite !plus_INR; simpl; ring).
    replace (i + 3 - 1)%nat with (i + 2)%nat by lia.
    destruct (Nat.leb_spec (i + 3) (N - 2)), (Nat.leb_spec (i + 2) M); try lia;
    destruct i; cbn [ec Nat.add andb]; replace (2 * 2) with 4 by ring; reflexivity. }
  rewrite D2.
  replace (i + 1 - 1)%nat with i by lia.
  assert (PS : parsum (N - 2) u (i + 1) =
     ((if (i + 2 <=? M)%nat then u (i + 2)%nat else C0) + parsum (N - 2) u (i + 3))%C).
  { destruct (Nat.leb_spec (i + 2) M).
    - rewrite (parsum_step (N - 2) u (i + 1)) by lia.
      replace (i + 1 + 1)%nat with (i + 2)%nat by lia. replace (i + 1 + 2)%nat with (i + 3)%nat by lia. reflexivity.
    - rewrite !parsum_hi by lia. ring. }
  rewrite PS. generalize (parsum (N - 2) u (i + 3)). intros p.
  generalize (INR (i + 1)). intros x.
  destruct (1 <=? i)%nat, (i + 3 <=? M)%nat, (i + 2 <=? M)%nat;
  apply C_eq; unfold Cmul, Cadd, Csub, Copp, Ci, RtoC, C0; simpl; field.
Qed.

Definition ev4 (i : nat) (e d : C) : Prop :=
  (if Nat.even i then e else d) = parsum (N - 2) u (i + 5) /\
  (if Nat.even i then d else e) = parsum (N - 2) u (i + 4).

Ltac tests := unfold bii, bp2, bm2, cm1, cp1, cp3, Md;
  repeat match goal with
  | |- context [(?a <? ?b)%nat] => destruct (Nat.ltb_spec a b); try lia
  | |- context [(?a <=? ?b)%nat] => destruct (Nat.leb_spec a b); try lia
  end; cbn [andb].

Lemma div_loop_spec i c : (i <= M - 4)%nat -> ev4 i (d0 c) (d1 c) ->
  let c' := div_loop N m n u v w i c in
  ev4 0 (d0 c') (d1 c') /\
  (forall l, (1 <= l <= i)%nat -> db c' l = grow l) /\
  (forall a, (a = 0 \/ i < a)%nat -> db c' a = db c a).
Proof.
  revert c. induction i as [|i IH]; intros c Hi Hv c'.
  - unfold c'. simpl. repeat split; try (intros; lia); try apply Hv.
  - unfold c'. cbn [div_loop]. set (b := div_body N m n u v w (S i) c).
    assert (Eo : Nat.even (S i) = negb (Nat.even i)) by (rewrite Nat.even_succ, <- Nat.negb_even; reflexivity).
    destruct Hv as (V1 & V2).
    assert (P : parsum (N - 2) u (S i + 3) = (parsum (N - 2) u (S i + 5) + u (S i + 4)%nat)%C).
    { rewrite (parsum_step (N - 2) u (S i + 3)) by lia.
      replace (S i + 3 + 1)%nat with (S i + 4)%nat by lia. replace (S i + 3 + 2)%nat with (S i + 5)%nat by lia. ring. }
    assert (B1 : ev4 i (d0 b) (d1 b)).
    { unfold b, div_body, ev4. rewrite Eo in *.
      replace (S i + 4)%nat with (i + 5)%nat in * by lia.
      replace (i + 4)%nat with (S i + 3)%nat by lia. rewrite !P.
      destruct (Nat.even i); simpl in *; rewrite ?V1, ?V2; auto. }
    assert (B2 : db b (S i) = grow (S i)).
    { unfold b, div_body, grow. cbv zeta. rewrite P.
      destruct (Nat.even (S i)); cbn [db]; rewrite !set_same, ?V1;
      tests; rewrite !frac_eq; generalize ((INR (S i + 1) / INR (S i + 1 + 2)) ^ 2); intros s;
      generalize (parsum (N - 2) u (S i + 5)); intros p; generalize (INR (S i + 1)); intros x;
      unfold mv; apply C_eq; unfold Cmul, Cadd, Ci, RtoC, C0; cbn [fst snd]; ring. }
    assert (B3 : forall a, a <> S i -> db b a = db c a).
    { intros a Ha. unfold b, div_body. cbv zeta. destruct (Nat.even (S i)); cbn [db]; rewrite !set_other by exact Ha; auto. }
    destruct (IH b ltac:(lia) B1) as (C1 & C3 & C4).
    split; [exact C1 | split].
    + intros l Hl. destruct (Nat.eq_dec l (S i)) as [->|Hne]; [|apply C3; lia].
      rewrite C4 by lia. exact B2.
    + intros a Ha. rewrite C4 by lia. apply B3. lia.
Qed.

Theorem div_1d_spec b :
  (forall i, (i < M)%nat -> Mult_Div_1D N m n u v w b i = row u v w (i + 1)) /\
  (forall i, (M <= i)%nat -> Mult_Div_1D N m n u v w b i = b i).
Proof.
  unfold Mult_Div_1D. cbv zeta. change (Md N) with M. set (c := mkDiv _ _ _).
  destruct (div_loop_spec (M - 4) c (Nat.le_refl _)) as (L1 & L3 & L4).
  { unfold ev4, c. simpl d0. simpl d1. rewrite !parsum_hi by lia. destruct (Nat.even (M - 4)); auto. }
  set (c' := div_loop N m n u v w (M - 4) c) in *. destruct L1 as (S0 & _). simpl Nat.even in S0. cbv iota in S0.
  split.
  - intros i Hi. rewrite <- grow_row by exact Hi.
    destruct (Nat.eq_dec i 0) as [->|H0].
    + rewrite !set_same. unfold grow. rewrite S0.
      rewrite (parsum_step (N - 2) u (0 + 3)) by lia. cbn [Nat.add].
      tests. rewrite !frac_eq. simpl (0 + 1)%nat. simpl (1 + 2)%nat. generalize ((INR 1 / INR 3) ^ 2). intros s.
      unfold mv. apply C_eq; unfold Cmul, Cadd, Ci, RtoC, C0; cbn [fst snd]; ring.
    + rewrite !set_other by exact H0.
      destruct (le_lt_dec i (M - 4)) as [Hl|Hl]; [apply L3; lia|].
      rewrite L4 by lia. unfold c. cbn [db].
      destruct (Nat.eq_dec i (M - 3)) as [->|]; [|destruct (Nat.eq_dec i (M - 2)) as [->|]].
      * rewrite !set_same. unfold grow. rewrite parsum_hi by lia.
        replace (M - 3 - 1)%nat with (M - 4)%nat by lia. replace (M - 3 + 1)%nat with (M - 2)%nat at 3 by lia.
        tests. rewrite !frac_eq.
        replace (M - 3 + 3)%nat with M by lia. replace (M - 3 + 2)%nat with (M - 1)%nat by lia.
        replace (M - 3 + 1)%nat with (M - 2)%nat by lia.
        generalize ((INR (M - 2) / INR (M - 2 + 2)) ^ 2). intros s.
        unfold mv. apply C_eq; unfold Cmul, Cadd, Ci, RtoC, C0; cbn [fst snd]; ring.
      * rewrite (set_other _ (M - 3)) by lia. rewrite !set_same. unfold grow. rewrite parsum_hi by lia.
        replace (M - 2 - 1)%nat with (M - 3)%nat by lia.
        tests. rewrite !frac_eq.
        replace (M - 2 + 2)%nat with M by lia. replace (M - 2 + 1)%nat with (M - 1)%nat by lia.
        generalize ((INR (M - 1) / INR (M - 1 + 2)) ^ 2). intros s.
        unfold mv. apply C_eq; unfold Cmul, Cadd, Ci, RtoC, C0; cbn [fst snd]; ring.
      * assert (i = (M - 1)%nat) by lia. subst i.
        rewrite (set_other _ (M - 3)), (set_other _ (M - 2)) by lia. rewrite !set_same. unfold grow. rewrite parsum_hi by lia.
        replace (M - 1 - 1)%nat with (M - 2)%nat by lia.
        tests. rewrite !frac_eq.
        replace (M - 1 + 1)%nat with M by lia.
        generalize ((INR M / INR (M + 2)) ^ 2). intros s.
        unfold mv. apply C_eq; unfold Cmul, Cadd, Ci, RtoC, C0; cbn [fst snd]; ring.
  - intros i Hi. rewrite !set_other by lia. rewrite L4 by lia. unfold c. cbn [db].
    rewrite !set_other by lia. reflexivity.
Qed.
End Div.
