(** Theorems on the compiled Chebyshev line operators: C39, C40, C41. *)
From Coq Require Import Reals List Arith Bool Lia Lra FinFun FunctionalExtensionality.
From Verif Require Import Base.Cplx Base.Sums Model.LU Spec.Chebyshev Proofs.ChebyshevProofs Proofs.LUProofs.
Open Scope R_scope.

(** the elements of a strided line *)
Definition line (o st : nat) (a : mem) : nat -> C := fun i => a (o + i * st)%nat.

Lemma cheb_ext N f g x : (forall k, (k < N)%nat -> f k = g k) -> cheb N f x = cheb N g x.
Proof. intros H. unfold cheb. apply Csum_ext. intros k Hk. rewrite H by exact Hk. reflexivity. Qed.

(** ** C39 *)
(** The line written by Mult_CTD holds the Chebyshev coefficients of the derivative of the
    function whose Dirichlet coefficients are on the input line; nothing else is written. *)
Theorem ctd_is_derivative (N o st : nat) (v w bv bw : mem) :
  (4 <= N)%nat -> (1 <= st)%nat ->
  let '(bv', bw') := Mult_CTD_1D N v w o st bv bw in
  (forall x, Cderiv (dirichlet N (line o st v)) x (cheb N (line o st bv') x)) /\
  (forall x, Cderiv (dirichlet N (line o st w)) x (cheb N (line o st bw') x)) /\
  (forall a, (forall i, (i < N)%nat -> a <> (o + i * st)%nat) -> bv' a = bv a /\ bw' a = bw a).
Proof.
  intros HN Hst. pose proof (ctd_1d_spec N v w o st HN Hst bv bw) as S.
  destruct (Mult_CTD_1D N v w o st bv bw) as [bv' bw']. destruct S as (S1 & S2).
  split; [|split].
  - intros x. rewrite (cheb_ext N (line o st bv') (dcoef N (line o st v))).
    + apply dirichlet_deriv. lia.
    + intros k Hk. unfold line at 1. rewrite (proj1 (S1 k Hk)). reflexivity.
  - intros x. rewrite (cheb_ext N (line o st bw') (dcoef N (line o st w))).
    + apply dirichlet_deriv. lia.
    + intros k Hk. unfold line at 1. rewrite (proj2 (S1 k Hk)). reflexivity.
  - intros a Ha. apply S2. exact Ha.
Qed.

Lemma dcoef_ext N f g i : (4 <= N)%nat -> (i < N)%nat ->
  (forall l, (l < N - 2)%nat -> f l = g l) -> dcoef N f i = dcoef N g i.
Proof.
  intros HN Hi H. unfold dcoef.
  rewrite (Csum_ext (N - 2) (fun q => if ind i q then f q else C0) (fun q => if ind i q then g q else C0))
    by (intros q Hq; rewrite (H q Hq); reflexivity).
  destruct (Nat.leb_spec 1 i), (Nat.leb_spec i (N - 2)); simpl; try reflexivity; rewrite H by lia; reflexivity.
Qed.

(** The result depends on the N-2 coefficients of the basis only: nothing is read outside the
    line, the two entries that hold boundary conditions are not read either, and the previous
    contents of the output do not matter. *)
Theorem ctd_reads_only_its_line (N o st : nat) (v w bv bw v' w' cv cw : mem) :
  (4 <= N)%nat -> (1 <= st)%nat ->
  (forall i, (i < N - 2)%nat -> line o st v i = line o st v' i /\ line o st w i = line o st w' i) ->
  forall i, (i < N)%nat ->
    line o st (fst (Mult_CTD_1D N v w o st bv bw)) i = line o st (fst (Mult_CTD_1D N v' w' o st cv cw)) i /\
    line o st (snd (Mult_CTD_1D N v w o st bv bw)) i = line o st (snd (Mult_CTD_1D N v' w' o st cv cw)) i.
Proof.
  intros HN Hst H i Hi.
  pose proof (ctd_1d_spec N v w o st HN Hst bv bw) as S.
  pose proof (ctd_1d_spec N v' w' o st HN Hst cv cw) as S'.
  destruct (Mult_CTD_1D N v w o st bv bw) as [b1 b2], (Mult_CTD_1D N v' w' o st cv cw) as [b1' b2'].
  destruct S as (S & _), S' as (S' & _). simpl. unfold line.
  rewrite (proj1 (S i Hi)), (proj2 (S i Hi)), (proj1 (S' i Hi)), (proj2 (S' i Hi)).
  split; apply dcoef_ext; try assumption; intros l Hl; apply H, Hl.
Qed.

(** ** C40 *)
(** Row k-1 of Mult_Div is the weighted inner product of the divergence
    u' + i m v + i n w with the k-th Neumann function, k = 1 .. N-3. *)
Theorem div_is_weak_divergence (N : nat) (m n : R) (u v w b : nat -> C) (du : R -> C) :
  (7 <= N)%nat ->
  (forall x, Cderiv (dirichlet N u) x (du x)) ->
  (forall k, (1 <= k <= N - 3)%nat ->
     Cwint (fun x => ((du x + Ci * RtoC m * dirichlet N v x + Ci * RtoC n * dirichlet N w x)
                      * RtoC (neumann k x))%C)
           (Mult_Div_1D N m n u v w b (k - 1)%nat)) /\
  (forall i, (N - 3 <= i)%nat -> Mult_Div_1D N m n u v w b i = b i).
Proof.
  intros HN Hdu. destruct (div_1d_spec N m n u v w HN b) as (S1 & S2). split; [|exact S2].
  intros k Hk. rewrite S1 by lia. replace (k - 1 + 1)%nat with k by lia.
  set (a := fun i => (dcoef N u i + Ci * RtoC m * tcoef N v i + Ci * RtoC n * tcoef N w i)%C).
  assert (E : forall x, (du x + Ci * RtoC m * dirichlet N v x + Ci * RtoC n * dirichlet N w x)%C = cheb N a x).
  { intros x. assert (Ed : du x = cheb N (dcoef N u) x).
    { destruct (Hdu x) as (D1 & D2). destruct (dirichlet_deriv N u x ltac:(lia)) as (D3 & D4).
      apply C_eq; [apply (uniqueness_limite _ _ _ _ D1 D3) | apply (uniqueness_limite _ _ _ _ D2 D4)]. }
    rewrite Ed, !dirichlet_cheb by lia. unfold cheb.
    rewrite <- !Csum_scal, <- !Csum_add. apply Csum_ext. intros i _. unfold a. ring. }
  destruct (cheb_neumann N a k ltac:(lia) ltac:(lia)) as (P1 & P2).
  split; [refine (wint_ext _ _ _ _ P1) | refine (wint_ext _ _ _ _ P2)]; intros x; rewrite E; reflexivity.
Qed.

(** the weighted integral is determined by the function *)
Theorem weighted_integral_unique (f : R -> C) (a b : C) : Cwint f a -> Cwint f b -> a = b.
Proof. intros (A1 & A2) (B1 & B2). apply C_eq; eapply wint_unique; eassumption. Qed.

(** ** C41 *)
Section Lines.
Context (N st : nat) (v w : mem) (HN : (4 <= N)%nat) (Hst : (1 <= st)%nat).
Lemma fold_lines (L : list nat) :
  (forall o o' i i', In o L -> In o' L -> (i < N)%nat -> (i' < N)%nat ->
     (o + i * st = o' + i' * st)%nat -> o = o') ->
  forall bv bw,
  let '(bv', bw') := fold_left (fun '(bv, bw) o => Mult_CTD_1D N v w o st bv bw) L (bv, bw) in
  (forall o i, In o L -> (i < N)%nat ->
     bv' (o + i * st)%nat = dcoef N (line o st v) i /\ bw' (o + i * st)%nat = dcoef N (line o st w) i) /\
  (forall a, (forall o i, In o L -> (i < N)%nat -> a <> (o + i * st)%nat) -> bv' a = bv a /\ bw' a = bw a).
Proof.
  induction L as [|x L IH]; intros HL bv bw.
  - simpl. split; [intros o i []|auto].
  - simpl. pose proof (ctd_1d_spec N v w x st HN Hst bv bw) as S.
    destruct (Mult_CTD_1D N v w x st bv bw) as [b1 b2]. destruct S as (S1 & S2).
    specialize (IH ltac:(intros o o1 i i1 Ho Ho1; apply HL; right; assumption) b1 b2).
    destruct (fold_left _ L (b1, b2)) as [bv' bw']. destruct IH as (I1 & I2). split.
    + intros o i [<-|Ho] Hi; [|apply I1; assumption].
      destruct (in_dec Nat.eq_dec x L) as [Hx|Hx]; [apply I1; assumption|].
      destruct (I2 (x + i * st)%nat) as (X1 & X2).
      { intros o' i' Ho' Hi' E. apply Hx. rewrite (HL x o' i i'); auto; [left; reflexivity | right; assumption]. }
      rewrite X1, X2. apply S1, Hi.
    + intros a Ha. destruct (I2 a) as (X1 & X2); [intros; apply Ha; [right; assumption | assumption]|].
      rewrite X1, X2. apply S2. intros i Hi. apply Ha; [left; reflexivity | exact Hi].
Qed.
End Lines.

Lemma digits n a b a' b' : (b < n)%nat -> (b' < n)%nat -> (a * n + b = a' * n + b')%nat -> a = a' /\ b = b'.
Proof. intros H H' E. assert (a = a') by nia. subst. split; [reflexivity|lia]. Qed.

Section ThreeD.
Context (N n0 n1 n2 : nat).
Notation addr' := (addr n1 n2).
Definition shape (axis : nat) : nat := match axis with O => n0 | S O => n1 | _ => n2 end.
(** index along the axis, and the element of the same line at another index *)
Definition along (axis i j k : nat) : nat := match axis with O => i | S O => j | _ => k end.
Definition moved (axis i j k l : nat) : nat :=
  match axis with O => addr' l j k | S O => addr' i l k | _ => addr' i j l end.

Lemma in_lines axis o : (axis < 3)%nat ->
  In o (lines n0 n1 n2 axis) <->
  exists i j k, (i < n0 \/ axis = 0)%nat /\ (j < n1 \/ axis = 1)%nat /\ (k < n2 \/ axis = 2)%nat /\
     o = moved axis i j k 0.
Proof.
  intros Ha. destruct axis as [|[|[|]]]; [..|lia]; simpl; rewrite in_flat_map; split.
  - intros (j & Hj & H). apply in_map_iff in H. destruct H as (k & <- & Hk). apply in_seq in Hj, Hk.
    exists 0%nat, j, k. repeat split; try (left; lia); try (right; reflexivity).
  - intros (i & j & k & _ & [Hj|?] & [Hk|?] & ->); try lia. exists j. split; [apply in_seq; lia|].
    apply in_map_iff. exists k. split; [reflexivity | apply in_seq; lia].
  - intros (i & Hi & H). apply in_map_iff in H. destruct H as (k & <- & Hk). apply in_seq in Hi, Hk.
    exists i, 0%nat, k. repeat split; try (left; lia); try (right; reflexivity).
  - intros (i & j & k & [Hi|?] & _ & [Hk|?] & ->); try lia. exists i. split; [apply in_seq; lia|].
    apply in_map_iff. exists k. split; [reflexivity | apply in_seq; lia].
  - intros (i & Hi & H). apply in_map_iff in H. destruct H as (j & <- & Hj). apply in_seq in Hi, Hj.
    exists i, j, 0%nat. repeat split; try (left; lia); try (right; reflexivity).
  - intros (i & j & k & [Hi|?] & [Hj|?] & _ & ->); try lia. exists i. split; [apply in_seq; lia|].
    apply in_map_iff. exists j. split; [reflexivity | apply in_seq; lia].
Qed.

Lemma moved_eq axis i j k l : (axis < 3)%nat ->
  (moved axis i j k 0 + l * strides n1 n2 axis = moved axis i j k l)%nat.
Proof. intros H. destruct axis as [|[|[|]]]; [..|lia]; simpl; unfold addr; ring. Qed.

Lemma addr_inj i j k i' j' k' : (j < n1)%nat -> (k < n2)%nat -> (j' < n1)%nat -> (k' < n2)%nat ->
  addr' i j k = addr' i' j' k' -> i = i' /\ j = j' /\ k = k'.
Proof.
  intros Hj Hk Hj' Hk' E. unfold addr in E.
  apply digits in E; [|assumption..]. destruct E as (E & ->). apply digits in E; [|assumption..]. tauto.
Qed.

(** Mult_CTD_3D_ptr: on every line along the axis the output is that of the 1D kernel run on
    that line alone; every address that is not one of the first N elements of a line keeps its
    contents. *)
Theorem ctd_3d_lines (axis : nat) (v w bv bw : mem) :
  (axis < 3)%nat -> (4 <= N <= shape axis)%nat -> (0 < n0)%nat -> (0 < n1)%nat -> (0 < n2)%nat ->
  let '(bv', bw') := Mult_CTD_3D N n0 n1 n2 v w axis bv bw in
  (forall i j k, (i < n0)%nat -> (j < n1)%nat -> (k < n2)%nat -> (along axis i j k < N)%nat ->
     let one := Mult_CTD_1D N (fun l => v (moved axis i j k l)) (fun l => w (moved axis i j k l)) 0 1
                  (fun _ => C0) (fun _ => C0) in
     bv' (addr' i j k) = fst one (along axis i j k) /\ bw' (addr' i j k) = snd one (along axis i j k)) /\
  (forall a, (forall i j k, (i < n0)%nat -> (j < n1)%nat -> (k < n2)%nat -> (along axis i j k < N)%nat ->
                a <> addr' i j k) -> bv' a = bv a /\ bw' a = bw a).
Proof.
  intros Hax HN H0 H1 H2. unfold Mult_CTD_3D.
  assert (Hst : (1 <= strides n1 n2 axis)%nat) by (destruct axis as [|[|[|]]]; simpl; nia).
  pose proof (fold_lines N (strides n1 n2 axis) v w ltac:(lia) Hst (lines n0 n1 n2 axis)) as F.
  match type of F with ?P -> _ => assert (HD : P) end.
  { intros o o' l l' Ho Ho' Hl Hl' E. apply in_lines in Ho, Ho'; [|exact Hax..].
    destruct Ho as (i & j & k & Hi & Hj & Hk & ->), Ho' as (i' & j' & k' & Hi' & Hj' & Hk' & ->).
    rewrite !moved_eq in E by exact Hax.
    destruct axis as [|[|[|]]]; [..|lia]; simpl in *;
    destruct Hi as [Hi|?], Hj as [Hj|?], Hk as [Hk|?], Hi' as [Hi'|?], Hj' as [Hj'|?], Hk' as [Hk'|?]; try lia;
    apply addr_inj in E; try lia; destruct E as (? & ? & ?); subst; reflexivity. }
  specialize (F HD bv bw). destruct (fold_left _ _ (bv, bw)) as [bv' bw']. destruct F as (F1 & F2). split.
  - intros i j k Hi Hj Hk Hal.
    assert (Ho : In (moved axis i j k 0) (lines n0 n1 n2 axis)).
    { apply in_lines; [exact Hax|]. exists i, j, k. auto. }
    destruct (F1 _ _ Ho Hal) as (X1 & X2). rewrite moved_eq in X1, X2 by exact Hax.
    assert (Ea : moved axis i j k (along axis i j k) = addr' i j k)
      by (destruct axis as [|[|[|]]]; [..|lia]; reflexivity).
    rewrite Ea in X1, X2. rewrite X1, X2.
    pose proof (ctd_1d_spec N (fun l => v (moved axis i j k l)) (fun l => w (moved axis i j k l)) 0 1
       ltac:(lia) ltac:(lia) (fun _ => C0) (fun _ => C0)) as S.
    destruct (Mult_CTD_1D N _ _ 0 1 _ _) as [b1 b2]. destruct S as (S & _).
    destruct (S _ Hal) as (Y1 & Y2).
    replace (0 + along axis i j k * 1)%nat with (along axis i j k) in Y1, Y2 by lia.
    simpl. rewrite Y1, Y2.
    split; apply dcoef_ext; try lia; intros l Hl; unfold line, onl; rewrite moved_eq by exact Hax;
    replace (0 + l * 1)%nat with l by lia; reflexivity.
  - intros a Ha. apply F2. intros o l Ho Hl E. apply in_lines in Ho; [|exact Hax].
    destruct Ho as (i & j & k & Hi & Hj & Hk & ->). rewrite moved_eq in E by exact Hax.
    destruct axis as [|[|[|]]]; [..|lia]; simpl in *.
    + apply (Ha l j k); simpl; (assumption || lia || tauto).
    + apply (Ha i l k); simpl; (assumption || lia || tauto).
    + apply (Ha i j l); simpl; (assumption || lia || tauto).
Qed.

(** C39 and C41 together: the 3D operator differentiates every line. *)
Theorem ctd_3d_is_derivative (axis : nat) (v w bv bw : mem) (i j k : nat) :
  (axis < 3)%nat -> (4 <= N)%nat -> N = shape axis ->
  (i < n0)%nat -> (j < n1)%nat -> (k < n2)%nat ->
  let '(bv', bw') := Mult_CTD_3D N n0 n1 n2 v w axis bv bw in
  forall x,
  Cderiv (dirichlet N (fun l => v (moved axis i j k l))) x (cheb N (fun l => bv' (moved axis i j k l)) x) /\
  Cderiv (dirichlet N (fun l => w (moved axis i j k l))) x (cheb N (fun l => bw' (moved axis i j k l)) x).
Proof.
  intros Hax HN HNs Hi Hj Hk.
  pose proof (ctd_3d_lines axis v w bv bw Hax ltac:(lia) ltac:(lia) ltac:(lia) ltac:(lia)) as L.
  destruct (Mult_CTD_3D N n0 n1 n2 v w axis bv bw) as [bv' bw']. destruct L as (L & _).
  intros x.
  pose proof (ctd_is_derivative N 0 1 (fun l => v (moved axis i j k l)) (fun l => w (moved axis i j k l))
     (fun _ => C0) (fun _ => C0) HN (le_n 1)) as D.
  assert (E : forall l, (l < N)%nat ->
     let one := Mult_CTD_1D N (fun l => v (moved axis i j k l)) (fun l => w (moved axis i j k l)) 0 1
                  (fun _ => C0) (fun _ => C0) in
     bv' (moved axis i j k l) = fst one l /\ bw' (moved axis i j k l) = snd one l).
  { intros l Hl. destruct axis as [|[|[|]]]; [..|lia]; simpl in HNs; cbn [moved].
    - apply (L l j k); try lia. exact Hl.
    - apply (L i l k); try lia. exact Hl.
    - apply (L i j l); try lia. exact Hl. }
  destruct (Mult_CTD_1D N _ _ 0 1 _ _) as [b1 b2]. simpl in E. destruct D as (D1 & D2 & _).
  assert (Li : forall a : mem, line 0 1 a = a).
  { intros a. extensionality l. unfold line. f_equal. lia. }
  rewrite !Li in D1, D2.
  split.
  - rewrite (cheb_ext N (fun l => bv' (moved axis i j k l)) b1);
    [apply D1|]. intros l Hl. rewrite (proj1 (E l Hl)). reflexivity.
  - rewrite (cheb_ext N (fun l => bw' (moved axis i j k l)) b2);
    [apply D2|]. intros l Hl. rewrite (proj2 (E l Hl)). reflexivity.
Qed.
End ThreeD.

(** Mult_Div_3D: every line (:, i, j) of the output is the 1D kernel on that line, with the
    wavenumbers of that line; entries with i, j outside the arrays of wavenumbers are kept. *)
Theorem div_3d_lines (N s0 s1 : nat) (m n : nat -> nat -> R) (u v w b : arr3) :
  let b' := Mult_Div_3D N s0 s1 m n u v w b in
  (forall i j k, (i < s0)%nat -> (j < s1)%nat ->
     b' k i j = Mult_Div_1D N (m i j) (n i j) (fun k => u k i j) (fun k => v k i j) (fun k => w k i j)
                  (fun k => b k i j) k) /\
  (forall i j k, ~ ((i < s0)%nat /\ (j < s1)%nat) -> b' k i j = b k i j).
Proof.
  intros b'.
  assert (G : forall (L : list (nat * nat)), NoDup L -> forall b,
    let b' := fold_left (fun b '(i, j) =>
      let line (a : arr3) := fun k => a k i j in
      let r := Mult_Div_1D N (m i j) (n i j) (line u) (line v) (line w) (line b) in
      fun k i' j' => if ((i' =? i)%nat && (j' =? j)%nat)%bool then r k else b k i' j') L b in
    (forall i j k, In (i, j) L ->
     b' k i j = Mult_Div_1D N (m i j) (n i j) (fun k => u k i j) (fun k => v k i j) (fun k => w k i j)
                  (fun k => b k i j) k) /\
    (forall i j k, ~ In (i, j) L -> b' k i j = b k i j)).
  { induction 1 as [|[i0 j0] L Hx HL IH]; intros c.
    - simpl. split; [intros ? ? ? [] | auto].
    - simpl. match goal with |- context [fold_left _ L ?x] => set (c1 := x) end. destruct (IH c1) as (I1 & I2).
      assert (Hc : forall i j, (i, j) <> (i0, j0) -> forall k, c1 k i j = c k i j).
      { intros i j Hne k. unfold c1. destruct (Nat.eqb_spec i i0), (Nat.eqb_spec j j0); simpl; try reflexivity.
        subst. contradiction. }
      split.
      + intros i j k [E|Hin].
        * injection E as <- <-. rewrite I2 by exact Hx. unfold c1. rewrite !Nat.eqb_refl. reflexivity.
        * rewrite I1 by exact Hin.
          assert (Hne : (i, j) <> (i0, j0)) by (intros E; rewrite E in Hin; contradiction).
          replace (fun k => c1 k i j) with (fun k => c k i j) by (extensionality l; symmetry; apply Hc, Hne).
          reflexivity.
      + intros i j k Hn. rewrite I2 by tauto. apply Hc. intros E. apply Hn. left. symmetry. exact E. }
  assert (Hin : forall i j, In (i, j) (list_prod (seq 0 s0) (seq 0 s1)) <-> (i < s0)%nat /\ (j < s1)%nat).
  { intros i j. rewrite in_prod_iff, !in_seq. lia. }
  assert (ND : NoDup (list_prod (seq 0 s0) (seq 0 s1))).
  { generalize (seq_NoDup s0 0). generalize (seq 0 s0). induction 1 as [|x l Hx Hl IHl]; simpl; [constructor|].
    assert (N1 : NoDup (map (fun y => (x, y)) (seq 0 s1))).
    { apply FinFun.Injective_map_NoDup; [intros a c E; congruence | apply seq_NoDup]. }
    revert N1. generalize (seq 0 s1) at 1 2. intros q. 
    intros N1. 
    assert (D : forall z, In z (map (fun y => (x, y)) q) -> ~ In z (list_prod l (seq 0 s1))).
    { intros z Hz Hz'. apply in_map_iff in Hz. destruct Hz as (y & <- & _). apply in_prod_iff in Hz'. tauto. }
    induction (map (fun y => (x, y)) q) as [|z r IHr]; simpl; [exact IHl|].
    inversion N1; subst. constructor; [|apply IHr; [assumption | intros z' Hz'; apply D; right; exact Hz']].
    rewrite in_app_iff. intros [A|A]; [contradiction | apply (D z); [left; reflexivity | exact A]]. }
  destruct (G _ ND b) as (G1 & G2). split.
  - intros i j k Hi Hj. apply G1. apply Hin. auto.
  - intros i j k H. apply G2. rewrite Hin. exact H.
Qed.

(** ** A concrete case: N = 8, u = T_1 - T_3, derivative 1 - (12 x^2 - 3) = 4 - 12 x^2
    = -2 T_0 - 6 T_2. *)
Example ctd_case :
  let v := fun i => if (i =? 1)%nat then C1 else C0 in
  let b := fst (Mult_CTD_1D 8 v v 0 1 (fun _ => C0) (fun _ => C0)) in
  b 0%nat = RtoC (- 2) /\ b 2%nat = RtoC (- 6) /\ b 1%nat = C0 /\ b 3%nat = C0.
Proof.
  assert (E8 : INR 8 = 8) by (simpl; ring).
  unfold Mult_CTD_1D, at_, ctd_loop, ctd_body, set. simpl.
  repeat split; apply C_eq; simpl; try ring.
Qed.

(** Mult_Div with N = 8, m = 2, n = 0, u = w = 0 and v = T_1 - T_3: row 0 is
    2 i (T_1 - T_3, T_1 - T_3 / 9) = i pi (1 + 1/9). *)
Example div_case :
  let v := fun i => if (i =? 1)%nat then C1 else C0 in
  let z := fun _ : nat => C0 in
  (forall x, Cderiv (dirichlet 8 z) x (cheb 8 (dcoef 8 z) x)) /\ Mult_Div_1D 8 2 0 z v z z 0%nat = (Ci * RtoC (PI * (1 + 1 / 9)))%C.
Proof.
  intros v z. split; [intros x; apply dirichlet_deriv; lia|].
  rewrite (proj1 (div_1d_spec 8 2 0 z v z ltac:(lia) z) 0%nat ltac:(lia)).
  unfold row, v, z. apply C_eq; simpl; field.
Qed.

Print Assumptions ctd_is_derivative.
Print Assumptions ctd_reads_only_its_line.
Print Assumptions div_is_weak_divergence.
Print Assumptions ctd_3d_lines.
Print Assumptions ctd_3d_is_derivative.
Print Assumptions div_3d_lines.
