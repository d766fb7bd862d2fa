(** C45, C46: the volume integral dx() of the channel solvers. *)
From Coq Require Import Reals Lra Lia Arith Bool.
From Verif Require Import Base.Sums Spec.Chebyshev Spec.Quadrature Model.Dx Proofs.ChebyshevProofs Proofs.QuadratureProofs.
Open Scope R_scope.

(** C46.  Whatever the number of ranks and their boxes, the root returns the weighted sum of the
    global array, and every other rank returns 0. *)
Theorem dx_rank_independent P n lo len U u axis bs L N :
  (axis < 3)%nat -> decomposition P n lo len -> scattered P lo len U u ->
  dx P lo len u axis bs (n axis) L N 0
    = weighted bs (n axis) (plane axis n U)
      * (L (oth1 axis) / INR (N (oth1 axis)) * (L (oth2 axis) / INR (N (oth2 axis))))
  /\ forall r, (0 < r)%nat -> dx P lo len u axis bs (n axis) L N r = 0.
Proof.
  intros Hax Hd Hs. split.
  - unfold dx. cbn [Nat.eqb]. f_equal.
    + apply weighted_ext. intros i Hi. apply c_root_plane; auto.
      destruct axis as [|[|[|?]]]; auto; lia.
    + unfold area. destruct axis as [|[|[|?]]]; try reflexivity; lia.
  - intros r Hr. unfold dx. destruct r; [lia|]. reflexivity.
Qed.
(** two runs with different process grids agree *)
Theorem dx_same_for_all_decompositions P P' n lo len lo' len' U u u' axis bs L N :
  (axis < 3)%nat -> decomposition P n lo len -> decomposition P' n lo' len' ->
  scattered P lo len U u -> scattered P' lo' len' U u' ->
  dx P lo len u axis bs (n axis) L N 0 = dx P' lo' len' u' axis bs (n axis) L N 0.
Proof.
  intros. destruct (dx_rank_independent P n lo len U u axis bs L N) as [-> _]; auto.
  destruct (dx_rank_independent P' n lo' len' U u' axis bs L N) as [-> _]; auto.
Qed.

(** a sum of products polynomial(x) * wave(y) * wave(z), polynomials of degree < deg *)
Definition modes (deg Q : nat) (a : nat -> nat -> R) (L1 L2 : R) (m l : nat -> nat) (phi psi : nat -> R)
    (x y z : R) : R :=
  Rsum Q (fun q => poly deg (a q) x * (wave L1 (m q) (phi q) y * wave L2 (l q) (psi q) z)).

Lemma modes_sum deg Q a L1 L2 m l phi psi n1 n2 x (y z : nat -> R) :
  Rsum n1 (fun j => Rsum n2 (fun k => modes deg Q a L1 L2 m l phi psi x (y j) (z k)))
  = Rsum Q (fun q => Rsum n1 (fun j => wave L1 (m q) (phi q) (y j))
      * Rsum n2 (fun k => wave L2 (l q) (psi q) (z k)) * poly deg (a q) x).
Proof.
  unfold modes.
  rewrite (Rsum_ext n1 _ (fun j => Rsum Q (fun q => wave L1 (m q) (phi q) (y j)
      * (Rsum n2 (fun k => wave L2 (l q) (psi q) (z k)) * poly deg (a q) x)))).
  - rewrite Rsum_swap. apply Rsum_ext. intros q _. rewrite Rsum_scal_r. ring.
  - intros j _. rewrite Rsum_swap. apply Rsum_ext. intros q _.
    rewrite <- Rsum_scal_r, <- Rsum_scal. apply Rsum_ext. intros; ring.
Qed.

Lemma dx_exact P n lo len u axis bs L deg Q a m l phi psi xw :
  (axis < 3)%nat -> decomposition P n lo len -> (forall d, 0 < L d) ->
  (forall q, (q < Q)%nat -> (m q < n (oth1 axis))%nat /\ (l q < n (oth2 axis))%nat) ->
  exactT bs (n axis) deg xw ->
  scattered P lo len (sampled axis (modes deg Q a (L (oth1 axis)) (L (oth2 axis)) m l phi psi) xw
      (x_per (L (oth1 axis)) (n (oth1 axis))) (x_per (L (oth2 axis)) (n (oth2 axis)))) u ->
  Int3 (modes deg Q a (L (oth1 axis)) (L (oth2 axis)) m l phi psi)
    (-1) 1 0 (L (oth1 axis)) 0 (L (oth2 axis))
    (dx P lo len u axis bs (n axis) L n 0).
Proof.
  intros Hax Hd HL Hml Hex Hs.
  destruct (dx_rank_independent P n lo len _ u axis bs L n Hax Hd Hs) as [-> _].
  set (o1 := oth1 axis) in *. set (o2 := oth2 axis) in *.
  set (IY := fun q => if (m q =? 0)%nat then L o1 * cos (phi q) else 0).
  set (IZ := fun q => if (l q =? 0)%nat then L o2 * cos (psi q) else 0).
  rewrite (weighted_ext bs (n axis) _ (fun i => Rsum Q (fun q =>
      (Rsum (n o1) (fun j => wave (L o1) (m q) (phi q) (x_per (L o1) (n o1) j))
      * Rsum (n o2) (fun j => wave (L o2) (l q) (psi q) (x_per (L o2) (n o2) j))) * poly deg (a q) (xw i)))).
  2:{ intros i Hi. rewrite <- modes_sum. unfold plane, sampled, o1, o2.
      destruct axis as [|[|[|?]]]; try lia; reflexivity. }
  rewrite (weighted_sum bs (n axis) Q _ (fun q i => poly deg (a q) (xw i))).
  rewrite <- Rsum_scal_r.
  rewrite (Rsum_ext Q _ (fun q => IY q * IZ q * weighted bs (n axis) (fun i => poly deg (a q) (xw i)))).
  2:{ intros q Hq. destruct (Hml q Hq) as [H1 H2]. unfold IY, IZ.
      rewrite <- (wave_sum (L o1) (n o1) (m q) (phi q)), <- (wave_sum (L o2) (n o2) (l q) (psi q)) by auto. ring. }
  exists (fun x y => Rsum Q (fun q => poly deg (a q) x * wave (L o1) (m q) (phi q) y * IZ q)).
  exists (fun x => Rsum Q (fun q => poly deg (a q) x * IZ q * IY q)).
  split; [|split].
  - intros x y. unfold modes.
    apply (Int_ext (fun z => Rsum Q (fun q => poly deg (a q) x * wave (L o1) (m q) (phi q) y
        * wave (L o2) (l q) (psi q) z))); [intros; apply Rsum_ext; intros; ring|].
    apply (Int_sum Q (fun q => poly deg (a q) x * wave (L o1) (m q) (phi q) y)).
    intros q _. apply wave_int; auto.
  - intros x.
    apply (Int_ext (fun y => Rsum Q (fun q => poly deg (a q) x * IZ q * wave (L o1) (m q) (phi q) y)));
      [intros; apply Rsum_ext; intros; ring|].
    apply (Int_sum Q (fun q => poly deg (a q) x * IZ q)). intros q _. apply wave_int; auto.
  - apply (Int_ext (fun x => Rsum Q (fun q => IY q * IZ q * poly deg (a q) x)));
      [intros; apply Rsum_ext; intros; ring|].
    apply Int_sum. intros q _. apply exact_poly; auto.
Qed.

(** C45, Gauss points: exact for every wall-normal polynomial of degree < M and every resolved
    wave in the periodic directions *)
Theorem dx_exact_GC P n lo len u axis L Q a m l phi psi :
  (axis < 3)%nat -> decomposition P n lo len -> (forall d, 0 < L d) ->
  (forall q, (q < Q)%nat -> (m q < n (oth1 axis))%nat /\ (l q < n (oth2 axis))%nat) ->
  scattered P lo len (sampled axis (modes (n axis) Q a (L (oth1 axis)) (L (oth2 axis)) m l phi psi)
      (x_GC (n axis)) (x_per (L (oth1 axis)) (n (oth1 axis))) (x_per (L (oth2 axis)) (n (oth2 axis)))) u ->
  Int3 (modes (n axis) Q a (L (oth1 axis)) (L (oth2 axis)) m l phi psi)
    (-1) 1 0 (L (oth1 axis)) 0 (L (oth2 axis))
    (dx P lo len u axis ChebGC (n axis) L n 0).
Proof. intros. eapply dx_exact; eauto. intros i Hi. apply GC_T; auto. Qed.

(** C45, Gauss-Lobatto points: degree < M when M is even, degree < M - 1 when M is odd *)
Theorem dx_exact_GL P n lo len u axis L Q a m l phi psi deg :
  (axis < 3)%nat -> decomposition P n lo len -> (forall d, 0 < L d) ->
  (2 <= n axis)%nat ->
  (deg <= n axis)%nat -> (Nat.odd (n axis) = true -> (deg <= n axis - 1)%nat) ->
  (forall q, (q < Q)%nat -> (m q < n (oth1 axis))%nat /\ (l q < n (oth2 axis))%nat) ->
  scattered P lo len (sampled axis (modes deg Q a (L (oth1 axis)) (L (oth2 axis)) m l phi psi)
      (x_GL (n axis)) (x_per (L (oth1 axis)) (n (oth1 axis))) (x_per (L (oth2 axis)) (n (oth2 axis)))) u ->
  Int3 (modes deg Q a (L (oth1 axis)) (L (oth2 axis)) m l phi psi)
    (-1) 1 0 (L (oth1 axis)) 0 (L (oth2 axis))
    (dx P lo len u axis ChebGL (n axis) L n 0).
Proof.
  intros H1 H2 H3 H4 H5 H6 H7 H8. eapply dx_exact; eauto. intros i Hi.
  destruct (n axis) as [|M'] eqn:E; [lia|]. change (weighted ChebGL (S M')) with (sum_GL (S M')).
  rewrite GL_T by lia.
  destruct (Nat.eqb_spec i M') as [->|]; cbn [andb]; [|reflexivity].
  destruct (Nat.even M') eqn:Ev; [|reflexivity].
  rewrite Nat.odd_succ in H6. specialize (H6 Ev). lia.
Qed.

(** False on Gauss-Lobatto points for every odd M: there is a polynomial of degree M - 1 whose
    integral is not what the weights give (they give twice the integral of T_(M-1)). *)
Definition lincl (n : nat) (p : R -> R) : Prop := exists b, forall x, p x = poly n b x.
Lemma poly_S n b x : x * poly n b x = poly (S n) (fun k => match k with O => 0 | S k => b k end) x.
Proof.
  unfold poly. rewrite Rsum_S_l, <- Rsum_scal. rewrite Rmult_0_l, Rplus_0_l.
  apply Rsum_ext. intros. simpl. ring.
Qed.
Lemma poly_lin n a b c d x : c * poly n a x + d * poly n b x = poly n (fun k => c * a k + d * b k) x.
Proof. unfold poly. rewrite <- !Rsum_scal, <- Rsum_add. apply Rsum_ext. intros; ring. Qed.
Lemma poly_weak n a x : poly n a x = poly (S n) (fun k => if (k <? n)%nat then a k else 0) x.
Proof.
  unfold poly. cbn [Rsum]. rewrite Nat.ltb_irrefl, Rmult_0_l, Rplus_0_r. apply Rsum_ext. intros i Hi.
  destruct (Nat.ltb_spec i n); [reflexivity|lia].
Qed.
Lemma T_poly n : lincl (S n) (T n) /\ lincl (S (S n)) (T (S n)).
Proof.
  induction n as [|n [[a Ha] [b Hb]]].
  - split; [exists (fun _ => 1)|exists (fun k => INR k)]; intros x; unfold poly; simpl; [rewrite T_0|rewrite T_1]; ring.
  - split; [exists b; apply Hb|].
    eexists. intros x. rewrite T_SS, Hb, Ha.
    rewrite (poly_weak (S n) a), (poly_weak (S (S n)) (fun k => if (k <? S n)%nat then a k else 0)).
    replace (2 * x * poly (S (S n)) b x) with (2 * (x * poly (S (S n)) b x)) by ring.
    rewrite poly_S.
    replace (2 * poly (S (S (S n))) (fun k => match k with 0%nat => 0 | S k0 => b k0 end) x
       - poly (S (S (S n))) (fun k => if (k <? S (S n))%nat then if (k <? S n)%nat then a k else 0 else 0) x) with
      (2 * poly (S (S (S n))) (fun k => match k with 0%nat => 0 | S k0 => b k0 end) x
       + -1 * poly (S (S (S n))) (fun k => if (k <? S (S n))%nat then if (k <? S n)%nat then a k else 0 else 0) x) by ring.
    rewrite poly_lin. reflexivity.
Qed.
Theorem dx_GL_odd_refuted M : (2 <= M)%nat -> Nat.odd M = true ->
  exists a v, Int (poly M a) (-1) 1 v /\ v <> 0 /\
    weighted ChebGL M (fun k => poly M a (x_GL M k)) = 2 * v.
Proof.
  intros HM Ho. destruct M as [|L]; [lia|]. destruct (proj1 (T_poly L)) as [b Hb].
  exists b, (IT L). rewrite Nat.odd_succ in Ho. repeat split.
  - apply (Int_ext (T L)); [apply Hb|apply Int_T].
  - unfold IT. rewrite <- Nat.negb_even, Ho. cbn [negb].
    assert (2 <= L)%nat by (destruct L as [|[|L]]; [lia|discriminate|lia]).
    assert (2 <= INR L) by (apply (le_INR 2); auto).
    apply Rlt_not_eq. assert (0 < 2 / (INR L ^ 2 - 1)) by (apply Rdiv_lt_0_compat; nra).
    replace (2 / (1 - INR L ^ 2)) with (- (2 / (INR L ^ 2 - 1))) by (field; split; nra). lra.
  - rewrite (weighted_ext ChebGL (S L) _ (fun k => T L (x_GL (S L) k))) by (intros; symmetry; apply Hb).
    change (weighted ChebGL (S L)) with (sum_GL (S L)). rewrite GL_T by lia.
    rewrite Nat.eqb_refl, Ho. reflexivity.
Qed.

(** * Non-vacuity: 2 x 2 ranks on a 3 x 4 x 3 array, u = x^2 (1 + cos(2 pi y / L1)) *)
Definition exn (a : nat) : nat := match a with 1 => 4 | _ => 3 end.
Definition exlo (r a : nat) : nat :=
  match a with 1 => if Nat.odd r then 3 else 0 | 2 => if (2 <=? r)%nat then 2 else 0 | _ => 0 end.
Definition exlen (r a : nat) : nat :=
  match a with 1 => if Nat.odd r then 1 else 3 | 2 => if (2 <=? r)%nat then 1 else 2 | _ => 3 end.
Example ex_decomposition : decomposition 4 exn exlo exlen.
Proof.
  split.
  - intros r a Hr Ha. destruct r as [|[|[|[|?]]]]; try lia; destruct a as [|[|[|?]]]; try lia; cbn; lia.
  - intros i j k Hi Hj Hk. cbn in Hi, Hj, Hk.
    exists ((if (3 <=? j)%nat then 1 else 0) + (if (2 <=? k)%nat then 2 else 0))%nat.
    destruct (Nat.leb_spec 3 j); destruct (Nat.leb_spec 2 k); cbn [Nat.add]; (split; [lia|]);
    (split; [unfold owns; cbn; lia|]); intros r' Hr' Ho; unfold owns in Ho;
    destruct r' as [|[|[|[|?]]]]; try lia; cbn in Ho; lia.
Qed.
Definition exa (q k : nat) : R := if (k =? 2)%nat then 1 else 0.
Definition exu (r i j k : nat) : R :=
  sampled 0 (modes 3 2 exa 5 7 (fun q => q) (fun _ => 0%nat) (fun _ => 0) (fun _ => 0)) (x_GC 3)
    (x_per 5 4) (x_per 7 3) (exlo r 0 + i)%nat (exlo r 1 + j)%nat (exlo r 2 + k)%nat.
Example ex_dx : dx 4 exlo exlen exu 0 ChebGC 3 (fun a => match a with 1 => 5 | _ => 7 end) exn 0 = 2 / 3 * 5 * 7.
Proof.
  eapply Int3_unique; [| | |
    apply (dx_exact_GC 4 exn exlo exlen exu 0 (fun a => match a with 1 => 5 | _ => 7 end) 2
       exa (fun q => q) (fun _ => 0%nat) (fun _ => 0) (fun _ => 0))|]; cbn [oth1 oth2]; try lra.
  - lia.
  - apply ex_decomposition.
  - intros d. destruct d as [|[|?]]; lra.
  - intros q Hq. cbn. lia.
  - intros r i j k _ _ _ _. reflexivity.
  - cbn [exn].
    exists (fun x y => x ^ 2 * (1 + wave 5 1 0 y) * 7), (fun x => x ^ 2 * 5 * 7). split; [|split].
    + intros x y. apply (Int_ext (fun _ => x ^ 2 * (1 + wave 5 1 0 y))).
      * intros z. unfold modes, poly, exa, wave. cbn -[cos PI INR].
        replace (2 * PI * INR 0 * z / 7 + 0) with 0 by (cbn; lra).
        replace (2 * PI * INR 0 * y / 5 + 0) with 0 by (cbn; lra). rewrite !cos_0. ring.
      * replace (x ^ 2 * (1 + wave 5 1 0 y) * 7) with (x ^ 2 * (1 + wave 5 1 0 y) * (7 - 0)) by ring. apply Int_const.
    + intros x. pose proof (Int_lin _ _ 0 5 _ _ (x ^ 2 * 7) (x ^ 2 * 7) (Int_const 1 0 5) (wave_int 5 1 0 ltac:(lra))) as H.
      cbn [Nat.eqb] in H.
      replace (x ^ 2 * 5 * 7) with (x ^ 2 * 7 * (1 * (5 - 0)) + x ^ 2 * 7 * 0) by ring.
      eapply Int_ext; [|exact H]. intros. cbn beta. ring.
    + exists (fun x => 35 / 3 * x ^ 3). split.
      * intros x. replace (x ^ 2 * 5 * 7) with (35 / 3 * (INR 3 * x ^ pred 3)) by (simpl; lra).
        apply (derivable_pt_lim_scal (fun x => x ^ 3)), derivable_pt_lim_pow.
      * lra.
Qed.
Example ex_odd : exists a v, Int (poly 5 a) (-1) 1 v /\ v <> 0 /\
    weighted ChebGL 5 (fun k => poly 5 a (x_GL 5 k)) = 2 * v.
Proof. apply dx_GL_odd_refuted; [lia|reflexivity]. Qed.

Print Assumptions dx_rank_independent.
Print Assumptions dx_same_for_all_decompositions.
Print Assumptions dx_exact_GC.
Print Assumptions dx_exact_GL.
Print Assumptions dx_GL_odd_refuted.
