(** Lemmas for the decay of Crank-Nicolson steps in the Chebyshev-weighted norm. *)
From Coq Require Import Reals List Arith Lia Lra.
From Verif Require Import Base.Cplx Base.Sums Base.Fin Spec.Chebyshev Spec.Channel Spec.ChannelField Spec.Galerkin
  Proofs.ChebyshevProofs Proofs.KMMProofs Proofs.CoupledProofs Proofs.GalerkinProofs.
Open Scope R_scope.

(** ** The weighted integral of a nonnegative function *)
Lemma wint_nonneg f z : (forall x, - 1 <= x <= 1 -> 0 <= f x) -> wint f z -> 0 <= z.
Proof.
  intros Hf (F & HF & ->).
  destruct (MVT_cor2 F (fun t => f (cos t)) 0 PI PI_RGT_0 (fun t _ => HF t)) as (c & E & _).
  rewrite E. apply Rmult_le_pos; [apply Hf, COS_bound | pose proof PI_RGT_0; lra].
Qed.

(** ** Functions with two derivatives *)
Definition P2 (f f1 f2 : R -> R) : Prop :=
  (forall x, derivable_pt_lim f x (f1 x)) /\ (forall x, derivable_pt_lim f1 x (f2 x)).
Lemma lim_eq f g x l l' : (forall y, f y = g y) -> l = l' -> derivable_pt_lim f x l -> derivable_pt_lim g x l'.
Proof.
  intros E <- H eps He. destruct (H eps He) as (d & Hd). exists d. intros k Hk Hk'. rewrite <- !E. apply Hd; assumption.
Qed.
Lemma d_x f x l : derivable_pt_lim f x l -> derivable_pt_lim (fun y => y * f y) x (f x + x * l).
Proof.
  intros H. refine (lim_eq _ _ _ _ _ _ _ (derivable_pt_lim_mult id f x 1 l (derivable_pt_lim_id x) H)).
  - reflexivity.
  - unfold id. ring.
Qed.
Lemma d_lin a b f g x l m : derivable_pt_lim f x l -> derivable_pt_lim g x m ->
  derivable_pt_lim (fun y => a * f y + b * g y) x (a * l + b * m).
Proof. intros H K. exact (derivable_pt_lim_plus _ _ _ _ _ (derivable_pt_lim_scal _ a _ _ H) (derivable_pt_lim_scal _ b _ _ K)). Qed.
Lemma P2_lin a b f f1 f2 g g1 g2 : P2 f f1 f2 -> P2 g g1 g2 ->
  P2 (fun y => a * f y + b * g y) (fun y => a * f1 y + b * g1 y) (fun y => a * f2 y + b * g2 y).
Proof. intros (A & B) (A' & B'). split; intros x; apply d_lin; auto. Qed.
Lemma P2_x f f1 f2 : P2 f f1 f2 -> P2 (fun y => y * f y) (fun y => f y + y * f1 y) (fun y => 2 * f1 y + y * f2 y).
Proof.
  intros (A & B). split; intros x.
  - apply d_x, A.
  - refine (lim_eq _ _ _ _ _ _ _ (derivable_pt_lim_plus _ _ _ _ _ (A x) (d_x _ _ _ (B x)))).
    + reflexivity.
    + ring.
Qed.
Lemma P2_const c : P2 (fun _ => c) (fun _ => 0) (fun _ => 0).
Proof. split; intros x; apply derivable_pt_lim_const. Qed.
Lemma P2_ext f g f1 f2 : (forall x, f x = g x) -> P2 f f1 f2 -> P2 g f1 f2.
Proof. intros E (A & B). split; [|exact B]. intros x. exact (lim_eq _ _ _ _ _ E eq_refl (A x)). Qed.

(** ** The Dirichlet functions have the factor 1 - x^2 *)
Definition walls (u : R -> R) : Prop := exists q q1 q2, P2 q q1 q2 /\ forall x, u x = (1 - x * x) * q x.
Lemma phi_SS i x : phi (S (S i)) x = 2 * x * phi (S i) x - phi i x.
Proof.
  unfold phi. replace (S (S i) + 2)%nat with (S (S (i + 2))) by lia. replace (S i + 2)%nat with (S (i + 2)) by lia.
  rewrite !T_SS. ring.
Qed.
Lemma walls_phi i : walls (phi i).
Proof.
  enough (walls (phi i) /\ walls (phi (S i))) by apply H.
  induction i as [|i ((q & q1 & q2 & Hq & Eq) & (r & r1 & r2 & Hr & Er))].
  - split.
    + exists (fun _ => 2), (fun _ => 0), (fun _ => 0). split; [apply P2_const|].
      intros x. unfold phi. cbn [Nat.add]. rewrite T_SS, T_1, T_0. ring.
    + eexists (fun x => x * 4), _, _. split; [apply (P2_x _ _ _ (P2_const 4))|].
      intros x. unfold phi. cbn [Nat.add]. rewrite !T_SS, !T_1, !T_0. ring.
  - split; [exists r, r1, r2; auto|].
    eexists (fun x => 2 * (x * r x) + - 1 * q x), _, _. split; [apply (P2_lin 2 (-1) _ _ _ _ _ _ (P2_x _ _ _ Hr) Hq)|].
    intros x. rewrite phi_SS, Er, Eq. ring.
Qed.
Lemma walls_sum n (a : nat -> R) : walls (fun x => Rsum n (fun i => a i * phi i x)).
Proof.
  induction n as [|n (q & q1 & q2 & Hq & Eq)].
  - exists (fun _ => 0), (fun _ => 0), (fun _ => 0). split; [apply P2_const|]. intros x. simpl. ring.
  - destruct (walls_phi n) as (r & r1 & r2 & Hr & Er).
    eexists (fun x => 1 * q x + a n * r x), _, _. split; [apply (P2_lin 1 (a n) _ _ _ _ _ _ Hq Hr)|].
    intros x. cbn [Rsum]. rewrite Eq, Er. ring.
Qed.
Lemma walls_sub u v : walls u -> walls v -> walls (fun x => u x - v x).
Proof.
  intros (q & q1 & q2 & Hq & Eq) (r & r1 & r2 & Hr & Er).
  eexists (fun x => 1 * q x + - 1 * r x), _, _. split; [apply (P2_lin 1 (-1) _ _ _ _ _ _ Hq Hr)|].
  intros x. rewrite Eq, Er. ring.
Qed.
Lemma walls_add u v : walls u -> walls v -> walls (fun x => u x + v x).
Proof.
  intros (q & q1 & q2 & Hq & Eq) (r & r1 & r2 & Hr & Er).
  eexists (fun x => 1 * q x + 1 * r x), _, _. split; [apply (P2_lin 1 1 _ _ _ _ _ _ Hq Hr)|].
  intros x. rewrite Eq, Er. ring.
Qed.

(** ** The second derivative in the weighted inner product: (u'', u) <= - (u, u) / 2 *)
Section Coercive.
Context (q q1 q2 : R -> R) (Hq : P2 q q1 q2).
(** - (u'', u) = ((1-x^2) q' - x q)^2 + q^2/2 up to the derivative of something that vanishes at 0 and pi *)
Definition gq (x : R) : R := ((1 - x * x) * q1 x - x * q x) ^ 2 + q x ^ 2 / 2.
Definition uq (x : R) : R := (1 - x * x) * q x.
Definition uq2 (x : R) : R := - 2 * q x - 4 * x * q1 x + (1 - x * x) * q2 x.
Lemma uq_P2 : P2 uq (fun x => - 2 * x * q x + (1 - x * x) * q1 x) uq2.
Proof.
  destruct Hq as (A & B).
  assert (D : forall f l x, derivable_pt_lim f x l -> derivable_pt_lim (fun x => (1 - x * x) * f x) x (- 2 * x * f x + (1 - x * x) * l)).
  { intros f l x H.
    refine (lim_eq _ _ _ _ _ _ _ (d_lin 1 (-1) _ _ _ _ _ H (d_x _ _ _ (d_x _ _ _ H)))); [intros y; ring | ring]. }
  split; intros x.
  - unfold uq. apply D, A.
  - refine (lim_eq _ _ _ _ _ _ _ (d_lin (-2) 1 _ _ _ _ _ (d_x _ _ _ (A x)) (D _ _ _ (B x)))); [intros y; ring|].
    unfold uq2. ring.
Qed.
Lemma ibp : wint (fun x => - uq2 x * uq x - gq x) 0.
Proof.
  set (P := fun x => - (3 / 2) * (x * q x ^ 2) + (1 - x * x) * (q x * q1 x)).
  set (P' := fun x => - (3 / 2) * (q x ^ 2 + 2 * x * q x * q1 x) - 2 * x * (q x * q1 x) + (1 - x * x) * (q1 x ^ 2 + q x * q2 x)).
  destruct Hq as (A & B).
  assert (HP : forall x, derivable_pt_lim P x (P' x)).
  { intros x. pose proof (derivable_pt_lim_mult _ _ _ _ _ (A x) (A x)) as Q.
    pose proof (derivable_pt_lim_mult _ _ _ _ _ (A x) (B x)) as Q1.
    pose proof (d_lin (- (3 / 2)) 1 _ _ _ _ _ (d_x _ _ _ Q)
      (d_lin 1 (-1) _ _ _ _ _ Q1 (d_x _ _ _ (d_x _ _ _ Q1)))) as D.
    refine (lim_eq _ _ _ _ _ _ _ D).
    - intros y. unfold P, mult_fct. ring.
    - unfold P', mult_fct. ring. }
  exists (fun t => sin t * P (cos t)). split; [|rewrite sin_PI, sin_0; ring].
  intros t.
  pose proof (derivable_pt_lim_comp cos P t _ _ (derivable_pt_lim_cos t) (HP (cos t))) as D.
  refine (lim_eq _ _ _ _ _ _ _ (derivable_pt_lim_mult _ _ _ _ _ (derivable_pt_lim_sin t) D)).
  - intros y. reflexivity.
  - unfold comp. transitivity (cos t * P (cos t) - (sin t * sin t) * P' (cos t)); [ring|].
    replace (sin t * sin t) with (1 - cos t * cos t) by (pose proof (sin2_cos2 t) as S; unfold Rsqr in S; lra).
    unfold P, P', uq2, uq, gq. field.
Qed.
Lemma gq_bound x : - 1 <= x <= 1 -> uq x ^ 2 / 2 <= gq x.
Proof.
  intros H. unfold gq, uq.
  assert (0 <= (1 - x * x) <= 1) by nra. set (s := 1 - x * x) in *.
  assert (s * s <= 1) by nra.
  assert (0 <= q x ^ 2) by apply pow2_ge_0.
  assert (0 <= (s * q1 x - x * q x) ^ 2) by apply pow2_ge_0.
  replace ((s * q x) ^ 2) with (s * s * q x ^ 2) by ring. nra.
Qed.
End Coercive.

Lemma d2_unique u u2 u1 f1 f2 : P2 u u1 u2 -> P2 u f1 f2 -> forall x, u2 x = f2 x.
Proof.
  intros (A & B) (A' & B') x.
  assert (E : forall y, u1 y = f1 y) by (intros y; eapply uniqueness_limite; eauto).
  refine (uniqueness_limite f1 x _ _ _ (B' x)). exact (lim_eq _ _ _ _ _ E eq_refl (B x)).
Qed.

(** two real functions: the real and the imaginary part *)
Lemma coercive u u1 u2 v v1 v2 z y : walls u -> walls v -> P2 u u1 u2 -> P2 v v1 v2 ->
  wint (fun x => u2 x * u x + v2 x * v x) z -> wint (fun x => u x * u x + v x * v x) y -> z <= - (y / 2).
Proof.
  intros (q & q1 & q2 & Hq & Eq) (p & p1 & p2 & Hp & Ep) Hu Hv Hz Hy.
  pose proof (ibp q q1 q2 Hq) as Iq. pose proof (ibp p p1 p2 Hp) as Ip.
  assert (E2 : forall x, u2 x = uq2 q q1 q2 x).
  { intros x. refine (d2_unique u _ _ _ _ Hu (P2_ext _ _ _ _ _ (uq_P2 q q1 q2 Hq)) x). intros w. symmetry. apply Eq. }
  assert (F2 : forall x, v2 x = uq2 p p1 p2 x).
  { intros x. refine (d2_unique v _ _ _ _ Hv (P2_ext _ _ _ _ _ (uq_P2 p p1 p2 Hp)) x). intros w. symmetry. apply Ep. }
  pose proof (wint_add _ _ _ _ (wint_scal (-1) _ _ (wint_add _ _ _ _ Iq Ip))
     (wint_add _ _ _ _ (wint_scal (-1) _ _ Hz) (wint_scal (- / 2) _ _ Hy))) as W.
  assert (0 <= -1 * (0 + 0) + (-1 * z + - / 2 * y)); [|lra].
  refine (wint_nonneg _ _ _ W). intros x Hx. cbv beta.
  pose proof (gq_bound q q1 x Hx) as B1. pose proof (gq_bound p p1 x Hx) as B2.
  rewrite E2, F2, Eq, Ep. fold (uq q x). fold (uq p x). lra.
Qed.

(** ** Complex series *)
Definition rdot (a b : C) : R := fst a * fst b + snd a * snd b.
Lemma series_parts n (y : column) x :
  fst (series n phi y x) = Rsum n (fun i => fst (y i) * phi i x) /\ snd (series n phi y x) = Rsum n (fun i => snd (y i) * phi i x).
Proof.
  unfold series. induction n as [|n (A & B)]; [split; reflexivity|].
  cbn [Csum Rsum]. rewrite <- A, <- B. split; simpl; ring.
Qed.
Lemma series_walls n y : walls (fun x => fst (series n phi y x)) /\ walls (fun x => snd (series n phi y x)).
Proof.
  split.
  - destruct (walls_sum n (fun i => fst (y i))) as (q & q1 & q2 & H & E). exists q, q1, q2. split; [exact H|].
    intros x. rewrite (proj1 (series_parts n y x)). apply E.
  - destruct (walls_sum n (fun i => snd (y i))) as (q & q1 & q2 & H & E). exists q, q1, q2. split; [exact H|].
    intros x. rewrite (proj2 (series_parts n y x)). apply E.
Qed.
Lemma wint_dot n f (y z : column) : (forall i, (i < n)%nat -> Cwint (fun x => (f x * RtoC (phi i x))%C) (z i)) ->
  wint (fun x => rdot (f x) (series n phi y x)) (Rsum n (fun i => rdot (y i) (z i))).
Proof.
  unfold series. induction n as [|n IH]; intros H.
  - eapply wint_ext; [|apply wint_zero]. intros x. unfold rdot. simpl. ring.
  - destruct (H n ltac:(lia)) as (A & B). cbn [Rsum].
    eapply wint_ext; [|apply (wint_add _ _ _ _ (IH (fun i Hi => H i ltac:(lia)))
      (wint_add _ _ _ _ (wint_scal (fst (y n)) _ _ A) (wint_scal (snd (y n)) _ _ B)))].
    intros x. unfold rdot. cbn [Csum]. simpl. ring.
Qed.
Lemma Cwint_lin a b f g z w : Cwint f z -> Cwint g w ->
  Cwint (fun x => (RtoC a * f x + RtoC b * g x)%C) (RtoC a * z + RtoC b * w)%C.
Proof.
  intros (A & B) (A' & B'). split.
  - replace (fst (RtoC a * z + RtoC b * w)%C) with (a * fst z + b * fst w) by (simpl; ring).
    eapply wint_ext; [|apply (wint_add _ _ _ _ (wint_scal a _ _ A) (wint_scal b _ _ A'))]. intros x. simpl. ring.
  - replace (snd (RtoC a * z + RtoC b * w)%C) with (a * snd z + b * snd w) by (simpl; ring).
    eapply wint_ext; [|apply (wint_add _ _ _ _ (wint_scal a _ _ B) (wint_scal b _ _ B'))]. intros x. simpl. ring.
Qed.
Lemma nth2_P2 F f : nth_derivative 2 F f ->
  exists f1, P2 (fun x => fst (F x)) (fun x => fst (f1 x)) (fun x => fst (f x)) /\ P2 (fun x => snd (F x)) (fun x => snd (f1 x)) (fun x => snd (f x)).
Proof.
  intros (F1 & D1 & F2 & D2 & E). exists F1. split; split; intros x; try apply D1.
  - rewrite <- E. apply D2.
  - rewrite <- E. apply D2.
Qed.
Lemma series_comb n a b (u v : column) x :
  (series n phi (fun i => RtoC a * u i + RtoC b * v i) x = RtoC a * series n phi u x + RtoC b * series n phi v x)%C.
Proof. unfold series. rewrite <- !Csum_scal, <- Csum_add. apply Csum_ext. intros; ring. Qed.
Lemma series_sub n (u v : column) x : (series n phi (fun i => u i - v i) x = series n phi u x - series n phi v x)%C.
Proof. unfold series. rewrite <- Csum_sub. apply Csum_ext. intros; ring. Qed.
Lemma series_add n (u v : column) x : (series n phi (fun i => u i + v i) x = series n phi u x + series n phi v x)%C.
Proof. unfold series. rewrite <- Csum_add. apply Csum_ext. intros; ring. Qed.
Lemma Cwint_sub f g z w : Cwint f z -> Cwint g w -> Cwint (fun x => (f x - g x)%C) (z - w)%C.
Proof.
  intros A B. pose proof (Cwint_lin 1 (-1) _ _ _ _ A B) as P.
  replace (z - w)%C with (RtoC 1 * z + RtoC (-1) * w)%C by (ceq; ring).
  refine (Cwint_ext _ _ _ _ P). intros x. ceq; ring.
Qed.
Lemma Cwint_add f g z w : Cwint f z -> Cwint g w -> Cwint (fun x => (f x + g x)%C) (z + w)%C.
Proof.
  intros A B. pose proof (Cwint_lin 1 1 _ _ _ _ A B) as P.
  replace (z + w)%C with (RtoC 1 * z + RtoC 1 * w)%C by (ceq; ring).
  refine (Cwint_ext _ _ _ _ P). intros x. ceq; ring.
Qed.
Lemma P2_sub f f1 f2 g g1 g2 : P2 f f1 f2 -> P2 g g1 g2 -> P2 (fun y => f y - g y) (fun y => f1 y - g1 y) (fun y => f2 y - g2 y).
Proof. intros (A & B) (A' & B'). split; intros x; apply derivable_pt_lim_minus; auto. Qed.
Lemma P2_add f f1 f2 g g1 g2 : P2 f f1 f2 -> P2 g g1 g2 -> P2 (fun y => f y + g y) (fun y => f1 y + g1 y) (fun y => f2 y + g2 y).
Proof. intros (A & B) (A' & B'). split; intros x; apply derivable_pt_lim_plus; auto. Qed.

(** ** Two Crank-Nicolson steps with the same forcing *)
Section Contract.
Context (N : nat) (HN : (2 <= N)%nat) (A B : column -> column).
Hypothesis HA : rows N cw 2 (N - 2) phi (N - 2) phi A.
Hypothesis HB : rows N cw 0 (N - 2) phi (N - 2) phi B.
Notation S_ u := (series (N - 2) phi u).
Lemma rowB u i : (i < N - 2)%nat -> Cwint (fun x => (S_ u x * RtoC (phi i x))%C) (B u i).
Proof. intros Hi. apply (inner_exact N). apply (HB u _ i Hi). intros x. reflexivity. Qed.
Lemma rowA u : exists f, nth_derivative 2 (S_ u) f /\
  forall i, (i < N - 2)%nat -> Cwint (fun x => (f x * RtoC (phi i x))%C) (A u i).
Proof.
  pose proof (nth_derivative_exists N 2 (S_ u) (tcoef N u) (fun x => dirichlet_cheb N u x HN)) as D.
  eexists. split; [exact D|]. intros i Hi. apply (inner_exact N), (HA u _ i Hi D).
Qed.

Lemma dist_exists u v : exists z, wint (fun x => rdot (S_ u x - S_ v x)%C (S_ u x - S_ v x)%C) z.
Proof.
  eexists. eapply wint_ext; [|apply (wint_dot (N - 2) (fun x => S_ u x - S_ v x)%C (fun i => u i - v i)%C (fun i => B u i - B v i)%C)].
  - intros x. cbv beta. rewrite series_sub. reflexivity.
  - intros i Hi. refine (Cwint_ext _ _ _ _ (Cwint_sub _ _ _ _ (rowB u i Hi) (rowB v i Hi))). intros x. ring.
Qed.

Lemma cn_contract nu k2 dt h u u' v v' : 0 <= nu -> 0 < dt -> 
  crank_nicolson (N - 2) B (visc nu k2 A B) dt h u u' -> crank_nicolson (N - 2) B (visc nu k2 A B) dt h v v' ->
  exists a b c,
    wint (fun x => rdot (S_ u x - S_ v x)%C (S_ u x - S_ v x)%C) a /\
    wint (fun x => rdot (S_ u' x - S_ v' x)%C (S_ u' x - S_ v' x)%C) b /\
    wint (fun x => rdot ((S_ u x - S_ v x) + (S_ u' x - S_ v' x))%C ((S_ u x - S_ v x) + (S_ u' x - S_ v' x))%C) c /\
    b + dt * nu / 2 * (1 / 2 + k2) * c <= a.
Proof.
  intros Hnu Hdt Cu Cv.
  set (y := fun i => ((u i - v i) + (u' i - v' i))%C).
  set (beta := fun i => ((B u i - B v i) + (B u' i - B v' i))%C).
  set (alpha := fun i => ((A u i - A v i) + (A u' i - A v' i))%C).
  set (eps := fun i => ((B u' i - B v' i) - (B u i - B v i))%C).
  set (Y := fun x => ((S_ u x - S_ v x) + (S_ u' x - S_ v' x))%C).
  assert (EY : forall x, S_ y x = Y x) by (intros x; unfold y, Y; rewrite series_add, !series_sub; reflexivity).
  destruct (dist_exists u v) as (a & Ha). destruct (dist_exists u' v') as (b & Hb).
  destruct (rowA u) as (f & Df & Wf). destruct (rowA v) as (g & Dg & Wg).
  destruct (rowA u') as (f' & Df' & Wf'). destruct (rowA v') as (g' & Dg' & Wg').
  assert (WB : wint (fun x => rdot (Y x) (Y x)) (Rsum (N - 2) (fun i => rdot (y i) (beta i)))).
  { eapply wint_ext; [|apply (wint_dot (N - 2) Y y beta)].
    - intros x. cbv beta. rewrite EY. reflexivity.
    - intros i Hi. refine (Cwint_ext _ _ _ _ (Cwint_add _ _ _ _ (Cwint_sub _ _ _ _ (rowB u i Hi) (rowB v i Hi)) (Cwint_sub _ _ _ _ (rowB u' i Hi) (rowB v' i Hi)))).
      intros x. unfold Y. ring. }
  assert (WE : wint (fun x => rdot ((S_ u' x - S_ v' x) - (S_ u x - S_ v x))%C (Y x)) (Rsum (N - 2) (fun i => rdot (y i) (eps i)))).
  { eapply wint_ext; [|apply (wint_dot (N - 2) (fun x => (S_ u' x - S_ v' x) - (S_ u x - S_ v x))%C y eps)].
    - intros x. cbv beta. rewrite EY. reflexivity.
    - intros i Hi. refine (Cwint_ext _ _ _ _ (Cwint_sub _ _ _ _ (Cwint_sub _ _ _ _ (rowB u' i Hi) (rowB v' i Hi)) (Cwint_sub _ _ _ _ (rowB u i Hi) (rowB v i Hi)))).
      intros x. ring. }
  assert (WA : wint (fun x => rdot ((f x - g x) + (f' x - g' x))%C (Y x)) (Rsum (N - 2) (fun i => rdot (y i) (alpha i)))).
  { eapply wint_ext; [|apply (wint_dot (N - 2) (fun x => (f x - g x) + (f' x - g' x))%C y alpha)].
    - intros x. cbv beta. rewrite EY. reflexivity.
    - intros i Hi. refine (Cwint_ext _ _ _ _ (Cwint_add _ _ _ _ (Cwint_sub _ _ _ _ (Wf i Hi) (Wg i Hi)) (Cwint_sub _ _ _ _ (Wf' i Hi) (Wg' i Hi)))).
      intros x. ring. }
  set (SB := Rsum (N - 2) (fun i => rdot (y i) (beta i))) in *.
  set (SE := Rsum (N - 2) (fun i => rdot (y i) (eps i))) in *.
  set (SA := Rsum (N - 2) (fun i => rdot (y i) (alpha i))) in *.
  (* the rows *)
  assert (ES : SE = dt * nu / 2 * (SA - k2 * SB)).
  { unfold SE, SA, SB.
    transitivity (Rsum (N - 2) (fun i => dt * nu / 2 * (rdot (y i) (alpha i) - k2 * rdot (y i) (beta i)))).
    - apply Rsum_ext. intros i Hi. pose proof (Cu i Hi) as Eu. pose proof (Cv i Hi) as Ev.
      unfold visc, comb2 in Eu, Ev.
      assert (E : eps i = (RtoC (dt * nu / 2) * (alpha i - RtoC k2 * beta i))%C).
      { unfold eps, alpha, beta. csplit Eu. csplit Ev.
        ceq.
        - apply (Rmult_eq_reg_l (/ dt)); [|apply Rinv_neq_0_compat; lra].
          match type of Eur with ?l = ?r => match type of Evr with ?l' = ?r' =>
            transitivity (l - l'); [field; lra | rewrite Eur, Evr; field; lra] end end.
        - apply (Rmult_eq_reg_l (/ dt)); [|apply Rinv_neq_0_compat; lra].
          match type of Eui with ?l = ?r => match type of Evi with ?l' = ?r' =>
            transitivity (l - l'); [field; lra | rewrite Eui, Evi; field; lra] end end. }
      rewrite E. unfold rdot. destruct (y i), (alpha i), (beta i). simpl. ring.
    - clear. induction (N - 2)%nat as [|n IH]; cbn [Rsum]; [ring | rewrite IH; ring]. }
  (* the left hand side *)
  assert (ED : SE = b - a).
  { refine (wint_unique _ _ _ WE _). replace (b - a) with (b + -1 * a) by ring.
    eapply wint_ext; [|apply (wint_add _ _ _ _ Hb (wint_scal (-1) _ _ Ha))].
    intros x. unfold Y, rdot. simpl. ring. }
  (* the second derivative *)
  assert (EC : SA <= - (SB / 2)).
  { destruct (nth2_P2 _ _ Df) as (f1 & F & F'). destruct (nth2_P2 _ _ Dg) as (g1 & G & G').
    destruct (nth2_P2 _ _ Df') as (k1 & K & K'). destruct (nth2_P2 _ _ Dg') as (l1 & L & L').
    destruct (series_walls (N - 2) u) as (W1 & W1'). destruct (series_walls (N - 2) v) as (W2 & W2').
    destruct (series_walls (N - 2) u') as (W3 & W3'). destruct (series_walls (N - 2) v') as (W4 & W4').
    eapply (coercive _ _ _ _ _ _ SA SB (walls_add _ _ (walls_sub _ _ W1 W2) (walls_sub _ _ W3 W4))
      (walls_add _ _ (walls_sub _ _ W1' W2') (walls_sub _ _ W3' W4'))
      (P2_add _ _ _ _ _ _ (P2_sub _ _ _ _ _ _ F G) (P2_sub _ _ _ _ _ _ K L))
      (P2_add _ _ _ _ _ _ (P2_sub _ _ _ _ _ _ F' G') (P2_sub _ _ _ _ _ _ K' L'))).
    - eapply wint_ext; [|exact WA]. intros x. unfold Y, rdot. simpl. ring.
    - eapply wint_ext; [|exact WB]. intros x. unfold Y, rdot. simpl. ring. }
  exists a, b, SB. split; [exact Ha|split; [exact Hb|split; [exact WB|]]].
  assert (0 <= dt * nu / 2) by nra. nra.
Qed.
End Contract.
