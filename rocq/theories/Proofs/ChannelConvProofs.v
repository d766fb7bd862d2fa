(** Lemmas on channel fields and their derivatives. *)
From Coq Require Import Reals List Bool Arith Lia Lra FunctionalExtensionality.
From Verif Require Import Base.Cplx Base.Sums Base.Fin Model.Maths Model.LU Model.KMM Model.ChannelConv
  Spec.Chebyshev Spec.Channel Spec.ChannelField Proofs.ChebyshevProofs Proofs.LUProofs.
Open Scope R_scope.

Lemma dlim_ext f g x l : (forall y, f y = g y) -> derivable_pt_lim f x l -> derivable_pt_lim g x l.
Proof. intros H D. replace g with f; [exact D|]. extensionality y. apply H. Qed.
Lemma dlim_val f x l l' : l = l' -> derivable_pt_lim f x l -> derivable_pt_lim f x l'.
Proof. intros <-. auto. Qed.

Lemma dlim_Rsum n (f : nat -> R -> R) (d : nat -> R) x :
  (forall i, (i < n)%nat -> derivable_pt_lim (f i) x (d i)) ->
  derivable_pt_lim (fun y => Rsum n (fun i => f i y)) x (Rsum n d).
Proof.
  induction n as [|n IH]; intros H; simpl.
  - apply derivable_pt_lim_const.
  - apply (derivable_pt_lim_plus (fun y => Rsum n (fun i => f i y)) (f n)); [apply IH; auto | auto].
Qed.
Lemma dlim_scal a f x l : derivable_pt_lim f x l -> derivable_pt_lim (fun y => a * f y) x (a * l).
Proof. intros H. apply (derivable_pt_lim_scal f a x l H). Qed.

Lemma d_cos_lin a b x : derivable_pt_lim (fun s => cos (a * s + b)) x (- sin (a * x + b) * a).
Proof.
  apply (derivable_pt_lim_comp (fun s => a * s + b) cos x a (- sin (a * x + b))).
  - apply (dlim_val _ _ (a * 1 + 0)); [ring|].
    apply (derivable_pt_lim_plus (fun s => a * s) (fun _ => b)).
    + apply dlim_scal, derivable_pt_lim_id.
    + apply derivable_pt_lim_const.
  - apply derivable_pt_lim_cos.
Qed.
Lemma d_sin_lin a b x : derivable_pt_lim (fun s => sin (a * s + b)) x (cos (a * x + b) * a).
Proof.
  apply (derivable_pt_lim_comp (fun s => a * s + b) sin x a (cos (a * x + b))).
  - apply (dlim_val _ _ (a * 1 + 0)); [ring|].
    apply (derivable_pt_lim_plus (fun s => a * s) (fun _ => b)).
    + apply dlim_scal, derivable_pt_lim_id.
    + apply derivable_pt_lim_const.
  - apply derivable_pt_lim_sin.
Qed.

(** d/ds Re (c e^{i(a s + b)}) = Re (i a c e^{i(a s + b)}) *)
Lemma d_wave (c : C) a b x :
  derivable_pt_lim (fun s => Re (c * expi (a * s + b))%C) x (Re (Ci * RtoC a * c * expi (a * x + b))%C).
Proof.
  unfold Re, expi, Cmul, RtoC, Ci; simpl.
  apply (dlim_val _ _ (fst c * (- sin (a * x + b) * a) - snd c * (cos (a * x + b) * a))); [ring|].
  apply (derivable_pt_lim_minus (fun s => fst c * cos (a * s + b)) (fun s => snd c * sin (a * s + b)));
    apply dlim_scal; [apply d_cos_lin | apply d_sin_lin].
Qed.

Lemma move_same p d s : move p d s d = s.
Proof. unfold move. destruct d; reflexivity. Qed.
Lemma move_other p d e s : e <> d -> move p d s e = p e.
Proof. unfold move. destruct d, e; simpl; congruence. Qed.

Section Field.
Context (cn c1 c2 : ax3) (Hn1 : cn <> c1) (Hn2 : cn <> c2) (H12 : c1 <> c2).
Context (n1 n2 : nat) (wt : nat -> nat -> R) (K1 K2 : nat -> R).
Notation field' := (field cn c1 c2 n1 n2 wt K1 K2).

Lemma field_ext nb b F G p :
  (forall j k, (j < n1)%nat -> (k < n2)%nat ->
     Csum nb (fun i => F j k i * RtoC (b i (p cn)))%C = Csum nb (fun i => G j k i * RtoC (b i (p cn)))%C) ->
  field' nb b F p = field' nb b G p.
Proof.
  intros H. unfold field. apply Rsum_ext. intros j Hj. apply Rsum_ext. intros k Hk.
  rewrite H by assumption. reflexivity.
Qed.

Lemma partial_1 nb b F p :
  is_partial c1 (field' nb b F) p (field' nb b (fmul (iK1 K1) F) p).
Proof.
  unfold is_partial, field.
  apply (dlim_Rsum n1 (fun j s => Rsum n2 (fun k =>
    wt j k * Re (Csum nb (fun i => F j k i * RtoC (b i (move p c1 s cn)))
                 * expi (K1 j * move p c1 s c1 + K2 k * move p c1 s c2))%C))).
  intros j Hj.
  apply (dlim_Rsum n2 (fun k s =>
    wt j k * Re (Csum nb (fun i => F j k i * RtoC (b i (move p c1 s cn)))
                 * expi (K1 j * move p c1 s c1 + K2 k * move p c1 s c2))%C)).
  intros k Hk. apply dlim_scal.
  eapply dlim_ext; [|eapply dlim_val; [|apply (d_wave (Csum nb (fun i => F j k i * RtoC (b i (p cn)))%C) (K1 j) (K2 k * p c2))]].
  - intros s. simpl. rewrite move_same, !move_other by congruence. reflexivity.
  - simpl. f_equal. f_equal. rewrite <- Csum_scal. apply Csum_ext. intros i Hi. unfold fmul, csc, iK1. ring.
Qed.
Lemma partial_2 nb b F p :
  is_partial c2 (field' nb b F) p (field' nb b (fmul (iK2 K2) F) p).
Proof.
  unfold is_partial, field.
  apply (dlim_Rsum n1 (fun j s => Rsum n2 (fun k =>
    wt j k * Re (Csum nb (fun i => F j k i * RtoC (b i (move p c2 s cn)))
                 * expi (K1 j * move p c2 s c1 + K2 k * move p c2 s c2))%C))).
  intros j Hj.
  apply (dlim_Rsum n2 (fun k s =>
    wt j k * Re (Csum nb (fun i => F j k i * RtoC (b i (move p c2 s cn)))
                 * expi (K1 j * move p c2 s c1 + K2 k * move p c2 s c2))%C)).
  intros k Hk. apply dlim_scal.
  eapply dlim_ext; [|eapply dlim_val; [|apply (d_wave (Csum nb (fun i => F j k i * RtoC (b i (p cn)))%C) (K2 k) (K1 j * p c1))]].
  - intros s. simpl. rewrite move_same, !move_other by congruence.
    rewrite (Rplus_comm (K2 k * s)). reflexivity.
  - simpl. rewrite (Rplus_comm (K2 k * p c2)). f_equal. f_equal. rewrite <- Csum_scal.
    apply Csum_ext. intros i Hi. unfold fmul, csc, iK2. ring.
Qed.

Lemma Re_Cmul_lim (f : R -> C) x l e : Cderiv f x l ->
  derivable_pt_lim (fun s => Re (f s * e)%C) x (Re (l * e)%C).
Proof.
  intros (H1 & H2). unfold Re, Cmul; simpl.
  apply (dlim_ext (fun s => snd e * - snd (f s) + fst e * fst (f s))); [intros y; ring|].
  apply (dlim_val _ _ (snd e * - snd l + fst e * fst l)); [ring|].
  apply (derivable_pt_lim_plus (fun s => snd e * - snd (f s)) (fun s => fst e * fst (f s))); apply dlim_scal.
  - apply (derivable_pt_lim_opp (fun s => snd (f s))). exact H2.
  - exact H1.
Qed.

(** wall normal derivative: differentiate the basis, or give the series of the derivative *)
Lemma partial_n nb b F nd d G p :
  (forall j k, (j < n1)%nat -> (k < n2)%nat ->
     Cderiv (series nb b (F j k)) (p cn) (series nd d (G j k) (p cn))) ->
  is_partial cn (field' nb b F) p (field' nd d G p).
Proof.
  intros H. unfold is_partial, field.
  apply (dlim_Rsum n1 (fun j s => Rsum n2 (fun k =>
    wt j k * Re (Csum nb (fun i => F j k i * RtoC (b i (move p cn s cn)))
                 * expi (K1 j * move p cn s c1 + K2 k * move p cn s c2))%C))).
  intros j Hj.
  apply (dlim_Rsum n2 (fun k s =>
    wt j k * Re (Csum nb (fun i => F j k i * RtoC (b i (move p cn s cn)))
                 * expi (K1 j * move p cn s c1 + K2 k * move p cn s c2))%C)).
  intros k Hk. apply dlim_scal.
  eapply dlim_ext; [|exact (Re_Cmul_lim _ _ _ (expi (K1 j * p c1 + K2 k * p c2)) (H j k Hj Hk))].
  intros s. simpl. rewrite move_same, !move_other by congruence. reflexivity.
Qed.

Lemma field_opp nb b F p :
  field' nb b (fun j k i => (- F j k i)%C) p = - field' nb b F p.
Proof.
  unfold field. rewrite <- Rsum_opp. apply Rsum_ext. intros j Hj. rewrite <- Rsum_opp.
  apply Rsum_ext. intros k Hk.
  replace (Csum nb (fun i => - F j k i * RtoC (b i (p cn))))%C
    with (- C1 * Csum nb (fun i => F j k i * RtoC (b i (p cn))))%C.
  - unfold Re, Cmul, Copp, C1; simpl. ring.
  - rewrite <- Csum_scal. apply Csum_ext. intros i Hi. ring.
Qed.
Lemma field_sub nb b F G p :
  field' nb b (fun j k i => (F j k i - G j k i)%C) p = field' nb b F p - field' nb b G p.
Proof.
  unfold field. rewrite <- Rsum_sub. apply Rsum_ext. intros j Hj. rewrite <- Rsum_sub.
  apply Rsum_ext. intros k Hk.
  replace (Csum nb (fun i => (F j k i - G j k i) * RtoC (b i (p cn))))%C
    with (Csum nb (fun i => F j k i * RtoC (b i (p cn))) - Csum nb (fun i => G j k i * RtoC (b i (p cn))))%C.
  - unfold Re, Csub, Cadd, Copp, Cmul; simpl. ring.
  - rewrite <- Csum_sub. apply Csum_ext. intros i Hi. ring.
Qed.
End Field.

Lemma ctd_col1 N v w bv bw : (4 <= N)%nat ->
  forall i, (i < N)%nat ->
  fst (Mult_CTD_1D N v w 0 1 bv bw) i = dcoef N v i /\ snd (Mult_CTD_1D N v w 0 1 bv bw) i = dcoef N w i.
Proof.
  intros HN i Hi. pose proof (ctd_1d_spec N v w 0 1 HN (le_n 1) bv bw) as S.
  destruct (Mult_CTD_1D N v w 0 1 bv bw) as [b1 b2]. destruct S as (S & _). cbn [fst snd].
  destruct (S i Hi) as (E1 & E2).
  replace (0 + i * 1)%nat with i in E1, E2 by lia. rewrite E1, E2.
  assert (X : forall f : nat -> C, (fun l => f (0 + l * 1)%nat) = f).
  { intros f. extensionality l. f_equal. lia. }
  unfold onl. rewrite !X. auto.
Qed.
Lemma ctd_cols N v w bv bw : (4 <= N)%nat ->
  forall j k x,
  Cderiv (series (N - 2) phi (v j k)) x (series N T (fst (Mult_CTD_cols N v w bv bw) j k) x) /\
  Cderiv (series (N - 2) phi (w j k)) x (series N T (snd (Mult_CTD_cols N v w bv bw) j k) x).
Proof.
  intros HN j k x. unfold Mult_CTD_cols. cbn [fst snd]. split.
  - replace (series N T _ x) with (cheb N (dcoef N (v j k)) x).
    + apply (dirichlet_deriv N (v j k) x). lia.
    + unfold cheb, series. apply Csum_ext. intros i Hi.
      rewrite (proj1 (ctd_col1 N _ _ _ _ HN i Hi)). reflexivity.
  - replace (series N T _ x) with (cheb N (dcoef N (w j k)) x).
    + apply (dirichlet_deriv N (w j k) x). lia.
    + unfold cheb, series. apply Csum_ext. intros i Hi.
      rewrite (proj2 (ctd_col1 N _ _ _ _ HN i Hi)). reflexivity.
Qed.
