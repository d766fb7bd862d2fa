(** Partial derivatives of trigonometric sums. *)
From Coq Require Import Reals Lra List FunctionalExtensionality.
From Verif Require Import Base.Cplx Base.Sums Base.Fin Spec.Energy Spec.Fourier Spec.Wave.
Import ListNotations.
Open Scope R_scope.

Lemma dlim_ext f g x l : (forall t, f t = g t) -> derivable_pt_lim f x l -> derivable_pt_lim g x l.
Proof. intros H. replace g with f by (extensionality t; apply H). auto. Qed.
Lemma dlim_eq f x l m : l = m -> derivable_pt_lim f x l -> derivable_pt_lim f x m.
Proof. intros ->. auto. Qed.
Lemma dlim_sumL {A} (l : list A) (f : A -> R -> R) (d : A -> R) x :
  (forall a, In a l -> derivable_pt_lim (f a) x (d a)) ->
  derivable_pt_lim (fun t => RsumL l (fun a => f a t)) x (RsumL l d).
Proof.
  induction l as [|a l IH]; intros H.
  - apply (dlim_ext (fct_cte 0)); [reflexivity|]. apply derivable_pt_lim_const.
  - apply (dlim_ext (f a + (fun t => RsumL l (fun b => f b t)))%F); [reflexivity|].
    apply derivable_pt_lim_plus; [apply H; left; reflexivity|]. apply IH. intros b Hb. apply H. right. exact Hb.
Qed.
Lemma dlim_lin p c y : derivable_pt_lim (fun t => p + c * (t - y)) y c.
Proof.
  apply (dlim_ext (fct_cte p + mult_real_fct c (id - fct_cte y))%F); [reflexivity|].
  apply (dlim_eq _ _ (0 + c * (1 - 0))); [lra|].
  apply derivable_pt_lim_plus; [apply derivable_pt_lim_const|]. apply derivable_pt_lim_scal.
  apply derivable_pt_lim_minus; [apply derivable_pt_lim_id|apply derivable_pt_lim_const].
Qed.
Lemma dlim_wave w (a : C) p c y :
  derivable_pt_lim (fun t => w * Re (a * cis (p + c * (t - y)))%C) y (w * Re (Ci * RtoC c * a * cis p)%C).
Proof.
  set (th := fun t => p + c * (t - y)). assert (Hth : th y = p) by (unfold th; ring).
  assert (Hc : derivable_pt_lim (comp cos th) y (- sin p * c)).
  { rewrite <- Hth at 1. apply (derivable_pt_lim_comp th cos); [apply dlim_lin|apply derivable_pt_lim_cos]. }
  assert (Hs : derivable_pt_lim (comp sin th) y (cos p * c)).
  { rewrite <- Hth at 1. apply (derivable_pt_lim_comp th sin); [apply dlim_lin|apply derivable_pt_lim_sin]. }
  apply (dlim_ext (mult_real_fct w (mult_real_fct (fst a) (comp cos th) - mult_real_fct (snd a) (comp sin th)))%F).
  { intros t. unfold mult_real_fct, minus_fct, comp, cis, Re, Cmul, th. cbn [fst snd]. ring. }
  apply (dlim_eq _ _ (w * (fst a * (- sin p * c) - snd a * (cos p * c)))).
  { unfold cis, Re, Cmul, Ci, RtoC. cbn [fst snd]. ring. }
  apply derivable_pt_lim_scal, derivable_pt_lim_minus; apply derivable_pt_lim_scal; assumption.
Qed.

Section Wave.
Context {D I : Type} (F : fin D) (ms : list I) (w : I -> R) (K : D -> I -> R).
Lemma sum_upd (l : list D) (c y : D -> R) i t : NoDup l ->
  (~ In i l -> RsumL l (fun j => c j * upd F y i t j) = RsumL l (fun j => c j * y j)) /\
  (In i l -> RsumL l (fun j => c j * upd F y i t j) = RsumL l (fun j => c j * y j) + c i * (t - y i)).
Proof.
  induction l as [|a l IH]; intros Hn; [split; [reflexivity|intros []]|].
  inversion Hn as [|? ? Ha Hl]; subst. destruct (IH Hl) as [I1 I2]. cbn [RsumL]. split.
  - intros H. rewrite I1, upd_other; [reflexivity| |]; intros E; apply H; [left; exact E|right; exact E].
  - intros [->|H]; [rewrite I1, upd_same by exact Ha; lra|].
    rewrite (I2 H), upd_other; [lra|]. intros ->. contradiction.
Qed.
Lemma phase_upd k y i t : phase F K k (upd F y i t) = phase F K k y + K i k * (t - y i).
Proof. apply (proj2 (sum_upd (elems F) (fun j => K j k) y i t (elems_nodup D F))), elems_all. Qed.
Lemma trig_partial a i y : partial F (trig F ms w K a) i y (trig F ms w K (deriv (K i) a) y).
Proof.
  unfold partial, trig. apply (dlim_sumL ms (fun k t => w k * Re (a k * cis (phase F K k (upd F y i t)))%C)).
  intros k _. apply (dlim_ext (fun t => w k * Re (a k * cis (phase F K k y + K i k * (t - y i)))%C)).
  { intros t. rewrite phase_upd. reflexivity. }
  apply dlim_wave.
Qed.
Lemma trig_ext a b y : (forall k, a k = b k) -> trig F ms w K a y = trig F ms w K b y.
Proof. intros H. unfold trig. apply RsumL_ext. intros k _. rewrite H. reflexivity. Qed.
Lemma trig_add a b y : trig F ms w K (fun k => a k + b k)%C y = trig F ms w K a y + trig F ms w K b y.
Proof.
  unfold trig. rewrite <- RsumL_add. apply RsumL_ext. intros k _.
  replace ((a k + b k) * cis (phase F K k y))%C with (a k * cis (phase F K k y) + b k * cis (phase F K k y))%C by ring.
  rewrite Re_add. ring.
Qed.
Lemma trig_sub a b y : trig F ms w K (fun k => a k - b k)%C y = trig F ms w K a y - trig F ms w K b y.
Proof.
  unfold trig. rewrite <- RsumL_sub. apply RsumL_ext. intros k _.
  replace ((a k - b k) * cis (phase F K k y))%C with (a k * cis (phase F K k y) - b k * cis (phase F K k y))%C by ring.
  rewrite Re_sub. ring.
Qed.
Lemma trig_0 y : trig F ms w K (fun _ => C0) y = 0.
Proof. unfold trig. apply RsumL_0. intros k _. unfold Re, Cmul, C0. cbn [fst snd]. ring. Qed.
Lemma trig_CsumL {A} (l : list A) (f : A -> I -> C) y :
  trig F ms w K (fun k => CsumL l (fun j => f j k)) y = RsumL l (fun j => trig F ms w K (f j) y).
Proof.
  induction l as [|a l IH]; [apply trig_0|].
  rewrite (trig_ext _ (fun k => f a k + CsumL l (fun j => f j k))%C) by reflexivity. rewrite trig_add, IH. reflexivity.
Qed.
End Wave.

(** the divergence and the curl of a field given by its coefficients *)
Lemma trig_div {D I} (F : fin D) ms w (K : D -> I -> R) (u : D -> I -> C) y :
  trig F ms w K (fun k => Ci * kdot F K u k)%C y = RsumL (elems F) (fun i => trig F ms w K (deriv (K i) (u i)) y).
Proof.
  rewrite <- trig_CsumL. apply trig_ext. intros k. unfold kdot. rewrite <- CsumL_scal. apply CsumL_ext. intros i _. unfold deriv. ring.
Qed.
Lemma trig_curl {I} ms w (K : ax3 -> I -> R) (u : ax3 -> I -> C) i y :
  trig F3 ms w K (curl_hat K u i) y = curl_of (fun a b => trig F3 ms w K (deriv (K b) (u a)) y) i.
Proof.
  destruct i; cbn [curl_of]; rewrite <- trig_sub; apply trig_ext; intros k; unfold curl_hat, deriv; ring.
Qed.
Lemma trig_vort {I} ms w (K : ax2 -> I -> R) (u : ax2 -> I -> C) y :
  trig F2 ms w K (vort2d K u) y = trig F2 ms w K (deriv (K a0) (u a1)) y - trig F2 ms w K (deriv (K a1) (u a0)) y.
Proof. rewrite <- trig_sub. apply trig_ext. intros k. unfold vort2d, deriv. ring. Qed.

(** irfft3 evaluates its trigonometric sum on the mesh of the box with sides 2 pi / k0 *)
Lemma irfft3_samples N M tr k0 : (forall i, k0 i <> 0) -> (forall i, (0 < M i)%nat) ->
  samples F3 (modes3 N) (fun k => tr k * mult2 (M x2) k) (wavenumber N k0) (mesh3 M k0) (irfft3 N M tr).
Proof.
  intros Hk HM a [[j0 j1] j2]. unfold irfft3, trig. apply RsumL_ext. intros [[k1 k2] k3] _. f_equal. f_equal. f_equal.
  unfold wave3. f_equal. unfold phase. cbn [elems F3 RsumL wavenumber mesh3].
  pose proof (Hk x0). pose proof (Hk x1). pose proof (Hk x2).
  assert (HN : forall i, INR (M i) <> 0) by (intros i; apply not_0_INR; specialize (HM i); intros E; rewrite E in HM; inversion HM).
  pose proof (HN x0). pose proof (HN x1). pose proof (HN x2). field. auto 10.
Qed.
