(** C80: the reference solutions that OrrSommerfeld.py and LaminarChannel.py compare a run with. *)
From Coq Require Import Reals List Bool Arith Lia Lra ZArith FunctionalExtensionality.
From Verif Require Import Base.Cplx Base.Sums Base.Fin Model.KMM Model.Maths Model.LU Model.ChannelConv Model.ChannelInit Spec.Energy Spec.Channel Spec.TaylorGreen
  Proofs.KMMProofs Proofs.QuadratureProofs Proofs.ChebyshevProofs Proofs.ChannelConvProofs Proofs.CoupledProofs Props.InitFields Props.Channel Props.ChannelSteady Props.ChannelEx Props.ChannelInit.
Open Scope R_scope.

(** f has partial derivatives fx, fy, ft everywhere *)
Definition partials (f fx fy ft : R -> R -> R -> R) : Prop := forall x y t,
  derivable_pt_lim (fun s => f s y t) x (fx x y t) /\
  derivable_pt_lim (fun s => f x s t) y (fy x y t) /\
  derivable_pt_lim (fun s => f x y s) t (ft x y t).
(** a complex function of x and its derivative *)
Definition cderiv (a a' : R -> C) : Prop := forall x,
  derivable_pt_lim (fun s => fst (a s)) x (fst (a' x)) /\ derivable_pt_lim (fun s => snd (a s)) x (snd (a' x)).

(** ** Orr-Sommerfeld *)
Section OS.
Context (lam : C).
(** Re (a(x) e^(i (y - lam t))) *)
Definition mode (a : R -> C) (x y t : R) : R := Re (a x * Cexp (Ci * (RtoC y - lam * RtoC t)))%C.
Lemma mode_eq a x y t : mode a x y t =
  exp (snd lam * t) * (fst (a x) * cos (y - fst lam * t) - snd (a x) * sin (y - fst lam * t)).
Proof.
  unfold mode. destruct lam as [p q]. replace (Ci * (RtoC y - (p, q) * RtoC t))%C with ((q * t, y - p * t) : C)
    by (apply C_eq; unfold RtoC, Cmul, Csub, Cadd, Copp, Ci; cbn [fst snd]; ring).
  rewrite Cexp_eq. unfold Re, Cmul. cbn [fst snd]. ring.
Qed.
Lemma der_ext (f g : R -> R) x l l' : (forall s, f s = g s) -> l = l' -> derivable_pt_lim f x l -> derivable_pt_lim g x l'.
Proof. intros H <- D. replace g with f by (extensionality s; apply H). exact D. Qed.
Lemma mode_partials a a' : cderiv a a' ->
  partials (mode a) (mode a') (mode (fun x => Ci * a x)%C) (mode (fun x => - Ci * lam * a x)%C).
Proof.
  intros Ha x y t. destruct (Ha x) as [A B]. set (p := fst lam). set (q := snd lam).
  repeat split.
  - eapply der_ext; [intros s; symmetry; apply mode_eq| |
      apply (derivable_pt_lim_scal (fun s => fst (a s) * cos (y - p * t) - snd (a s) * sin (y - p * t)) (exp (q * t)))].
    2:{ apply (derivable_pt_lim_minus (fun s => fst (a s) * cos (y - p * t)) (fun s => snd (a s) * sin (y - p * t))).
        - apply (derivable_pt_lim_mult (fun s => fst (a s)) (fun _ => cos (y - p * t))); [exact A|apply derivable_pt_lim_const].
        - apply (derivable_pt_lim_mult (fun s => snd (a s)) (fun _ => sin (y - p * t))); [exact B|apply derivable_pt_lim_const]. }
    rewrite mode_eq. fold p q. ring.
  - assert (S : derivable_pt_lim (fun s => s - p * t) y 1).
    { eapply der_ext; [| |apply (derivable_pt_lim_minus id (fun _ => p * t)); [apply derivable_pt_lim_id|apply derivable_pt_lim_const]]; [reflexivity|ring]. }
    eapply der_ext; [intros s; symmetry; apply mode_eq| |
      apply (derivable_pt_lim_scal (fun s => fst (a x) * cos (s - p * t) - snd (a x) * sin (s - p * t)) (exp (q * t)))].
    2:{ apply (derivable_pt_lim_minus (fun s => fst (a x) * cos (s - p * t)) (fun s => snd (a x) * sin (s - p * t))).
        - apply (derivable_pt_lim_scal (fun s => cos (s - p * t)) (fst (a x))).
          apply (derivable_pt_lim_comp (fun s => s - p * t) cos); [exact S|apply derivable_pt_lim_cos].
        - apply (derivable_pt_lim_scal (fun s => sin (s - p * t)) (snd (a x))).
          apply (derivable_pt_lim_comp (fun s => s - p * t) sin); [exact S|apply derivable_pt_lim_sin]. }
    rewrite mode_eq. fold p q. unfold Cmul, Ci. cbn [fst snd]. ring.
  - assert (S : derivable_pt_lim (fun s => y - p * s) t (- p)).
    { eapply der_ext; [| |apply (derivable_pt_lim_minus (fun _ => y) (fun s => p * s)); [apply derivable_pt_lim_const|apply (derivable_pt_lim_scal id p), derivable_pt_lim_id]]; [reflexivity|ring]. }
    assert (E : derivable_pt_lim (fun s => exp (q * s)) t (exp (q * t) * q)).
    { apply (derivable_pt_lim_comp (fun s => q * s) exp); [|apply derivable_pt_lim_exp].
      eapply der_ext; [| |apply (derivable_pt_lim_scal id q), derivable_pt_lim_id]; [reflexivity|ring]. }
    eapply der_ext; [intros s; symmetry; apply mode_eq| |
      apply (derivable_pt_lim_mult (fun s => exp (q * s)) (fun s => fst (a x) * cos (y - p * s) - snd (a x) * sin (y - p * s))); [exact E|]].
    2:{ apply (derivable_pt_lim_minus (fun s => fst (a x) * cos (y - p * s)) (fun s => snd (a x) * sin (y - p * s))).
        - apply (derivable_pt_lim_scal (fun s => cos (y - p * s)) (fst (a x))).
          apply (derivable_pt_lim_comp (fun s => y - p * s) cos); [exact S|apply derivable_pt_lim_cos].
        - apply (derivable_pt_lim_scal (fun s => sin (y - p * s)) (snd (a x))).
          apply (derivable_pt_lim_comp (fun s => y - p * s) sin); [exact S|apply derivable_pt_lim_sin]. }
    rewrite mode_eq. fold p q. unfold Cmul, Ci, Copp. cbn [fst snd]. fold p q. ring.
Qed.

Context (d : nat -> R -> C) (Hd : forall n, (n < 4)%nat -> cderiv (d n) (d (S n))).
Context (Rey eps : R) (HR : Rey <> 0).
(** the perturbation of initOS *)
Definition pu x y t := OS_point (d 0%nat x) (d 1%nat x) lam eps t x y x0.
Definition pv x y t := OS_point (d 0%nat x) (d 1%nat x) lam eps t x y x1 - (1 - x ^ 2).

Lemma cderiv_scal c a a' : cderiv a a' -> cderiv (fun x => c * a x)%C (fun x => c * a' x)%C.
Proof.
  intros H x. destruct (H x) as [A B]. unfold Cmul. cbn [fst snd]. split.
  - apply (derivable_pt_lim_minus (fun s => fst c * fst (a s)) (fun s => snd c * snd (a s)));
    [apply (derivable_pt_lim_scal (fun s => fst (a s))); exact A|apply (derivable_pt_lim_scal (fun s => snd (a s))); exact B].
  - apply (derivable_pt_lim_plus (fun s => fst c * snd (a s)) (fun s => snd c * fst (a s)));
    [apply (derivable_pt_lim_scal (fun s => snd (a s))); exact B|apply (derivable_pt_lim_scal (fun s => fst (a s))); exact A].
Qed.
Lemma cderiv_sub a a' b b' : cderiv a a' -> cderiv b b' -> cderiv (fun x => a x - b x)%C (fun x => a' x - b' x)%C.
Proof.
  intros H G x. destruct (H x) as [A B], (G x) as [A' B']. unfold Csub, Cadd, Copp. cbn [fst snd]. split.
  - apply (derivable_pt_lim_plus (fun s => fst (a s)) (fun s => - fst (b s))); [exact A|]. apply (derivable_pt_lim_opp (fun s => fst (b s))). exact A'.
  - apply (derivable_pt_lim_plus (fun s => snd (a s)) (fun s => - snd (b s))); [exact B|]. apply (derivable_pt_lim_opp (fun s => snd (b s))). exact B'.
Qed.

(** The perturbation (u, v) with vorticity w = v_x - u_y, its partial derivatives, and what w leaves of the
    Navier-Stokes equations linearised about the Poiseuille flow 1 - x^2 with viscosity 1/Re:
    w_t + (1 - x^2) w_y + u (1 - x^2)'' - (w_xx + w_yy) / Re. *)
Definition linearised_NS (res : R -> R -> R -> R) : Prop :=
  exists ux uy ut vx vy vt wx wy wt wxx wxy wxt wyx wyy wyt,
  partials pu ux uy ut /\ partials pv vx vy vt /\
  partials (fun x y t => vx x y t - uy x y t) wx wy wt /\ partials wx wxx wxy wxt /\ partials wy wyx wyy wyt /\
  forall x y t, ux x y t + vy x y t = 0 /\
    wt x y t + (1 - x ^ 2) * wy x y t + pu x y t * (- 2) - / Rey * (wxx x y t + wyy x y t) = res x y t.

(** For any function d 0 with derivatives d 1 .. d 4 the perturbation has no divergence, and w leaves the
    residual of the eigenvalue problem A phi = lam B phi of OrrSommerfeld_shen (with alfa = 1). *)
Theorem C80_OS_residual : linearised_NS (fun x y t =>
  - (eps / Rey) * mode (fun x => OS_A Rey 1 x (fun n => d n x) - lam * OS_B Rey 1 (fun n => d n x))%C x y t).
Proof.
  set (e := RtoC eps).
  set (au := fun x => (- (e * Ci) * d 0%nat x)%C). set (av := fun x => (e * d 1%nat x)%C).
  set (aw := fun x => (e * (d 2%nat x - d 0%nat x))%C).
  assert (Du : cderiv au (fun x => (- (e * Ci) * d 1%nat x)%C)) by (apply cderiv_scal, Hd; lia).
  assert (Dv : cderiv av (fun x => (e * d 2%nat x)%C)) by (apply cderiv_scal, Hd; lia).
  assert (Dw : cderiv aw (fun x => (e * (d 3%nat x - d 1%nat x))%C)) by (apply cderiv_scal, cderiv_sub; apply Hd; lia).
  assert (Dwx : cderiv (fun x => (e * (d 3%nat x - d 1%nat x))%C) (fun x => (e * (d 4%nat x - d 2%nat x))%C)) by (apply cderiv_scal, cderiv_sub; apply Hd; lia).
  assert (Eu : pu = mode au).
  { extensionality x; extensionality y; extensionality t. unfold pu, OS_point, mode, au, e. unfold Re.
    generalize (Cexp (Ci * (RtoC y - lam * RtoC t))) as E. intros [E1 E2]. destruct (d 0%nat x) as [p1 p2].
    unfold RtoC, Cmul, Copp, Ci. cbn [fst snd]. ring. }
  assert (Ev : pv = mode av).
  { extensionality x; extensionality y; extensionality t. unfold pv, OS_point, mode, av, e. unfold Re.
    generalize (Cexp (Ci * (RtoC y - lam * RtoC t))) as E. intros [E1 E2]. destruct (d 1%nat x) as [p1 p2].
    unfold RtoC, Cmul, Copp, Ci. cbn [fst snd]. ring. }
  unfold linearised_NS. rewrite Eu, Ev.
  do 15 eexists. split; [apply mode_partials, Du|]. split; [apply mode_partials, Dv|].
  split.
  { replace (fun x y t => mode (fun x => (e * d 2%nat x)%C) x y t - mode (fun x => (Ci * au x)%C) x y t) with (mode aw).
    - apply mode_partials, Dw.
    - extensionality x; extensionality y; extensionality t. unfold mode, au, aw, e, Re.
      generalize (Cexp (Ci * (RtoC y - lam * RtoC t))) as E. intros [E1 E2]. destruct (d 0%nat x) as [p1 p2], (d 2%nat x) as [q1 q2].
      unfold RtoC, Cmul, Csub, Cadd, Copp, Ci. cbn [fst snd]. ring. }
  split; [apply mode_partials, Dwx|]. split; [apply mode_partials, cderiv_scal, Dw|].
  intros x y t. split.
  - unfold mode, av, Re. generalize (Cexp (Ci * (RtoC y - lam * RtoC t))) as E. intros [E1 E2]. destruct (d 1%nat x) as [p1 p2].
    unfold e, RtoC, Cmul, Csub, Cadd, Copp, Ci. cbn [fst snd]. ring.
  - unfold mode, au, aw, Re. generalize (Cexp (Ci * (RtoC y - lam * RtoC t))) as E. intros [E1 E2].
    unfold OS_A, OS_B, e. generalize (d 0%nat x) (d 2%nat x) (d 4%nat x). intros [a1 a2] [b1 b2] [c1 c2]. destruct lam as [p q].
    unfold RtoC, Cmul, Csub, Cadd, Copp, Ci. cbn [fst snd]. field. exact HR.
Qed.
(** So for an eigenpair it is a solution. *)
Theorem C80_OS_solution :
  (forall x, OS_A Rey 1 x (fun n => d n x) = (lam * OS_B Rey 1 (fun n => d n x))%C) -> linearised_NS (fun _ _ _ => 0).
Proof.
  intros G. replace (fun _ _ _ : R => 0) with (fun x y t =>
    - (eps / Rey) * mode (fun x => OS_A Rey 1 x (fun n => d n x) - lam * OS_B Rey 1 (fun n => d n x))%C x y t).
  - apply C80_OS_residual.
  - extensionality x; extensionality y; extensionality t. unfold mode. rewrite G.
    unfold Re, Cmul, Csub, Cadd, Copp. cbn [fst snd]. ring.
Qed.
(** no slip when the eigenfunction and its derivative vanish at the wall (the space SB) *)
Theorem C80_OS_noslip x y t c : x = 1 \/ x = - 1 -> d 0%nat x = C0 -> d 1%nat x = C0 ->
  OS_point (d 0%nat x) (d 1%nat x) lam eps t x y c = 0.
Proof.
  intros Hx E0 E1. unfold OS_point. rewrite E0, E1.
  assert (Z : forall z, Re (C0 * z)%C = 0) by (intros; unfold Re, Cmul; cbn [C0 fst snd]; ring).
  assert (Z' : forall z, Re (Ci * C0 * z)%C = 0) by (intros; unfold Re, Cmul, Ci; cbn [C0 fst snd]; ring).
  destruct c; rewrite ?Z, ?Z'; [ring|destruct Hx as [-> | ->]; ring|reflexivity].
Qed.
End OS.
Print Assumptions C80_OS_residual.
Print Assumptions C80_OS_solution.
Print Assumptions C80_OS_noslip.

(** ** Laminar channel: the series of exact() *)
(** lambda_l = (2l+1) pi/2 and the partial sum of n terms *)
Definition lamk (l : nat) : R := (2 * INR l + 1) * PI / 2.
Definition lam_term (nu t x : R) (l : nat) : R :=
  (- 1) ^ S l * cos (lamk l * x) * exp (- nu * lamk l ^ 2 * t) / lamk l ^ 3.
Lemma lamk_pos l : 0 < lamk l.
Proof. unfold lamk. pose proof (pos_INR l). pose proof PI_RGT_0. nra. Qed.
Lemma m1_pow2 m : (- 1) ^ (2 * m) = 1.
Proof. rewrite pow_mult. replace ((-1) ^ 2) with 1 by ring. apply pow1. Qed.
Lemma seq_snoc m : seq 0 (S m) = (seq 0 m ++ m :: nil)%list.
Proof. rewrite seq_S. reflexivity. Qed.
Lemma Laminar_exact_sum nu Rey t m x :
  Laminar_exact nu Rey t m x = 4 / Rey / nu * Rsum (2 * m) (lam_term nu t x) + / Rey / nu * (1 - x ^ 2).
Proof.
  unfold Laminar_exact. cbv zeta.
  match goal with |- context [fold_left ?F _ _] => set (f := F) end.
  assert (E : fold_left f (odds m) 0 = Rsum (2 * m) (lam_term nu t x)).
  { unfold odds. induction m as [|m IH]; [reflexivity|].
    rewrite seq_snoc, map_app, fold_left_app, IH. replace (2 * S m)%nat with (S (S (2 * m))) by lia.
    cbn [map fold_left Rsum]. unfold f, lam_term.
    rewrite <- (tech_pow_Rmult (- 1) (S (2 * m))), <- !(tech_pow_Rmult (- 1) (2 * m)), m1_pow2.
    replace (lamk (S (2 * m))) with ((2 * (INR (2 * m + 1) + 1) - 1) * PI / 2)
      by (unfold lamk; rewrite S_INR, plus_INR; simpl (INR 1); field).
    replace (lamk (2 * m)) with ((2 * INR (2 * m + 1) - 1) * PI / 2)
      by (unfold lamk; rewrite plus_INR; simpl (INR 1); field).
    unfold Rdiv. ring. }
  rewrite E. unfold Rdiv. replace (2 * / Rey * / 2) with (/ Rey) by lra. ring.
Qed.
(** derivatives of a finite sum *)
Lemma der_sum n (f : nat -> R -> R) (f' : nat -> R) x : (forall l, derivable_pt_lim (f l) x (f' l)) ->
  derivable_pt_lim (fun s => Rsum n (fun l => f l s)) x (Rsum n f').
Proof.
  intros H. induction n as [|n IH]; [apply derivable_pt_lim_const|].
  apply (derivable_pt_lim_plus (fun s => Rsum n (fun l => f l s)) (f n)); [exact IH|apply H].
Qed.
Lemma der_lin a x : derivable_pt_lim (fun s => a * s) x a.
Proof. eapply der_ext; [| |apply (derivable_pt_lim_scal id a), derivable_pt_lim_id]; [reflexivity|ring]. Qed.
Lemma der_cosl a x : derivable_pt_lim (fun s => cos (a * s)) x (- sin (a * x) * a).
Proof. apply (derivable_pt_lim_comp (fun s => a * s) cos); [apply der_lin|apply derivable_pt_lim_cos]. Qed.
Lemma der_sinl a x : derivable_pt_lim (fun s => sin (a * s)) x (cos (a * x) * a).
Proof. apply (derivable_pt_lim_comp (fun s => a * s) sin); [apply der_lin|apply derivable_pt_lim_sin]. Qed.
Lemma der_expl a x : derivable_pt_lim (fun s => exp (a * s)) x (exp (a * x) * a).
Proof. apply (derivable_pt_lim_comp (fun s => a * s) exp); [apply der_lin|apply derivable_pt_lim_exp]. Qed.
Lemma der_scalar a f x l : derivable_pt_lim f x l -> derivable_pt_lim (fun s => a * f s) x (a * l).
Proof. apply (derivable_pt_lim_scal f a). Qed.
Lemma der_parab x : derivable_pt_lim (fun s => 1 - s ^ 2) x (- 2 * x).
Proof.
  eapply der_ext; [| |apply (derivable_pt_lim_minus (fun _ => 1) (fun s => s ^ 2)); [apply derivable_pt_lim_const|apply derivable_pt_lim_pow]];
  [reflexivity|simpl; ring].
Qed.

(** Whatever the number of terms, exact() is a solution of u_t = nu u_xx + 2/Re that vanishes at the walls. *)
Theorem C80_laminar_solution nu Rey m : nu <> 0 -> Rey <> 0 ->
  (forall t, Laminar_exact nu Rey t m 1 = 0 /\ Laminar_exact nu Rey t m (- 1) = 0) /\
  exists ux uxx ut : R -> R -> R, forall t x,
    derivable_pt_lim (fun s => Laminar_exact nu Rey t m s) x (ux t x) /\
    derivable_pt_lim (fun s => ux t s) x (uxx t x) /\
    derivable_pt_lim (fun s => Laminar_exact nu Rey s m x) t (ut t x) /\
    ut t x = nu * uxx t x + 2 / Rey.
Proof.
  intros Hn HR. split.
  - assert (Z : forall l, cos (lamk l) = 0).
    { intros l. unfold lamk. replace ((2 * INR l + 1) * PI / 2) with (PI / 2 + INR l * PI) by field.
      rewrite cos_plus, sin_nPI, cos_PI2. ring. }
    intros t. rewrite !Laminar_exact_sum. split; rewrite Rsum_0; try ring; intros l _; unfold lam_term.
    + rewrite Rmult_1_r, Z. unfold Rdiv. ring.
    + replace (lamk l * - 1) with (- lamk l) by ring. rewrite cos_neg, Z. unfold Rdiv. ring.
  - set (E := fun t l => (- 1) ^ S l * exp (- nu * lamk l ^ 2 * t) / lamk l ^ 3).
    exists (fun t x => 4 / Rey / nu * Rsum (2 * m) (fun l => E t l * (- sin (lamk l * x) * lamk l)) + / Rey / nu * (- 2 * x)).
    exists (fun t x => 4 / Rey / nu * Rsum (2 * m) (fun l => (- lamk l * E t l) * (cos (lamk l * x) * lamk l)) + / Rey / nu * (- 2)).
    exists (fun t x => 4 / Rey / nu * Rsum (2 * m) (fun l => ((- 1) ^ S l * cos (lamk l * x) / lamk l ^ 3) * (exp ((- nu * lamk l ^ 2) * t) * (- nu * lamk l ^ 2))) + 0).
    intros t x. repeat split.
    + eapply der_ext; [intros s; symmetry; apply Laminar_exact_sum|reflexivity|].
      apply (derivable_pt_lim_plus (fun s => 4 / Rey / nu * Rsum (2 * m) (lam_term nu t s)) (fun s => / Rey / nu * (1 - s ^ 2))).
      * apply der_scalar. apply (der_sum (2 * m) (fun l s => lam_term nu t s l)). intros l.
        eapply der_ext; [| |apply (der_scalar (E t l) (fun s => cos (lamk l * s))), der_cosl]; [|reflexivity].
        intros s. unfold lam_term, E, Rdiv. ring.
      * apply der_scalar, der_parab.
    + apply (derivable_pt_lim_plus (fun s => 4 / Rey / nu * Rsum (2 * m) (fun l => E t l * (- sin (lamk l * s) * lamk l))) (fun s => / Rey / nu * (- 2 * s))).
      * apply der_scalar. apply (der_sum (2 * m) (fun l s => E t l * (- sin (lamk l * s) * lamk l))). intros l.
        eapply der_ext; [| |apply (der_scalar (- lamk l * E t l) (fun s => sin (lamk l * s))), der_sinl]; [|reflexivity].
        intros s. cbn beta. ring.
      * apply der_scalar, der_lin.
    + eapply der_ext; [intros s; symmetry; apply Laminar_exact_sum|reflexivity|].
      apply (derivable_pt_lim_plus (fun s => 4 / Rey / nu * Rsum (2 * m) (lam_term nu s x)) (fun s => / Rey / nu * (1 - x ^ 2))); [|apply derivable_pt_lim_const].
      apply der_scalar. apply (der_sum (2 * m) (fun l s => lam_term nu s x l)). intros l.
      eapply der_ext; [| |apply (der_scalar ((- 1) ^ S l * cos (lamk l * x) / lamk l ^ 3) (fun s => exp ((- nu * lamk l ^ 2) * s))), der_expl]; [|reflexivity].
      intros s. unfold lam_term, Rdiv. ring.
    + set (S1 := Rsum (2 * m) (fun l => _ * (exp _ * _))). set (S2 := Rsum (2 * m) (fun l => (- lamk l * _) * _)).
      assert (Q : S1 = nu * S2).
      { unfold S1, S2. rewrite <- Rsum_scal. apply Rsum_ext. intros l _. unfold E, Rdiv. ring. }
      rewrite Q. field. auto.
Qed.
Print Assumptions C80_laminar_solution.

(** F is an antiderivative of f with total c over the channel *)
Definition channel_integral (f : R -> R) (c : R) : Prop :=
  exists F, (forall x, derivable_pt_lim F x (f x)) /\ F 1 - F (- 1) = c.
Lemma ci_sum n (f : nat -> R -> R) c : (forall l, (l < n)%nat -> channel_integral (f l) (c l)) ->
  channel_integral (fun x => Rsum n (fun l => f l x)) (Rsum n c).
Proof.
  induction n as [|n IH]; intros H.
  - exists (fun _ => 0). split; [intros; apply derivable_pt_lim_const|simpl; ring].
  - destruct IH as (F & DF & EF); [intros; apply H; lia|]. destruct (H n) as (G & DG & EG); [lia|].
    exists (fun x => F x + G x). split; [intros x; apply (derivable_pt_lim_plus F G); auto|simpl; lra].
Qed.
Lemma ci_scal a f c : channel_integral f c -> channel_integral (fun x => a * f x) (a * c).
Proof. intros (F & D & E). exists (fun x => a * F x). split; [intros; apply der_scalar, D|rewrite <- E; ring]. Qed.
Lemma ci_add f g c d : channel_integral f c -> channel_integral g d -> channel_integral (fun x => f x + g x) (c + d).
Proof.
  intros (F & DF & EF) (G & DG & EG). exists (fun x => F x + G x).
  split; [intros x; apply (derivable_pt_lim_plus F G); auto|lra].
Qed.
Lemma ci_ext f g c d : (forall x, f x = g x) -> c = d -> channel_integral f c -> channel_integral g d.
Proof. intros H <- (F & D & E). exists F. split; [intros x; rewrite <- H; apply D|exact E]. Qed.
Lemma sin_lam l : sin (lamk l) = (- 1) ^ l.
Proof.
  unfold lamk. replace ((2 * INR l + 1) * PI / 2) with (PI / 2 + INR l * PI) by field.
  rewrite sin_plus, sin_nPI, cos_nPI, sin_PI2, cos_PI2. ring.
Qed.
Lemma cos_lam l : cos (lamk l) = 0.
Proof.
  unfold lamk. replace ((2 * INR l + 1) * PI / 2) with (PI / 2 + INR l * PI) by field.
  rewrite cos_plus, sin_nPI, cos_PI2. ring.
Qed.
Lemma ci_cos a : a <> 0 -> channel_integral (fun x => cos (a * x)) (2 * sin a / a).
Proof.
  intros Ha. exists (fun x => / a * sin (a * x)). split.
  - intros x. eapply der_ext; [reflexivity| |apply der_scalar, der_sinl]. field. exact Ha.
  - replace (a * - 1) with (- a) by ring. rewrite sin_neg, Rmult_1_r. field. exact Ha.
Qed.
Lemma ci_parab l : channel_integral (fun x => (1 - x ^ 2) * cos (lamk l * x)) (4 * (- 1) ^ l / lamk l ^ 3).
Proof.
  pose proof (lamk_pos l) as P. set (a := lamk l) in *.
  exists (fun x => / a * ((1 - x ^ 2) * sin (a * x)) + ((- 2 / a ^ 2) * (x * cos (a * x)) + (2 / a ^ 3) * sin (a * x))). split.
  - intros x.
    eapply der_ext; [reflexivity| |
      apply (derivable_pt_lim_plus (fun x => / a * ((1 - x ^ 2) * sin (a * x))) (fun x => (- 2 / a ^ 2) * (x * cos (a * x)) + (2 / a ^ 3) * sin (a * x)));
      [apply der_scalar, (derivable_pt_lim_mult (fun x => 1 - x ^ 2) (fun x => sin (a * x))); [apply der_parab|apply der_sinl]
      |apply (derivable_pt_lim_plus (fun x => (- 2 / a ^ 2) * (x * cos (a * x))) (fun x => (2 / a ^ 3) * sin (a * x)));
       [apply der_scalar, (derivable_pt_lim_mult id (fun x => cos (a * x))); [apply derivable_pt_lim_id|apply der_cosl]
       |apply der_scalar, der_sinl]]].
    unfold id. field. lra.
  - replace (a * - 1) with (- a) by ring. rewrite sin_neg, cos_neg, Rmult_1_r.
    unfold a. rewrite sin_lam, cos_lam. fold a. field. lra.
Qed.
Lemma ci_orth l j : channel_integral (fun x => cos (lamk l * x) * cos (lamk j * x)) (if (l =? j)%nat then 1 else 0).
Proof.
  assert (Hp : lamk l + lamk j = INR (l + j + 1) * PI) by (unfold lamk; rewrite !plus_INR; simpl (INR 1); field).
  pose proof (lamk_pos l) as P1. pose proof (lamk_pos j) as P2.
  assert (A : channel_integral (fun x => cos ((lamk l + lamk j) * x)) 0).
  { eapply ci_ext; [reflexivity| |apply ci_cos; lra]. rewrite Hp, sin_nPI. unfold Rdiv. ring. }
  destruct (l =? j)%nat eqn:E.
  - apply Nat.eqb_eq in E. subst j.
    eapply ci_ext; [| |apply (ci_add _ _ _ _ (ci_scal (/ 2) _ _ A) (ci_scal (/ 2) (fun _ => 1) 2 ltac:(exists (fun x => 1 * x); split; [intros; apply der_lin|ring])))]; [|field].
    intros x. simpl. replace ((lamk l + lamk l) * x) with (lamk l * x + lamk l * x) by ring.
    rewrite cos_plus. pose proof (sin2_cos2 (lamk l * x)) as S. unfold Rsqr in S. lra.
  - apply Nat.eqb_neq in E.
    assert (Hm : lamk l - lamk j = INR l * PI - INR j * PI) by (unfold lamk; field).
    assert (N : lamk l - lamk j <> 0).
    { rewrite Hm. intros Z. apply E, INR_eq. apply (Rmult_eq_reg_r PI); [lra|]. pose proof PI_RGT_0; lra. }
    assert (B : channel_integral (fun x => cos ((lamk l - lamk j) * x)) 0).
    { eapply ci_ext; [reflexivity| |apply ci_cos; exact N]. rewrite Hm at 1. rewrite sin_minus, !sin_nPI. unfold Rdiv. ring. }
    eapply ci_ext; [| |apply (ci_add _ _ _ _ (ci_scal (/ 2) _ _ A) (ci_scal (/ 2) _ _ B))]; [|field].
    intros x. simpl. replace ((lamk l + lamk j) * x) with (lamk l * x + lamk j * x) by ring.
    replace ((lamk l - lamk j) * x) with (lamk l * x - lamk j * x) by ring. rewrite cos_plus, cos_minus. lra.
Qed.
(** At t = 0 it is the fluid at rest, up to the modes left out: its component along each of the 2 num_terms
    modes of the series is zero. *)
Theorem C80_laminar_rest nu Rey m j : nu <> 0 -> Rey <> 0 -> (j < 2 * m)%nat ->
  channel_integral (fun x => Laminar_exact nu Rey 0 m x * cos ((2 * INR j + 1) * PI / 2 * x)) 0.
Proof.
  intros Hn HR Hj. change ((2 * INR j + 1) * PI / 2) with (lamk j). pose proof (lamk_pos j) as P.
  eapply ci_ext; [| |
    apply (ci_add _ _ _ _ (ci_scal (4 / Rey / nu) _ _ (ci_sum (2 * m) _ _
             (fun l _ => ci_scal ((- 1) ^ S l / lamk l ^ 3) _ _ (ci_orth l j)))) (ci_scal (/ Rey / nu) _ _ (ci_parab j)))].
  - intros x. cbn beta. rewrite Laminar_exact_sum, Rmult_plus_distr_r, Rmult_assoc, <- Rsum_scal_r.
    f_equal; [f_equal; apply Rsum_ext; intros l _|ring].
    unfold lam_term. rewrite Rmult_0_r, exp_0. unfold Rdiv. ring.
  - rewrite (Rsum_ext _ _ (fun l => if (l =? j)%nat then (- 1) ^ S j / lamk j ^ 3 else 0)).
    + assert (Q : forall n c, (j < n)%nat -> Rsum n (fun l => if (l =? j)%nat then c else 0) = c).
      { induction n as [|n IH]; intros c H; [lia|]. simpl. destruct (Nat.eqb_spec n j).
        - subst. rewrite Rsum_0; [ring|]. intros i Hi. destruct (Nat.eqb_spec i j); [lia|reflexivity].
        - rewrite IH by lia. ring. }
      rewrite Q by exact Hj. simpl. field. repeat split; try assumption; lra.
    + intros l _. destruct (Nat.eqb_spec l j); [subst; ring|ring].
Qed.
Print Assumptions C80_laminar_rest.

(** reference() is exact() at the centre line for nu = 1/Re, with twice the terms *)
Theorem C80_laminar_reference Rey t m : Rey <> 0 ->
  Laminar_reference Rey t (2 * m) = Laminar_exact (/ Rey) Rey t m 0.
Proof.
  intros HR. rewrite Laminar_exact_sum. unfold Laminar_reference.
  match goal with |- context [fold_left ?F _ _] => set (f := F) end.
  assert (E : forall n, fold_left f (odds n) (1, 1) = (1 + 4 * Rsum n (lam_term (/ Rey) t 0), (- 1) ^ n)).
  { intros n. unfold odds. induction n as [|n IH]; [simpl; f_equal; ring|].
    rewrite seq_snoc, map_app, fold_left_app, IH. cbn [map fold_left Rsum]. unfold f. cbn [fst snd pow].
    f_equal; [|ring]. unfold lam_term. rewrite Rmult_0_r, cos_0.
    replace (lamk n) with (INR (2 * n + 1) * PI / 2) by (unfold lamk; rewrite plus_INR, mult_INR; simpl (INR 1); simpl (INR 2); field).
    assert (N : INR (2 * n + 1) <> 0) by (apply not_0_INR; lia). pose proof PI_neq0 as HP.
    set (q := INR (2 * n + 1)) in *.
    replace (- / Rey * (q * PI / 2) ^ 2 * t) with (- (0.25 / Rey * PI ^ 2 * q ^ 2) * t)
      by (replace 0.25 with (/ 4) by lra; field; exact HR).
    cbn [pow]. field. auto. }
  rewrite E. cbn [fst]. field. exact HR.
Qed.
Print Assumptions C80_laminar_reference.

(** ** Laminar channel: the run of KMM *)
Section LaminarRun.
Context (cn c1 c2 : ax3) (Hn1 : cn <> c1) (Hn2 : cn <> c2) (H12 : c1 <> c2).
Context (K1 K2 Kx1 Kx2 : nat -> R) (root : bool) (mt : mats) (sv : solvers).
Context (nu dt : R) (mask : option (nat -> nat -> R)) (conv : vfld -> fld -> vfld) (Sk : vfld) (nd nb : nat).
Context (Hnu : nu <> 0) (Hdt : dt <> 0).
Context (HADD : linear (ADD mt)) (HBDD : linear (BDD mt)) (HCDB : linear (CDB mt)) (HBBD : linear (BBD mt))
  (HCBD : linear (CBD mt)) (HSBB : linear (SBB mt)) (HABB : linear (ABB mt)) (HBBB : linear (BBB mt))
  (HADD0 : linear (ADD0 mt)) (HBDD0 : linear (BDD0 mt)) (HT : solves nd (BDD mt) (TDMA sv (BDD mt))).
Context (HK : root = true -> K1 0%nat = 0 /\ K2 0%nat = 0 /\ Kx1 0%nat = 0 /\ Kx2 0%nat = 0).
Context (Hs : kmm_solvers_ok K1 K2 mt sv nu dt nd nb).
Notation step' := (step cn c1 c2 K1 K2 Kx1 Kx2 root mt sv nu dt mask conv Sk).
Notation integrate' := (integrate cn c1 c2 K1 K2 Kx1 Kx2 root mt sv nu dt mask conv Sk).
Notation mean' := (mean_only root).

(** streamwise velocity only, in the mean mode only *)
Definition unidirectional (U : vfld) (gh : fld) : Prop :=
  (forall j k i, U cn j k i = C0) /\ (forall j k i, U c2 j k i = C0) /\ mean' (U c1) /\ forall j k i, gh j k i = C0.
(** convection of such a flow has no wall parallel component and only a mean mode: u x w of (0, u(x), 0) *)
Definition no_convection (N : vfld) : Prop :=
  (forall c, mean' (N c)) /\ (root = true -> forall i, N c1 0%nat 0%nat i = C0 /\ N c2 0%nat 0%nat i = C0).
Context (Hconv : forall U gh, unidirectional U gh -> no_convection (conv U gh)).

Lemma laminar_1 (s : kst) : unidirectional (U_hat s) (g s) -> (forall j k i, U_hat0 s c2 j k i = C0) -> no_convection (H_hat1 s) ->
  unidirectional (U_hat (integrate' s)) (g (integrate' s)) /\
  (root = true -> crank_nicolson nd (BDD0 mt) (visc nu 0 (ADD0 mt) (BDD0 mt)) dt
     (fun i => (- Sk c1 0%nat 0%nat i)%C) (U_hat0 s c1 0%nat 0%nat) (U_hat (integrate' s) c1 0%nat 0%nat)).
Proof.
  intros P E0 E1. pose proof (Hconv _ _ P) as (M & Mz). destruct P as (P1 & P2 & P3 & P4). destruct E1 as (M' & Mz').
  destruct Hs as (HG & HU & H0).
  set (N := mask_vfld mask (assembleAB (conv (U_hat s) (g s)) (H_hat1 s))).
  assert (Nz : forall c j k i, conv (U_hat s) (g s) c j k i = C0 -> H_hat1 s c j k i = C0 -> N c j k i = C0).
  { intros c j k i A B. unfold N. rewrite extrap_eq. unfold extrap. rewrite A, B. ring. }
  assert (MN : forall c, mean' (N c)) by (intros c j k H i; apply Nz; [apply M|apply M']; exact H).
  assert (EU : forall j k, BiharmonicSolverU K1 K2 mt sv nu dt j k
     (cadd (rsc dt (hv_of cn c1 c2 K1 K2 Kx1 Kx2 mt N j k)) (AC K1 K2 mt nu dt j k (U_hat s cn j k))) = czero).
  { intros j k. refine (solve_zero nb _ _ _ (HU j k) _ _); [apply comb3_lin; assumption|].
    intros i. unfold cadd at 1, rsc at 1.
    rewrite (hv_zero cn c1 c2 K1 K2 Kx1 Kx2 root mt conv Sk HBBD HCBD HK N MN).
    unfold AC, BiharmonicCoeff, cadd, rsc. rewrite (fun0 _ (P1 j k)).
    rewrite (lin_0 _ HSBB), (lin_0 _ HABB), (lin_0 _ HBBB). ring. }
  assert (EG : forall j k, HelmholtzSolverG K1 K2 mt sv nu dt j k
     (cadd (rsc (2 / nu) (hg_of c1 c2 Kx1 Kx2 mt N j k)) (AB K1 K2 mt nu dt j k (g s j k))) = czero).
  { intros j k. refine (solve_zero nd _ _ _ (HG j k) _ _); [apply comb2_lin; assumption|].
    intros i. unfold cadd at 1, rsc at 1. rewrite (hg_zero c1 c2 K1 K2 Kx1 Kx2 root mt conv Sk HBDD HK N MN).
    unfold AB, HelmholtzCoeff, cadd, rsc. rewrite (fun0 _ (P4 j k)).
    rewrite (lin_0 _ HADD), (lin_0 _ HBDD). ring. }
  split.
  - unfold integrate, ComputeRHS, solve_linear. cbv zeta. simpl. fold N.
    set (v := compute_vw _ _ _ _ _ _ _).
    assert (Vn : forall j k, v cn j k = czero).
    { intros j k. unfold v, compute_vw. rewrite !upd_other by congruence. rewrite upd_same. apply EU. }
    assert (Vc : forall c j k, c = c1 \/ c = c2 -> v c j k = czero).
    { intros c j k Hc. extensionality i. unfold v. apply vw_zero; [assumption| | |exact Hc].
      - intros j' k' i'. rewrite upd_same. rewrite EU. rewrite (tdma_zero mt sv nd HBDD HCDB HT); reflexivity.
      - intros j' k' i'. rewrite EG. reflexivity. }
    split; [|split; [|split]].
    + intros j k i. destruct root eqn:R; [rewrite mean3_cn by assumption; destruct ((j =? 0) && (k =? 0))%nat; [reflexivity|]|]; rewrite Vn; reflexivity.
    + intros j k i. destruct root eqn:R; [rewrite mean3_c2 by assumption; destruct ((j =? 0) && (k =? 0))%nat; [|rewrite Vc by auto; reflexivity]|rewrite Vc by auto; reflexivity].
      assert (Z : mean_solve mt sv nu dt (N c2 0%nat 0%nat) (U_hat0 s c2 0%nat 0%nat) None = czero).
      { unfold mean_solve, HelmholtzSolverU0. cbv zeta. refine (solve_zero nd _ _ _ H0 _ _); [apply comb2_lin; assumption|].
        intros l. rewrite (fun0 (N c2 0%nat 0%nat)) by (intros l'; apply Nz; [apply (Mz eq_refl)|apply (Mz' eq_refl)]).
        rewrite (fun0 (U_hat0 s c2 0%nat 0%nat)) by apply E0.
        unfold cadd, csub, rsc. rewrite ?(lin_scal _ HBDD0), ?(lin_0 _ HBDD0), ?(lin_0 _ HADD0). ring. }
      rewrite Z. reflexivity.
    + intros j k H i. destruct root eqn:R; [rewrite mean3_c1 by assumption; destruct ((j =? 0) && (k =? 0))%nat eqn:Eb|]; [| |rewrite Vc by auto; reflexivity].
      * apply at00 in Eb. destruct Eb. exfalso. apply H. auto.
      * rewrite Vc by auto. reflexivity.
    + intros j k i. rewrite EG. reflexivity.
  - intros R.
    pose proof (kmm_crank_nicolson cn c1 c2 Hn1 Hn2 H12 K1 K2 Kx1 Kx2 root mt sv nu dt mask conv Sk nd nb s Hnu Hdt Hs HBDD0) as T.
    cbv zeta in T. destruct T as (_ & _ & T). destruct (T R) as (T1 & _).
    intros i Hi. rewrite (T1 i Hi). f_equal.
    rewrite <- (extrap_eq). fold N.
    rewrite (fun0 (N c1 0%nat 0%nat)) by (intros l'; apply Nz; [apply (Mz R)|apply (Mz' R)]).
    rewrite (lin_0 _ HBDD0). ring.
Qed.

(** From the fluid at rest of initialize(), whatever velocity the context held before, for every number of steps: the flow stays unidirectional, and its mean
    streamwise column is advanced by Crank-Nicolson for u_t = nu u_xx - Sk, from zero. *)
Theorem C79_laminar_run (W : vfld) (n : nat) :
  let s n := Nat.iter n step' (Laminar_initialize (mkK W (g fresh) (H_hat fresh) (H_hat0 fresh) (H_hat1 fresh) (U_hat0 fresh))) in
  unidirectional (U_hat (s n)) (g (s n)) /\ (forall i, U_hat (s 0%nat) c1 0%nat 0%nat i = C0) /\
  (root = true -> crank_nicolson nd (BDD0 mt) (visc nu 0 (ADD0 mt) (BDD0 mt)) dt
     (fun i => (- Sk c1 0%nat 0%nat i)%C) (U_hat (s n) c1 0%nat 0%nat) (U_hat (s (S n)) c1 0%nat 0%nat)).
Proof.
  intros s.
  assert (I : forall n, unidirectional (U_hat (s n)) (g (s n)) /\ U_hat0 (s n) = U_hat (s n) /\ no_convection (H_hat1 (s n))).
  { clear n. induction n as [|n (I1 & I2 & I3)].
    - split; [|split; [reflexivity|]]; repeat split; intros; reflexivity.
    - change (s (S n)) with (step' (s n)). destruct (laminar_1 (s n)) as (J1 & _); [exact I1|rewrite I2; apply I1|exact I3|].
      unfold step, end_of_tstep. cbn [U_hat g H_hat H_hat1 U_hat0]. split; [exact J1|]. split; [reflexivity|].
      apply Hconv. exact I1. }
  destruct (I n) as (I1 & I2 & I3).
  split; [exact I1|]. split; [reflexivity|]. intros R.
  destruct (laminar_1 (s n)) as (_ & J); [exact I1|rewrite I2; apply I1|exact I3|].
  specialize (J R). rewrite I2 in J. exact J.
Qed.
End LaminarRun.
Print Assumptions C79_laminar_run.

(** the velocity of initialize() is zero for any context, the other arrays are kept *)
Theorem C79_laminar_start (c : kst) :
  (forall i j k l, U_hat (Laminar_initialize c) i j k l = C0) /\ g (Laminar_initialize c) = g c /\
  H_hat1 (Laminar_initialize c) = H_hat1 c /\ U_hat0 (Laminar_initialize c) = U_hat0 c.
Proof. repeat split. Qed.
Print Assumptions C79_laminar_start.

(** The hypothesis on the convection holds for KMM's own, in the form of the demo ('Vortex'). *)
Section LaminarConv.
Context (N : ax2 -> nat) (tr : nat * nat -> R) (HN : forall i, (0 < N i)%nat) (Ho : only_modes (modes2 N) tr).
Context (K1 K2 : nat -> R) (nx : nat) (Hnx : (4 <= nx)%nat).
(** wall normal parts of the transforms of FST, FSB and FCT; the last reads the nx entries of its argument *)
Context (fT bT bB bC : col -> col) (HfT : linear fT) (HbT : linear bT) (HbB : linear bB) (HbC : linear bC).
Context (HbCn : forall f h, (forall i, (i < nx)%nat -> f i = h i) -> bC f = bC h).
Definition bk (b : col -> col) (f : fld) (p : nat * (nat * nat)) : R := bwd N tr b f (fst p) (snd p).
Definition fk (q : nat * (nat * nat) -> R) : fld := fwd N tr fT (fun i x => q (i, x)).
Definition bkU (c : ax3) : fld -> nat * (nat * nat) -> R := match c with x0 => bk bB | _ => bk bT end.
Definition uniform (q : nat * (nat * nat) -> R) : Prop := forall i x y, q (i, x) = q (i, y).
Notation mean' := (mean_only true).

Lemma mean_no (f : fld) : mean' f -> no_y N f /\ no_z f.
Proof.
  intros H. split; intros j k i Hj; apply H; intros (_ & -> & ->); apply Hj; [|reflexivity].
  destruct (N a0) as [|[|n]]; reflexivity.
Qed.
Lemma bk_uniform b f : linear b -> mean' f -> uniform (bk b f).
Proof.
  intros Hb H i [a c] [a' c']. destruct (mean_no f H) as [Y Z]. unfold bk. cbn [fst snd].
  rewrite (bwd_no_y N tr b Hb f Y i a a' c). apply (bwd_no_z N tr b Hb f Z).
Qed.
Lemma bk_zero b f p : linear b -> (forall j k i, f j k i = C0) -> bk b f p = 0.
Proof. intros Hb H. apply (bwd_zero N tr b Hb). exact H. Qed.
Lemma fk_mean q : uniform q -> mean' (fk q).
Proof.
  intros H j k Hjk i. destruct (Z.eq_dec (freq (N a0) j) 0) as [E|E].
  - destruct (Nat.eq_dec k 0) as [Ek|Ek].
    + apply (fwd_zero_mode N tr fT HfT). intros l. unfold rfft2. rewrite (Ho (j, k)).
      * unfold Rdiv. rewrite Rmult_0_l, RtoC_0. ring.
      * intros Hin. apply Hjk. split; [reflexivity|]. split; [|exact Ek].
        unfold modes2 in Hin. apply in_prod_iff in Hin. destruct Hin as [Hin _]. apply in_seq in Hin.
        unfold freq in E. destruct (2 * j <? N a0)%nat; lia.
    + apply (fwd_no_z N tr HN Ho fT HfT); [|exact Ek]. intros; apply H.
  - apply (fwd_no_y N tr HN Ho fT HfT); [|exact E]. intros; apply H.
Qed.
Lemma fk_zero q : (forall p, q p = 0) -> forall j k i, fk q j k i = C0.
Proof.
  intros H j k i. unfold fk. apply (fwd_zero_mode N tr fT HfT). intros l.
  replace (fun x => q (l, x)) with (fun _ : nat * nat => 0) by (extensionality x; symmetry; apply H). apply rfft2_zero.
Qed.
(** Mult_CTD of a mean only and of a zero array, up to entries that bC does not read *)
Definition cut (f : fld) : fld := fun j k i => if (i <? nx)%nat then f j k i else C0.
Lemma bk_cut f : bk bC f = bk bC (cut f).
Proof.
  extensionality p. unfold bk, bwd. f_equal. extensionality q.
  rewrite (HbCn (f (fst q) (snd q)) (cut f (fst q) (snd q))); [reflexivity|]. intros i Hi. unfold cut.
  destruct (Nat.ltb_spec i nx); [reflexivity|lia].
Qed.
Lemma ctd_mean v w bv bw : mean' v -> (forall j k i, w j k i = C0) ->
  mean' (cut (fst (Mult_CTD_cols nx v w bv bw))) /\ (forall j k i, cut (snd (Mult_CTD_cols nx v w bv bw)) j k i = C0).
Proof.
  intros Hv Hw. split; [intros j k Hjk i|intros j k i]; unfold cut; destruct (Nat.ltb_spec i nx) as [Hi|Hi]; try reflexivity;
  unfold Mult_CTD_cols; cbn [fst snd].
  - rewrite (proj1 (ctd_col1 nx (v j k) (w j k) (bv j k) (bw j k) Hnx i Hi)). apply dcoef_0. intros q _. apply Hv. exact Hjk.
  - rewrite (proj2 (ctd_col1 nx (v j k) (w j k) (bv j k) (bw j k) Hnx i Hi)). apply dcoef_0. intros q _. apply Hw.
Qed.

Theorem C79_laminar_convection b_dy dxU dxdiv F_tmp c Uc conv rhs U gh :
  getConvection K1 K2 fk bkU b_dy dxU dxdiv Vortex (compute_curl nx K1 K2 (bk bT) (bk bB) (bk bC) F_tmp c) Uc = Some conv ->
  unidirectional x0 x1 x2 true U gh -> no_convection x1 x2 true (conv rhs U gh).
Proof.
  intros E (P0 & P2 & P1 & Pg). injection E as <-.
  set (w := compute_curl _ _ _ _ _ _ _ _ _ _).
  assert (V0 : forall p, vback bkU U x0 p = 0) by (intros; apply bk_zero; [exact HbB|exact P0]).
  assert (V2 : forall p, vback bkU U x2 p = 0) by (intros; apply bk_zero; [exact HbT|exact P2]).
  assert (V1 : uniform (vback bkU U x1)) by (apply bk_uniform; [exact HbT|exact P1]).
  destruct (ctd_mean (U x1) (U x2) (F_tmp x1) (F_tmp x2) P1 P2) as [C1' C2'].
  assert (W0 : forall p, w x0 p = 0) by (intros; apply bk_zero; [exact HbT|exact Pg]).
  assert (W2 : uniform (w x2)).
  { unfold w, compute_curl. rewrite upd_same. intros i x y. unfold padd. f_equal.
    - rewrite upd_same. rewrite !bk_zero; auto; intros; unfold mult_K1j, fmul, csc; cbn [snd]; rewrite P0; ring.
    - rewrite bk_cut. apply bk_uniform; [exact HbC|exact C1']. }
  assert (Z1 : forall j k i, Cross fk Uc rhs (vback bkU U) w x1 j k i = C0).
  { intros. unfold Cross. cbv zeta. rewrite upd_other by discriminate. rewrite upd_same. apply fk_zero. intros p.
    unfold cross1. cbv zeta. rewrite upd_other by discriminate. rewrite upd_same. rewrite V0, V2. ring. }
  assert (Z2 : forall j k i, Cross fk Uc rhs (vback bkU U) w x2 j k i = C0).
  { intros. unfold Cross. cbv zeta. rewrite upd_same. apply fk_zero. intros p.
    unfold cross1. cbv zeta. rewrite upd_same. rewrite V0, W0. ring. }
  split.
  - intros d. destruct d; [|intros j k _ i; apply Z1|intros j k _ i; apply Z2].
    unfold Cross. cbv zeta. rewrite !upd_other by discriminate. rewrite upd_same. apply fk_mean. intros i x y.
    unfold cross1. cbv zeta. rewrite !upd_other by discriminate. rewrite upd_same. rewrite !V2, (V1 i x y), (W2 i x y). ring.
  - intros _ i. split; [apply Z1|apply Z2].
Qed.
End LaminarConv.
Print Assumptions C79_laminar_convection.

(** ** Examples *)
(** (1 - x^2)^2 and its derivatives: no slip at both walls; it is no eigenfunction, the residual at the
    centre line, Re = 1, lam = 0, is not zero *)
Definition d_ex (n : nat) (x : R) : C :=
  match n with
  | 0 => RtoC ((1 - x ^ 2) ^ 2) | 1 => RtoC (- 4 * x + 4 * x ^ 3) | 2 => RtoC (- 4 + 12 * x ^ 2)
  | 3 => RtoC (24 * x) | _ => RtoC 24 end%nat.
Example OS_derivatives n : (n < 4)%nat -> cderiv (d_ex n) (d_ex (S n)).
Proof.
  intros Hn x.
  assert (P : forall k c, derivable_pt_lim (fun s => c * s ^ k) x (c * (INR k * x ^ pred k))).
  { intros k c. apply der_scalar. apply derivable_pt_lim_pow. }
  destruct n as [|[|[|[|n]]]]; [..|lia]; (split; [|apply derivable_pt_lim_const]); unfold d_ex, RtoC; cbn [fst].
  - eapply der_ext; [| |apply (derivable_pt_lim_plus (fun s => 1 * s ^ 4) (fun s => 1 + (-2) * s ^ 2)); [apply P|
      apply (derivable_pt_lim_plus (fun _ => 1) (fun s => (-2) * s ^ 2)); [apply derivable_pt_lim_const|apply P]]];
    [intros s; cbn beta; unfold plus_fct; ring|simpl; ring].
  - eapply der_ext; [| |apply (derivable_pt_lim_plus (fun s => (-4) * s ^ 1) (fun s => 4 * s ^ 3)); apply P];
    [intros s; unfold plus_fct; ring|simpl; ring].
  - eapply der_ext; [| |apply (derivable_pt_lim_plus (fun _ => -4) (fun s => 12 * s ^ 2)); [apply derivable_pt_lim_const|apply P]];
    [intros s; unfold plus_fct; ring|simpl; ring].
  - apply der_lin.
Qed.
Example OS_walls : d_ex 0 1 = C0 /\ d_ex 1 1 = C0 /\ d_ex 0 (-1) = C0 /\ d_ex 1 (-1) = C0.
Proof. repeat split; apply C_eq; unfold d_ex, RtoC, C0; cbn [fst snd]; ring. Qed.
Example OS_residual_nonzero : (OS_A 1 1 0 (fun n => d_ex n 0) - C0 * OS_B 1 1 (fun n => d_ex n 0))%C = (33, 3).
Proof.
  apply C_eq; unfold OS_A, OS_B, d_ex, RtoC, Cmul, Csub, Cadd, Copp, Ci, C0; cbn [fst snd]; ring.
Qed.
(** one pair of terms at the centre line *)
Example laminar_value : Laminar_exact 1 2 0 1 0 = 1 / 2 - 16 / PI ^ 3 + 16 / 27 / PI ^ 3.
Proof.
  unfold Laminar_exact, odds. cbn [seq map fold_left]. cbv zeta. rewrite !Rmult_0_r, exp_0, cos_0.
  simpl INR. field. apply PI_neq0.
Qed.
(** the concrete solver of ChannelEx, with a wall normal convection u^2 of the mean mode: after one step the
    flow has started, against the sign of Sk *)
Definition conv2 : vfld -> fld -> vfld := fun U _ c j k i =>
  match c with x0 => if ((j =? 0) && (k =? 0))%nat then (U x1 0%nat 0%nat i * U x1 0%nat 0%nat i)%C else C0 | _ => C0 end.
Lemma conv2_ok U gh : unidirectional x0 x1 x2 true U gh -> no_convection x1 x2 true (conv2 U gh).
Proof.
  intros _. split.
  - intros c j k H i. destruct c; cbn [conv2]; try reflexivity.
    destruct ((j =? 0) && (k =? 0))%nat eqn:E; [|reflexivity]. apply at00 in E. exfalso. apply H. tauto.
  - intros _ i. split; reflexivity.
Qed.
Example laminar_example (n : nat) :
  let s n := Nat.iter n (step x0 x1 x2 INR INR INR INR true mt0 sv0 nu0 1 None conv2 Sk0) (Laminar_initialize fresh) in
  unidirectional x0 x1 x2 true (U_hat (s n)) (g (s n)) /\ U_hat (s 1%nat) x1 0%nat 0%nat 0%nat = RtoC (- 4 / 5).
Proof.
  intros s.
  destruct (C79_laminar_run x0 x1 x2 ltac:(discriminate) ltac:(discriminate) ltac:(discriminate)
     INR INR INR INR true mt0 sv0 nu0 1 None conv2 Sk0 n3 n3
     ltac:(unfold nu0; lra) ltac:(lra) (dg_linear _) (dg_linear _) CDB_linear (dg_linear _) (dg_linear _)
     (dg_linear _) (dg_linear _) (dg_linear _) (dg_linear _) (dg_linear _) channel_mass_solver_exists
     ltac:(simpl; auto) channel_solvers_exist conv2_ok (U_hat fresh) n) as (A & _ & _).
  split; [exact A|].
  unfold s. cbn. unfold mean_solve, HelmholtzSolverU0, cadd, csub, rsc. cbn.
  apply C_eq; unfold dg, diag, dsolve, unit; cbn; unfold nu0, dA, dB; unfold assembleAB, conv2, czero, csub, rsc, RtoC, Cmul, Csub, Cadd, Copp, C0, C1; cbn [fst snd INR]; field.
Qed.
