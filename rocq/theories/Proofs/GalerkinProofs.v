From Coq Require Import Reals List Bool Arith Lia Lra FunctionalExtensionality.
From Verif Require Import Base.Cplx Base.Sums Base.Fin Model.KMM Model.ChannelAccess
  Spec.Chebyshev Spec.Channel Spec.ChannelField Spec.Coupled Spec.Galerkin
  Proofs.ChebyshevProofs Proofs.KMMProofs Proofs.CoupledProofs Proofs.PressureProofs.
Open Scope R_scope.

(** ** Chebyshev coefficients of a series in a basis *)
Definition is_coef (N n : nat) (b : nat -> R -> R) (e : nat -> nat -> R) : Prop :=
  forall k x, (k < n)%nat -> b k x = Rsum N (fun i => e k i * T i x).
Definition coefs (n : nat) (e : nat -> nat -> R) (u : col) : col := fun i => Csum n (fun k => (RtoC (e k i) * u k)%C).

Lemma Csum_RtoC n f : Csum n (fun k => RtoC (f k)) = RtoC (Rsum n f).
Proof. induction n as [|n IH]; [reflexivity|]. simpl. rewrite IH, <- RtoC_add. reflexivity. Qed.
Lemma coefs_cheb N n b e u x : is_coef N n b e -> series n b u x = cheb N (coefs n e u) x.
Proof.
  intros He. unfold series, cheb, coefs.
  transitivity (Csum N (fun i => Csum n (fun k => (u k * RtoC (e k i * T i x))%C))).
  - rewrite Csum_swap. apply Csum_ext. intros k Hk. rewrite (He k x Hk), <- Csum_RtoC, <- Csum_scal. reflexivity.
  - apply Csum_ext. intros i _. rewrite <- Csum_scal_r. apply Csum_ext. intros k _. rewrite RtoC_mul. ring.
Qed.

Definition dl (a i : nat) : R := if (i =? a)%nat then 1 else 0.
Lemma dl_sum N a x : (a < N)%nat -> Rsum N (fun i => dl a i * T i x) = T a x.
Proof.
  intros H. transitivity (Rsum N (fun i => if (i =? a)%nat then T i x else 0)).
  - apply Rsum_ext. intros i _. unfold dl. destruct (i =? a)%nat; ring.
  - rewrite Rsum_delta. destruct (Nat.ltb_spec a N); [reflexivity|lia].
Qed.
Definition e_phi (k i : nat) : R := dl k i - dl (k + 2) i.
Definition e_psi (k i : nat) : R :=
  dl k i - 2 * (INR k + 2) / (INR k + 3) * dl (k + 2) i + (INR k + 1) / (INR k + 3) * dl (k + 4) i.
Lemma phi_coef N : is_coef N (N - 2) phi e_phi.
Proof.
  intros k x Hk. unfold phi, e_phi. rewrite <- (dl_sum N k x), <- (dl_sum N (k + 2) x) by lia.
  rewrite <- Rsum_sub. apply Rsum_ext. intros i _. ring.
Qed.
Lemma psi_coef N : is_coef N (N - 4) psi e_psi.
Proof.
  intros k x Hk. unfold psi, e_psi. rewrite <- (dl_sum N k x), <- (dl_sum N (k + 2) x), <- (dl_sum N (k + 4) x) by lia.
  rewrite <- !Rsum_scal, <- Rsum_sub, <- Rsum_add. apply Rsum_ext. intros i _. ring.
Qed.

(** ** Derivatives *)
Lemma Cderiv_ext F F' x l : (forall y, F y = F' y) -> Cderiv F x l -> Cderiv F' x l.
Proof. intros H. replace F' with F by (extensionality y; apply H). auto. Qed.
Fixpoint Dn (N m : nat) (b : col) : col := match m with O => b | S m => Dn N m (D_T N b) end.
Lemma nth_derivative_cheb N m : forall F f b, (forall x, F x = cheb N b x) ->
  nth_derivative m F f -> forall x, f x = cheb N (Dn N m b) x.
Proof.
  induction m as [|m IH]; intros F f b HF H; cbn [nth_derivative Dn] in *.
  - intros x. rewrite <- H. apply HF.
  - destruct H as (F1 & H1 & H2). apply (IH F1); [|exact H2]. intros x.
    apply (Cderiv_unique (cheb N b) x); [apply (Cderiv_ext F); [exact HF|apply H1]|apply D_T_deriv].
Qed.
Lemma nth_derivative_exists N m : forall F b, (forall x, F x = cheb N b x) -> nth_derivative m F (cheb N (Dn N m b)).
Proof.
  induction m as [|m IH]; intros F b HF; cbn [nth_derivative Dn]; [exact HF|].
  exists (cheb N (D_T N b)). split; [|apply IH; reflexivity].
  intros x. apply (Cderiv_ext (cheb N b)); [intros; symmetry; apply HF|apply D_T_deriv].
Qed.

(** ** A polynomial that vanishes at both walls belongs to the Dirichlet space *)
Fixpoint dseq (q : col) (n : nat) : C :=
  match n with O => q 0%nat | S O => q 1%nat | S (S m) => (q n + dseq q m)%C end.
Lemma two_ends N a b : (2 <= N)%nat ->
  (forall x, x = -1 \/ x = 1 -> (a * RtoC (T (N - 2) x) + b * RtoC (T (N - 1) x) = C0)%C) -> a = C0 /\ b = C0.
Proof.
  intros HN H. pose proof (H 1 (or_intror eq_refl)) as P. pose proof (H (-1) (or_introl eq_refl)) as M.
  rewrite !(proj1 (T_one _)) in P. replace (-1) with (- (1)) in M by lra.
  rewrite !(proj2 (T_one _)) in M. replace (N - 1)%nat with (S (N - 2)) in M by lia. cbn [pow] in M.
  assert (Q : ((-1) ^ (N - 2)) * ((-1) ^ (N - 2)) = 1).
  { rewrite <- pow_add, <- (Nat.mul_1_l (N - 2)), <- Nat.mul_add_distr_r. change (1 + 1)%nat with 2%nat.
    rewrite pow_mult. replace ((-1) ^ 2) with 1 by ring. apply pow1. }
  replace (- (1)) with (-1) in M by lra.
  set (s := (-1) ^ (N - 2)) in *. clearbody s.
  destruct a as [a a'], b as [b b'].
  pose proof (f_equal fst P) as P1. pose proof (f_equal snd P) as P2.
  pose proof (f_equal fst M) as M1. pose proof (f_equal snd M) as M2.
  unfold Cadd, Cmul, RtoC, C0 in *. cbn [fst snd] in *.
  assert (A1 : a - b = 0).
  { transitivity (s * s * (a - b)); [rewrite Q; ring|]. transitivity (s * 0); [rewrite <- M1|]; ring. }
  assert (A2 : a' - b' = 0).
  { transitivity (s * s * (a' - b')); [rewrite Q; ring|]. transitivity (s * 0); [rewrite <- M2|]; ring. }
  split; f_equal; lra.
Qed.
Lemma dirichlet_of_zero N (q : col) : (2 <= N)%nat ->
  (forall x, x = -1 \/ x = 1 -> cheb N q x = C0) ->
  exists d, supp (N - 2) d /\ forall x, dirichlet N d x = cheb N q x.
Proof.
  intros HN H. set (d := fun i => if (i <? N - 2)%nat then dseq q i else C0).
  assert (Hd : supp (N - 2) d).
  { intros i Hi. unfold d. destruct (Nat.ltb_spec i (N - 2)); [lia|reflexivity]. }
  exists d. split; [exact Hd|].
  assert (E : forall i, (i < N - 2)%nat -> tcoef N d i = q i).
  { intros i Hi. unfold tcoef. destruct (Nat.ltb_spec i (N - 2)); [|lia].
    unfold d at 1. destruct (Nat.ltb_spec i (N - 2)); [|lia].
    destruct i as [|[|i]]; cbn [Nat.leb dseq]; [ring|ring|].
    replace (S (S i) - 2)%nat with i by lia. unfold d. destruct (Nat.ltb_spec i (N - 2)); [|lia]. ring. }
  set (r := fun i => (tcoef N d i - q i)%C).
  assert (S2 : forall x, cheb N r x = (r (N - 2)%nat * RtoC (T (N - 2) x) + r (N - 1)%nat * RtoC (T (N - 1) x))%C).
  { intros x. unfold cheb. replace N with (N - 2 + 2)%nat at 1 by lia. rewrite Csum_split, Csum_0.
    - cbn [Csum]. rewrite Nat.add_0_r. replace (N - 2 + 1)%nat with (N - 1)%nat by lia. ring.
    - intros i Hi. unfold r. rewrite (E i Hi). ring. }
  assert (D : forall x, cheb N r x = (dirichlet N d x - cheb N q x)%C).
  { intros x. rewrite (dirichlet_cheb N d x HN). unfold cheb, r. rewrite <- Csum_sub. apply Csum_ext. intros i _. ring. }
  destruct (two_ends N (r (N - 2)%nat) (r (N - 1)%nat) HN) as (Z1 & Z2).
  { intros x Hx. rewrite <- S2, D, (H x Hx), <- series_phi. unfold series.
    rewrite Csum_0; [ring|]. intros i _. rewrite phi_wall, RtoC_0; [ring|]. destruct Hx; [left; lra|right; assumption]. }
  intros x. pose proof (D x) as Dx. rewrite S2, Z1, Z2 in Dx.
  transitivity (cheb N q x + (dirichlet N d x - cheb N q x))%C; [ring|]. rewrite <- Dx. ring.
Qed.

(** ** The biharmonic functions and their derivatives vanish at the walls *)
Lemma Um_ends n : Um n 1 = INR n /\ Um n (-1) = - ((-1) ^ n) * INR n.
Proof.
  enough ((Um n 1 = INR n /\ Um (S n) 1 = INR (S n)) /\
          (Um n (-1) = - ((-1) ^ n) * INR n /\ Um (S n) (-1) = - ((-1) ^ (S n)) * INR (S n))) by tauto.
  induction n as [|n ((A & B) & C & D)].
  - unfold Um. simpl. repeat split; ring.
  - repeat split; try assumption; rewrite Um_SS, ?A, ?B, ?C, ?D; rewrite !S_INR; simpl; ring.
Qed.
Lemma psi_wall k x : x = -1 \/ x = 1 -> psi k x = 0.
Proof.
  pose proof (pos_INR k). intros [-> | ->]; unfold psi.
  - replace (-1) with (- (1)) by lra. rewrite !(proj2 (T_one _)), !pow_add. simpl. field. lra.
  - rewrite !(proj1 (T_one _)). field. lra.
Qed.
Definition dpsi (k : nat) (x : R) : R :=
  INR k * Um k x - 2 * (INR k + 2) / (INR k + 3) * (INR (k + 2) * Um (k + 2) x) + (INR k + 1) / (INR k + 3) * (INR (k + 4) * Um (k + 4) x).
Lemma psi_deriv k x : derivable_pt_lim (psi k) x (dpsi k x).
Proof.
  unfold psi, dpsi. apply derivable_pt_lim_plus; [apply derivable_pt_lim_minus|].
  - apply dT.
  - apply derivable_pt_lim_scal, dT.
  - apply derivable_pt_lim_scal, dT.
Qed.
Lemma dpsi_wall k x : x = -1 \/ x = 1 -> dpsi k x = 0.
Proof.
  pose proof (pos_INR k). unfold dpsi. intros [-> | ->].
  - rewrite !(proj2 (Um_ends _)), !pow_add, !plus_INR. simpl. field. lra.
  - rewrite !(proj1 (Um_ends _)), !plus_INR. simpl. field. lra.
Qed.
(** so the derivative of the wall normal velocity belongs to the Dirichlet space *)
Lemma psi_derivative_dirichlet N u : (4 <= N)%nat ->
  exists d, supp (N - 2) d /\ is_derivative (series (N - 4) psi u) (series (N - 2) phi d).
Proof.
  intros HN. set (b := coefs (N - 4) e_psi u).
  assert (Hb : forall x, series (N - 4) psi u x = cheb N b x) by (intros; apply coefs_cheb, psi_coef).
  assert (D1 : forall x, Cderiv (series (N - 4) psi u) x (cheb N (D_T N b) x)).
  { intros x. apply (Cderiv_ext (cheb N b)); [intros; symmetry; apply Hb|apply D_T_deriv]. }
  destruct (dirichlet_of_zero N (D_T N b) ltac:(lia)) as (d & S & E).
  - intros x Hx.
    pose proof (Cderiv_sum (N - 4) u psi (fun k => dpsi k x) x (fun k _ => psi_deriv k x)) as D2.
    rewrite (Cderiv_unique _ x _ _ (D1 x) D2). apply Csum_0. intros k _. rewrite (dpsi_wall k x Hx), RtoC_0. ring.
  - exists d. split; [exact S|]. intros x. rewrite series_phi, E. apply D1.
Qed.

(** ** The inner product *)
Lemma Tsum_inj N e e' : (forall x, Rsum N (fun i => e i * T i x) = Rsum N (fun i => e' i * T i x)) ->
  forall i, (i < N)%nat -> e i = e' i.
Proof.
  intros H i Hi.
  assert (X : RtoC (e i) = RtoC (e' i)).
  { apply (cheb_inj N (fun i => RtoC (e i)) (fun i => RtoC (e' i))); [|exact Hi]. intros x. unfold cheb.
    transitivity (RtoC (Rsum N (fun i => e i * T i x))); [rewrite <- Csum_RtoC; apply Csum_ext; intros; rewrite RtoC_mul; reflexivity|].
    rewrite H, <- Csum_RtoC. apply Csum_ext. intros. rewrite RtoC_mul. reflexivity. }
  apply (f_equal fst) in X. exact X.
Qed.
Lemma inner_val N h f g z d e : (forall x, f x = cheb N d x) -> (forall x, g x = Rsum N (fun i => e i * T i x)) ->
  inner N h f g z -> (z = Csum N (fun i => RtoC (h i * e i) * d i))%C.
Proof.
  intros Hf Hg (d' & e' & Hf' & Hg' & ->). apply Csum_ext. intros i Hi.
  rewrite (cheb_inj N d' d (fun x => eq_trans (eq_sym (Hf' x)) (Hf x)) i Hi).
  rewrite (Tsum_inj N e' e (fun x => eq_trans (eq_sym (Hg' x)) (Hg x)) i Hi). reflexivity.
Qed.
Lemma inner_unique N h f g z z' : inner N h f g z -> inner N h f g z' -> z = z'.
Proof. intros (d & e & A & B & ->) H. symmetry. exact (inner_val N h f g z' d e A B H). Qed.
Lemma inner_lin N h a f z b f' z' g : inner N h f g z -> inner N h f' g z' ->
  inner N h (fun x => a * f x + b * f' x)%C g (a * z + b * z')%C.
Proof.
  intros (d & e & A & B & ->) H'. destruct H' as (d' & e' & A' & B' & E').
  assert (H' : inner N h f' g z') by (exists d', e'; auto).
  rewrite (inner_val N h f' g z' d' e A' B H'). clear H' E' B'.
  exists (fun i => a * d i + b * d' i)%C, e. split; [|split; [exact B|]].
  - intros x. rewrite A, A'. unfold cheb. rewrite <- !Csum_scal, <- Csum_add. apply Csum_ext. intros; ring.
  - rewrite <- !Csum_scal, <- Csum_add. apply Csum_ext. intros; ring.
Qed.
Lemma inner_ext N h f f' g z z' : (forall x, f x = f' x) -> z = z' -> inner N h f g z -> inner N h f' g z'.
Proof. intros E <- (d & e & A & B). exists d, e. split; [intros x; rewrite <- E; apply A|exact B]. Qed.
(** with the exact norms it is the weighted integral *)
Lemma Cwint_Rsum N f (e : nat -> R) (w : nat -> C) :
  (forall i, (i < N)%nat -> Cwint (fun x => (f x * RtoC (T i x))%C) (w i)) ->
  Cwint (fun x => (f x * RtoC (Rsum N (fun i => e i * T i x)%R))%C) (Csum N (fun i => (RtoC (e i) * w i)%C)).
Proof.
  induction N as [|N IH]; intros H.
  - split; (eapply wint_ext; [|apply wint_zero]); intros x; simpl; ring.
  - destruct (IH (fun i Hi => H i ltac:(lia))) as (A1 & A2). destruct (H N ltac:(lia)) as (B1 & B2). clear IH H.
    split; cbn [Csum Rsum]; unfold Cadd at 1; cbn [fst snd].
    + replace (fst (RtoC (e N) * w N)%C) with (e N * fst (w N)) by (simpl; ring).
      eapply wint_ext; [|apply (wint_add _ _ _ _ A1 (wint_scal (e N) _ _ B1))]. intros x. simpl. ring.
    + replace (snd (RtoC (e N) * w N)%C) with (e N * snd (w N)) by (simpl; ring).
      eapply wint_ext; [|apply (wint_add _ _ _ _ A2 (wint_scal (e N) _ _ B2))]. intros x. simpl. ring.
Qed.
Lemma inner_exact N f g z : inner N cw f g z -> Cwint (fun x => (f x * RtoC (g x))%C) z.
Proof.
  intros (d & e & A & B & ->).
  assert (W : forall i, (i < N)%nat -> Cwint (fun x => (f x * RtoC (T i x))%C) (RtoC (cw i) * d i)%C).
  { intros i Hi. eapply Cwint_ext; [|apply (cheb_T N d i Hi)]. intros x. rewrite A. reflexivity. }
  pose proof (Cwint_Rsum N f e _ W) as X.
  replace (Csum N (fun i => RtoC (cw i * e i) * d i)%C) with (Csum N (fun i => RtoC (e i) * (RtoC (cw i) * d i))%C)
    by (apply Csum_ext; intros; rewrite RtoC_mul; ring).
  eapply Cwint_ext; [|exact X]. intros x. cbv beta. rewrite B. reflexivity.
Qed.

(** The matrix with the given rows *)
Definition gmat (N : nat) (h : nat -> R) (m nb : nat) (eb : nat -> nat -> R) (nt : nat) (et : nat -> nat -> R) (u : col) : col :=
  fun i => if (i <? nt)%nat then Csum N (fun l => RtoC (h l * et i l) * Dn N m (coefs nb eb u) l)%C else C0.
Lemma gmat_rows N h m nb b eb nt t et : is_coef N nb b eb -> is_coef N nt t et -> rows N h m nb b nt t (gmat N h m nb eb nt et).
Proof.
  intros Hb Ht u f i Hi Hf. unfold gmat. destruct (Nat.ltb_spec i nt); [|lia].
  exists (Dn N m (coefs nb eb u)), (et i). split; [|split; [|reflexivity]].
  - apply (nth_derivative_cheb N m (series nb b u)); [|exact Hf]. intros x. apply coefs_cheb, Hb.
  - intros x. apply Ht, Hi.
Qed.
Lemma rows_val N h m nb b eb nt t et M : is_coef N nb b eb -> is_coef N nt t et -> rows N h m nb b nt t M ->
  forall u i, (i < nt)%nat -> M u i = gmat N h m nb eb nt et u i.
Proof.
  intros Hb Ht HM u i Hi. pose proof (gmat_rows N h m nb b eb nt t et Hb Ht) as HG.
  assert (Hf := nth_derivative_exists N m _ _ (fun x => coefs_cheb N nb b eb u x Hb)).
  exact (inner_unique _ _ _ _ _ _ (HM u _ i Hi Hf) (HG u _ i Hi Hf)).
Qed.
(** linear combinations *)
Fixpoint lcf (L : list (C * (R -> C) * C)) (x : R) : C :=
  match L with nil => C0 | (a, f, _) :: L => (a * f x + lcf L x)%C end.
Fixpoint lcz (L : list (C * (R -> C) * C)) : C :=
  match L with nil => C0 | (a, _, z) :: L => (a * z + lcz L)%C end.
Fixpoint all_inner (N : nat) (h : nat -> R) (g : R -> R) (L : list (C * (R -> C) * C)) : Prop :=
  match L with nil => True | (_, f, z) :: L => inner N h f g z /\ all_inner N h g L end.
Lemma inner_comb N h g f0 z0 L : inner N h f0 g z0 -> all_inner N h g L -> inner N h (lcf L) g (lcz L).
Proof.
  intros H0. induction L as [|((a, f), z) L IH]; cbn [all_inner lcf lcz]; intros H.
  - eapply inner_ext; [| |apply (inner_lin N h C0 f0 z0 C0 f0 z0 g H0 H0)]; [intros x; cbv beta|]; ring.
  - destruct H as (H1 & H2).
    eapply inner_ext; [| |apply (inner_lin N h a f z C1 _ _ g H1 (IH H2))]; [intros x; cbv beta|]; ring.
Qed.
