(** Complex numbers as pairs of reals, with ring and field tactics.
    Support file: models no code of /repo. numpy's complex128 arithmetic is
    idealised by exact arithmetic on these pairs. *)
From Coq Require Import Reals Lra Field Ring Setoid Morphisms List FunctionalExtensionality.
Open Scope R_scope.

Definition C : Type := (R * R)%type.

Declare Scope C_scope.
Delimit Scope C_scope with C.
Bind Scope C_scope with C.

Definition RtoC (x : R) : C := (x, 0).
Coercion RtoC : R >-> C.

Definition C0 : C := (0, 0).
Definition C1 : C := (1, 0).
Definition Ci : C := (0, 1).
Definition Re (z : C) : R := fst z.
Definition Im (z : C) : R := snd z.
Definition Cadd (x y : C) : C := (fst x + fst y, snd x + snd y).
Definition Copp (x : C) : C := (- fst x, - snd x).
Definition Csub (x y : C) : C := Cadd x (Copp y).
Definition Cmul (x y : C) : C :=
  (fst x * fst y - snd x * snd y, fst x * snd y + snd x * fst y).
Definition Cinv (x : C) : C :=
  (fst x / (fst x * fst x + snd x * snd x), - snd x / (fst x * fst x + snd x * snd x)).
Definition Cdiv (x y : C) : C := Cmul x (Cinv y).
Definition Cconj (x : C) : C := (fst x, - snd x).
Definition Cnorm2 (x : C) : R := fst x * fst x + snd x * snd x.
Definition Cabs (x : C) : R := sqrt (Cnorm2 x).

Infix "+" := Cadd : C_scope.
Infix "-" := Csub : C_scope.
Infix "*" := Cmul : C_scope.
Infix "/" := Cdiv : C_scope.
Notation "- x" := (Copp x) : C_scope.
Notation "/ x" := (Cinv x) : C_scope.
Notation "0" := C0 : C_scope.
Notation "1" := C1 : C_scope.

Lemma C_eq (x y : C) : fst x = fst y -> snd x = snd y -> x = y.
Proof. destruct x, y; simpl; intros; subst; reflexivity. Qed.

Ltac Ceq := apply C_eq; simpl;
  unfold Cdiv, Csub, Cadd, Cmul, Copp, Cconj, RtoC, Ci, C0, C1, Re, Im, Cnorm2; simpl.

Lemma C_ring_theory : ring_theory C0 C1 Cadd Cmul Csub Copp eq.
Proof.
  constructor; intros; try (Ceq; ring).
Qed.

Lemma Cnorm2_pos_iff (z : C) : z <> C0 -> Cnorm2 z > 0.
Proof.
  intros H. unfold Cnorm2. destruct z as [a b]; simpl.
  destruct (Req_dec a 0) as [Ha|Ha].
  - destruct (Req_dec b 0) as [Hb|Hb].
    + subst. exfalso; apply H; reflexivity.
    + assert (0 < b * b) by (destruct (Rlt_dec b 0); nra). nra.
  - assert (0 < a * a) by (destruct (Rlt_dec a 0); nra). nra.
Qed.

Lemma C1_neq_C0 : C1 <> C0.
Proof. unfold C1, C0; intros H; injection H; lra. Qed.

Lemma Cinv_l (z : C) : z <> C0 -> Cmul (Cinv z) z = C1.
Proof.
  intros H. pose proof (Cnorm2_pos_iff z H) as Hn. unfold Cnorm2 in Hn.
  Ceq; field; lra.
Qed.

Lemma C_field_theory : field_theory C0 C1 Cadd Cmul Csub Copp Cdiv Cinv eq.
Proof.
  constructor.
  - apply C_ring_theory.
  - apply C1_neq_C0.
  - reflexivity.
  - apply Cinv_l.
Qed.

Add Field C_field : C_field_theory.

Lemma RtoC_add (x y : R) : RtoC (x + y) = (RtoC x + RtoC y)%C.
Proof. Ceq; ring. Qed.
Lemma RtoC_sub (x y : R) : RtoC (x - y) = (RtoC x - RtoC y)%C.
Proof. Ceq; ring. Qed.
Lemma RtoC_mul (x y : R) : RtoC (x * y) = (RtoC x * RtoC y)%C.
Proof. Ceq; ring. Qed.
Lemma RtoC_opp (x : R) : RtoC (- x) = (- RtoC x)%C.
Proof. Ceq; ring. Qed.
Lemma RtoC_0 : RtoC 0 = C0. Proof. reflexivity. Qed.
Lemma RtoC_1 : RtoC 1 = C1. Proof. reflexivity. Qed.
Lemma RtoC_inj (x y : R) : RtoC x = RtoC y -> x = y.
Proof. unfold RtoC; intros H; injection H; auto. Qed.
Lemma RtoC_neq0 (x : R) : x <> 0 -> RtoC x <> C0.
Proof. intros H E; apply H; apply RtoC_inj; exact E. Qed.
Lemma RtoC_inv (x : R) : x <> 0 -> RtoC (/ x) = (/ RtoC x)%C.
Proof. intros H. unfold RtoC, Cinv; simpl. apply C_eq; simpl; field; nra. Qed.
Lemma RtoC_div (x y : R) : y <> 0 -> RtoC (x / y) = (RtoC x / RtoC y)%C.
Proof. intros H. unfold Rdiv, Cdiv. rewrite RtoC_mul, RtoC_inv; auto. Qed.

Lemma Ci_sq : (Ci * Ci = - C1)%C.
Proof. Ceq; ring. Qed.

Lemma Ci_neq0 : Ci <> C0.
Proof. unfold Ci, C0; intros H; injection H; lra. Qed.

Lemma Cconj_add x y : Cconj (x + y) = (Cconj x + Cconj y)%C.
Proof. Ceq; ring. Qed.
Lemma Cconj_sub x y : Cconj (x - y) = (Cconj x - Cconj y)%C.
Proof. Ceq; ring. Qed.
Lemma Cconj_opp x : Cconj (- x) = (- Cconj x)%C.
Proof. Ceq; ring. Qed.
Lemma Cconj_mul x y : Cconj (x * y) = (Cconj x * Cconj y)%C.
Proof. Ceq; ring. Qed.
Lemma Cconj_conj x : Cconj (Cconj x) = x.
Proof. Ceq; ring. Qed.
Lemma Cconj_R (x : R) : Cconj (RtoC x) = RtoC x.
Proof. Ceq; ring. Qed.
Lemma Cconj_i : Cconj Ci = (- Ci)%C.
Proof. Ceq; ring. Qed.
Lemma Cconj_0 : Cconj C0 = C0.
Proof. Ceq; ring. Qed.

Lemma Cmul_conj_norm2 z : (Cconj z * z)%C = RtoC (Cnorm2 z).
Proof. Ceq; ring. Qed.
Lemma Re_add x y : Re (x + y) = (Re x + Re y)%R.
Proof. reflexivity. Qed.
Lemma Re_sub x y : Re (x - y) = (Re x - Re y)%R.
Proof. unfold Re, Csub, Cadd, Copp; simpl; ring. Qed.
Lemma Re_opp x : Re (- x) = (- Re x)%R.
Proof. reflexivity. Qed.
Lemma Re_scal (a : R) x : Re (RtoC a * x) = (a * Re x)%R.
Proof. unfold Re, Cmul, RtoC; simpl; ring. Qed.
Lemma Re_conj x : Re (Cconj x) = Re x.
Proof. reflexivity. Qed.

Lemma Cnorm2_nonneg z : 0 <= Cnorm2 z.
Proof. unfold Cnorm2; nra. Qed.
Lemma Cnorm2_0 z : Cnorm2 z = 0 <-> z = C0.
Proof.
  split.
  - intros H. destruct (Req_dec (fst z) 0) as [Ha|Ha]; [destruct (Req_dec (snd z) 0) as [Hb|Hb]|].
    + apply C_eq; simpl; assumption.
    + exfalso. assert (z <> C0) by (intros E; subst; apply Hb; reflexivity).
      pose proof (Cnorm2_pos_iff z H0); lra.
    + exfalso. assert (z <> C0) by (intros E; subst; apply Ha; reflexivity).
      pose proof (Cnorm2_pos_iff z H0); lra.
  - intros ->; unfold Cnorm2, C0; simpl; ring.
Qed.

Lemma Cmul_eq0 x y : (x * y = 0)%C -> x = C0 \/ y = C0.
Proof.
  intros H.
  destruct (Req_dec (Cnorm2 x) 0) as [Hx|Hx].
  - left; apply Cnorm2_0; assumption.
  - right. assert (x <> C0) by (intros E; apply Hx; apply Cnorm2_0; assumption).
    replace y with ((/ x) * (x * y))%C by (field; assumption).
    rewrite H. ring.
Qed.

Lemma C_dec (x y : C) : {x = y} + {x <> y}.
Proof.
  destruct x as [a b], y as [c d].
  destruct (Req_EM_T a c), (Req_EM_T b d); subst;
    [left; reflexivity | right; intros H; injection H; auto ..].
Defined.

Arguments Cadd : simpl never.
Arguments Csub : simpl never.
Arguments Cmul : simpl never.
Arguments Copp : simpl never.
Arguments Cinv : simpl never.
Arguments Cdiv : simpl never.
Arguments Cconj : simpl never.
Arguments Cnorm2 : simpl never.
Arguments RtoC : simpl never.
Arguments Re : simpl never.
Arguments Im : simpl never.

Lemma Cabs_nonneg x : 0 <= Cabs x.
Proof. apply sqrt_pos. Qed.
Lemma Cabs_RtoC r : Cabs (RtoC r) = Rabs r.
Proof.
  unfold Cabs, Cnorm2, RtoC. cbn [fst snd]. rewrite <- sqrt_Rsqr_abs. f_equal. unfold Rsqr. ring.
Qed.
