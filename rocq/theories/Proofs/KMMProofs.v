(** Lemmas on the channel solvers (Model/KMM.v against Spec/Channel.v). *)
From Coq Require Import Reals List Bool Arith Lia Lra FunctionalExtensionality.
From Verif Require Import Base.Cplx Base.Sums Base.Fin Model.KMM Spec.Channel.
Open Scope R_scope.

(** ** Scalars *)
Lemma fst_RtoC_mul a z : fst (RtoC a * z)%C = a * fst z.
Proof. unfold Cmul, RtoC; simpl; ring. Qed.
Lemma snd_RtoC_mul a z : snd (RtoC a * z)%C = a * snd z.
Proof. unfold Cmul, RtoC; simpl; ring. Qed.
Lemma fst_add x y : fst (x + y)%C = fst x + fst y. Proof. reflexivity. Qed.
Lemma snd_add x y : snd (x + y)%C = snd x + snd y. Proof. reflexivity. Qed.
Lemma fst_sub x y : fst (x - y)%C = fst x - fst y. Proof. reflexivity. Qed.
Lemma snd_sub x y : snd (x - y)%C = snd x - snd y. Proof. reflexivity. Qed.
Ltac cparts := repeat first [rewrite fst_add | rewrite snd_add | rewrite fst_sub | rewrite snd_sub | rewrite fst_RtoC_mul | rewrite snd_RtoC_mul].
Ltac cpartsin H := repeat first [rewrite fst_add in H | rewrite snd_add in H | rewrite fst_sub in H | rewrite snd_sub in H | rewrite fst_RtoC_mul in H | rewrite snd_RtoC_mul in H].
Ltac ceq := apply C_eq; cparts.
(** split an equation between complex numbers into its two parts *)
Ltac csplit H :=
  let H1 := fresh H "r" in let H2 := fresh H "i" in
  pose proof (f_equal fst H) as H1; pose proof (f_equal snd H) as H2;
  cpartsin H1; cpartsin H2.
(** goal x = y from k * (l - r) = x - y where H : l = r *)
Ltac by_mult H k :=
  match type of H with ?l = ?r =>
    apply Rminus_diag_uniq; transitivity (k * (l - r)); [ | rewrite H; ring ]
  end.

Lemma helm_real nu k2 tau p q p' q' h :
  nu <> 0 -> tau <> 0 ->
  - 1 * p' + (k2 + 2 / nu / tau) * q' = 2 / nu * h + (1 * p + - (k2 - 2 / nu / tau) * q) ->
  / tau * (q' - q) = h + / 2 * ((nu * p + - (nu * k2) * q) + (nu * p' + - (nu * k2) * q')).
Proof. intros Hn Ht H. by_mult H (nu / 2). field; auto. Qed.

Lemma bih_real nu k2 tau s a b s' a' b' h :
  tau <> 0 ->
  - (nu * tau / 2) * s' + (1 + nu * tau * k2) * a' + - (k2 + nu * tau / 2 * (k2 * k2)) * b'
  = tau * h + (nu * tau / 2 * s + (1 - nu * tau * k2) * a + - (k2 - nu * tau / 2 * (k2 * k2)) * b) ->
  / tau * ((1 * a' + - k2 * b') - (1 * a + - k2 * b))
  = h + / 2 * ((nu * s + - (2 * nu * k2) * a + nu * (k2 * k2) * b)
             + (nu * s' + - (2 * nu * k2) * a' + nu * (k2 * k2) * b')).
Proof. intros Ht H. by_mult H (/ tau). field; auto. Qed.

(** ** One implicit solve is a Crank-Nicolson step *)
Lemma helm_cn n A B S nu k2 tau (h x : column) :
  nu <> 0 -> tau <> 0 ->
  solves n (comb2 (- 1) A (k2 + 2 / nu / tau) B) S ->
  crank_nicolson n B (visc nu k2 A B) tau h x
    (S (cadd (rsc (2 / nu) h) (HelmholtzCoeff A B 1 (- (k2 - 2 / nu / tau)) x))).
Proof.
  intros Hn Ht (HS & _ & _) i Hi.
  pose proof (HS (cadd (rsc (2 / nu) h) (HelmholtzCoeff A B 1 (- (k2 - 2 / nu / tau)) x)) i Hi) as E.
  revert E. generalize (S (cadd (rsc (2 / nu) h) (HelmholtzCoeff A B 1 (- (k2 - 2 / nu / tau)) x))).
  intros x' E.
  unfold comb2, cadd, rsc, HelmholtzCoeff in E. unfold cadd, rsc in E. csplit E.
  unfold visc, comb2. ceq; apply helm_real; assumption.
Qed.

Lemma bih_cn n Sm A B S nu k2 tau (h x : column) :
  tau <> 0 ->
  solves n (comb3 (- (nu * tau / 2)) Sm (1 + nu * tau * k2) A (- (k2 + nu * tau / 2 * (k2 * k2))) B) S ->
  crank_nicolson n (lap k2 A B) (bih nu k2 Sm A B) tau h x
    (S (cadd (rsc tau h) (BiharmonicCoeff Sm A B (nu * tau / 2) (1 - nu * tau * k2)
                            (- (k2 - nu * tau / 2 * (k2 * k2))) x))).
Proof.
  intros Ht (HS & _ & _) i Hi.
  pose proof (HS (cadd (rsc tau h) (BiharmonicCoeff Sm A B (nu * tau / 2) (1 - nu * tau * k2)
                            (- (k2 - nu * tau / 2 * (k2 * k2))) x)) i Hi) as E.
  revert E.
  generalize (S (cadd (rsc tau h) (BiharmonicCoeff Sm A B (nu * tau / 2) (1 - nu * tau * k2)
                            (- (k2 - nu * tau / 2 * (k2 * k2))) x))).
  intros x' E.
  unfold comb3, comb2, cadd, rsc, BiharmonicCoeff in E. unfold cadd, rsc in E. csplit E.
  unfold lap, bih, comb3, comb2. ceq; apply bih_real; assumption.
Qed.

(** crank_nicolson only looks at the first n rows of h *)
Lemma cn_ext n E L dt h h' x x' :
  agree n h h' -> crank_nicolson n E L dt h x x' -> crank_nicolson n E L dt h' x x'.
Proof. intros Hh H i Hi. rewrite <- (Hh i Hi). apply H, Hi. Qed.

(** linear maps *)
Lemma lin_scal M : linear M -> forall (a : C) u i, M (fun i => (a * u i)%C) i = (a * M u i)%C.
Proof.
  intros H a u i. pose proof (H a C0 u u i) as E.
  replace (fun i => (a * u i + 0 * u i)%C) with (fun i => (a * u i)%C) in E
    by (extensionality l; ring).
  rewrite E. ring.
Qed.
Lemma lin_0 M : linear M -> forall i, M czero i = C0.
Proof.
  intros H i. pose proof (lin_scal M H C0 czero i) as E.
  replace (fun i => (0 * czero i)%C) with czero in E by (extensionality l; unfold czero; ring).
  rewrite E. ring.
Qed.
Lemma lin_zero_fun M : linear M -> M czero = czero.
Proof. intros H. extensionality i. apply lin_0, H. Qed.
Lemma lin_rsc M a u : linear M -> M (rsc a u) = rsc a (M u).
Proof. intros H. extensionality i. apply (lin_scal M H (RtoC a) u i). Qed.

(** ** Continuity *)
Section Recon.
Context (k1 k2 : R) (Hk : k1 * k1 + k2 * k2 <> 0).
Let q := k1 * k1 + k2 * k2.
Lemma recon_div (f gg : C) :
  (Ci * RtoC k1 * (- Ci * (RtoC (k1 / q) * f - RtoC (k2 / q) * gg))
   + Ci * RtoC k2 * (- Ci * (RtoC (k2 / q) * f + RtoC (k1 / q) * gg)) = f)%C.
Proof.
  apply C_eq; unfold Cmul, Cadd, Csub, Copp, Ci, RtoC; simpl; unfold q; field; exact Hk.
Qed.
Lemma recon_vort (f gg : C) :
  (Ci * RtoC k1 * (- Ci * (RtoC (k2 / q) * f + RtoC (k1 / q) * gg))
   - Ci * RtoC k2 * (- Ci * (RtoC (k1 / q) * f - RtoC (k2 / q) * gg)) = gg)%C.
Proof.
  apply C_eq; unfold Cmul, Cadd, Csub, Copp, Ci, RtoC; simpl; unfold q; field; exact Hk.
Qed.
End Recon.

Lemma where1_neq x : x <> 0 -> where1 x = x.
Proof. intros H. unfold where1. destruct (Req_EM_T x 0); [contradiction | reflexivity]. Qed.

Lemma sumsq_0 a b : a * a + b * b = 0 -> a = 0 /\ b = 0.
Proof. intros H. split; nra. Qed.

(** ** Reconstruction of the wall-parallel velocities *)
Section Vw.
Context (n : nat) (B D T : column -> column) (k1 k2 : R).
Hypothesis HB : linear B.
Hypothesis HD : linear D.
Hypothesis HT : solves n B T.

Lemma tdma_neg u d : is_dx n B D u d -> forall i, T (D (rsc (- 1) u)) i = (- d i)%C.
Proof.
  intros (Hs & He) i. destruct HT as (_ & _ & H3).
  rewrite (H3 (D (rsc (- 1) u)) (rsc (- 1) d)).
  - unfold rsc. apply C_eq; unfold Cmul, RtoC, Copp; simpl; ring.
  - intros l Hl. unfold rsc. rewrite (Hs l Hl). ring.
  - intros l Hl. rewrite (lin_rsc D _ _ HD), (lin_rsc B _ _ HB). unfold rsc. rewrite (He l Hl). reflexivity.
Qed.
Lemma tdma_neg' u d : is_dx n B D u d -> forall i, T (csub czero (D u)) i = (- d i)%C.
Proof.
  intros Hd i. rewrite <- (tdma_neg u d Hd i). f_equal.
  rewrite (lin_rsc D _ _ HD). extensionality l. unfold csub, czero, rsc.
  apply C_eq; unfold Csub, Cmul, RtoC, Copp, Cadd, C0; simpl; ring.
Qed.
Lemma dx_exists u : exists d, is_dx n B D u d.
Proof. exists (T (D u)). destruct HT as (H1 & H2 & _). split; [apply H2 | apply H1]. Qed.
Lemma dx_zero d : is_dx n B D czero d -> forall i, d i = C0.
Proof.
  intros (Hs & He) i. destruct HT as (_ & _ & H3).
  rewrite <- (H3 czero d Hs).
  - rewrite (H3 czero czero); [reflexivity | intros l _; reflexivity |].
    intros l _. rewrite (lin_zero_fun B HB). reflexivity.
  - intros l Hl. rewrite (He l Hl). rewrite (lin_zero_fun D HD). reflexivity.
Qed.
End Vw.

(** ** Order of the RK3 tableau *)
Lemma rk3_rows_e : consistent_rows 3 rk3_c rk3_ae.
Proof.
  intros m Hm. destruct m as [|[|[|[|m]]]]; [..|lia];
  unfold rk3_ae, rk3_c; cbn [Rsum nth]; field.
Qed.
Lemma rk3_rows_i : consistent_rows 3 rk3_c rk3_ai.
Proof.
  intros m Hm. destruct m as [|[|[|[|m]]]]; [..|lia];
  unfold rk3_ai, rk3_c; cbn [Rsum nth]; field.
Qed.
Lemma rk3_order3 : order3 3 rk3_c rk3_ae.
Proof.
  repeat split; unfold weight_moment, rk3_ae, rk3_c; cbn [Rsum nth pow]; field.
Qed.
Lemma rk3_order2 : order2 3 rk3_c rk3_ai.
Proof.
  repeat split; unfold weight_moment, rk3_ai, rk3_c; cbn [Rsum nth pow]; field.
Qed.

(** A Crank-Nicolson substep over theta*dt with the forcing (a h + b h0)/theta *)
Lemma cn_substep n E L dt theta a b (h h0 x x' : column) :
  dt <> 0 -> theta <> 0 ->
  crank_nicolson n E L (theta * dt)
     (fun i => (RtoC (/ theta) * (RtoC a * h i + RtoC b * h0 i))%C) x x' ->
  forall i, (i < n)%nat ->
   (E x' i = E x i + RtoC dt * (RtoC a * h i + RtoC b * h0 i
                                + RtoC (theta / 2) * (L x i + L x' i)))%C.
Proof.
  intros Hd Ht H i Hi. specialize (H i Hi). csplit H.
  ceq; [by_mult Hr (theta * dt) | by_mult Hi0 (theta * dt)]; field; auto.
Qed.
