(** Proofs about the Taylor-Green demo (C74). *)
From Coq Require Import Reals Lra Lia Arith ZArith List FinFun FunctionalExtensionality.
From Verif Require Import Base.Cplx Base.Sums Base.Fin Spec.Fourier Spec.Energy Spec.TaylorGreen Spec.Env Spec.RungeKutta
  Model.Maths Model.NS Model.NS2D Model.TG2D Proofs.Common Proofs.NSProofs.
Import ListNotations.
Open Scope R_scope.

(** ** e^(i t) *)
Lemma cis_add a b : cis (a + b) = (cis a * cis b)%C.
Proof. unfold cis, Cmul. cbn [fst snd]. rewrite cos_plus, sin_plus. f_equal; ring. Qed.
Lemma cis_0 : cis 0 = C1.
Proof. unfold cis. rewrite cos_0, sin_0. reflexivity. Qed.
Lemma cis_conj a : Cconj (cis a) = cis (- a).
Proof. unfold cis, Cconj; cbn [fst snd]. rewrite cos_neg, sin_neg. reflexivity. Qed.
Lemma cos_2PI_Z n : cos (2 * PI * IZR n) = 1 /\ sin (2 * PI * IZR n) = 0.
Proof.
  assert (H : forall m, cos (2 * PI * INR m) = 1 /\ sin (2 * PI * INR m) = 0).
  { intros m. replace (2 * PI * INR m) with (0 + 2 * INR m * PI) by ring.
    rewrite cos_period, sin_period. split; [apply cos_0|apply sin_0]. }
  destruct (Z_le_dec 0 n) as [Hn|Hn].
  - destruct (H (Z.to_nat n)) as [Hc Hs]. rewrite INR_IZR_INZ, Z2Nat.id in Hc, Hs by lia. auto.
  - destruct (H (Z.to_nat (- n))) as [Hc Hs]. rewrite INR_IZR_INZ, Z2Nat.id, opp_IZR in Hc, Hs by lia.
    replace (2 * PI * - IZR n) with (- (2 * PI * IZR n)) in Hc, Hs by ring.
    rewrite cos_neg in Hc. rewrite sin_neg in Hs. split; lra.
Qed.
Lemma cis_period n : cis (2 * PI * IZR n) = C1.
Proof. unfold cis. destruct (cos_2PI_Z n) as [-> ->]. reflexivity. Qed.
Lemma cis_1 t : cis t = C1 -> exists n, t = 2 * PI * IZR n.
Proof.
  intros H. assert (Hc : cos t = 1) by (apply (f_equal fst) in H; exact H).
  assert (Hs : sin (t / 2) = 0).
  { apply Rsqr_0_uniq. unfold Rsqr. pose proof (cos_2a_sin (t / 2)) as E.
    replace (2 * (t / 2)) with t in E by field. rewrite Hc in E. lra. }
  destruct (sin_eq_0_0 _ Hs) as [n Hn]. exists n. lra.
Qed.
(** sum over the mesh of a wave that is not constant on it *)
Definition wv (M : nat) (m : Z) (j : nat) : C := cis (2 * PI * IZR m * INR j / INR M).
Lemma wv_sum M m : (0 < M)%nat -> Csum M (wv M m) = if (m mod Z.of_nat M =? 0)%Z then RtoC (INR M) else C0.
Proof.
  intros HM. assert (HM0 : INR M <> 0) by (apply not_0_INR; lia).
  set (w := cis (2 * PI * IZR m / INR M)).
  assert (Hp : forall j, wv M m (S j) = (wv M m j * w)%C).
  { intros j. unfold wv, w. rewrite <- cis_add, S_INR. f_equal. field. exact HM0. }
  assert (Hg : forall n, ((w - C1) * Csum n (wv M m))%C = (wv M m n - wv M m 0)%C).
  { induction n as [|n IH]; [cbn [Csum]; ring|]. cbn [Csum]. rewrite Hp.
    transitivity ((w - C1) * Csum n (wv M m) + (w - C1) * wv M m n)%C; [ring|]. rewrite IH. ring. }
  assert (H0 : wv M m 0 = C1) by (unfold wv; cbn [INR]; rewrite <- cis_0; f_equal; field; exact HM0).
  assert (HMM : wv M m M = C1) by (unfold wv; rewrite <- (cis_period m); f_equal; field; exact HM0).
  destruct (m mod Z.of_nat M =? 0)%Z eqn:E.
  - apply Z.eqb_eq in E. apply Z.mod_divide in E; [|lia]. destruct E as [q Hq].
    transitivity (Csum M (fun _ => C1)).
    + apply Csum_ext. intros j _. unfold wv. rewrite <- (cis_period (q * Z.of_nat j)). f_equal.
      rewrite Hq, !mult_IZR, <- !INR_IZR_INZ. field. exact HM0.
    + clear. induction M as [|M IH]; [reflexivity|]. cbn [Csum]. rewrite IH, S_INR, RtoC_add. reflexivity.
  - specialize (Hg M). rewrite H0, HMM in Hg.
    assert (Hz : ((w - C1) * Csum M (wv M m))%C = C0) by (rewrite Hg; ring).
    destruct (Cmul_eq0 _ _ Hz) as [Hw|Hw]; [|exact Hw]. exfalso.
    assert (Hw1 : w = C1) by (transitivity (w - C1 + C1)%C; [ring|rewrite Hw; ring]).
    destruct (cis_1 _ Hw1) as [n Hn].
    assert (Hm : m = (n * Z.of_nat M)%Z).
    { apply eq_IZR. rewrite mult_IZR, <- INR_IZR_INZ. pose proof PI_RGT_0.
      apply Rmult_eq_reg_l with (2 * PI / INR M); [|apply Rmult_integral_contrapositive; split; [lra|apply Rinv_neq_0_compat, HM0]].
      transitivity (2 * PI * IZR n); [rewrite <- Hn; field; exact HM0|field; exact HM0]. }
    apply Z.eqb_neq in E. apply E. rewrite Hm. apply Z_mod_mult.
Qed.

(** ** sums over the mesh *)
Lemma CsumL_seq n f : CsumL (seq 0 n) f = Csum n f.
Proof.
  induction n as [|n IH]; [reflexivity|]. rewrite seq_S. cbn [Csum]. rewrite <- IH.
  generalize (seq 0 n). intros l. induction l as [|a l IHl]; cbn [app CsumL plus]; [cbn; ring|].
  rewrite IHl. ring.
Qed.
Lemma CsumL_app {A} (l m : list A) f : CsumL (l ++ m) f = (CsumL l f + CsumL m f)%C.
Proof. induction l as [|a l IH]; simpl; [ring|rewrite IH; ring]. Qed.
Lemma CsumL_map {A B} (g : A -> B) (l : list A) f : CsumL (map g l) f = CsumL l (fun a => f (g a)).
Proof. induction l as [|a l IH]; simpl; [reflexivity|rewrite IH; reflexivity]. Qed.
Lemma CsumL_prod {A B} (l : list A) (m : list B) f :
  CsumL (list_prod l m) f = CsumL l (fun a => CsumL m (fun b => f (a, b))).
Proof.
  induction l as [|a l IH]; cbn [list_prod CsumL]; [reflexivity|]. rewrite CsumL_app, IH, CsumL_map. reflexivity.
Qed.
(** a sum with at most two terms *)
Lemma RsumL_one {A} (l : list A) (a : A) f : NoDup l -> In a l ->
  (forall c, In c l -> c <> a -> f c = 0) -> RsumL l f = f a.
Proof.
  induction l as [|x l IH]; intros Hn Ha H0; [destruct Ha|]. inversion Hn as [|? ? Hx Hl]; subst.
  cbn [RsumL]. destruct Ha as [->|Ha].
  - rewrite RsumL_0; [ring|]. intros c Hc. apply H0; [right; exact Hc|]. intros ->. contradiction.
  - rewrite IH; auto.
    + rewrite H0; [ring|left; reflexivity|]. intros ->. contradiction.
    + intros c Hc. apply H0. right. exact Hc.
Qed.
Lemma RsumL_two {A} (l : list A) (a b : A) f : NoDup l -> In a l -> In b l -> a <> b ->
  (forall c, In c l -> c <> a -> c <> b -> f c = 0) -> RsumL l f = f a + f b.
Proof.
  induction l as [|x l IH]; intros Hn Ha Hb Hab H0; [destruct Ha|]. inversion Hn as [|? ? Hx Hl]; subst.
  cbn [RsumL]. destruct Ha as [->|Ha].
  - destruct Hb as [Hb|Hb]; [contradiction|]. rewrite (RsumL_one l b); auto.
    intros c Hc Hcb. apply H0; [right; exact Hc| |exact Hcb]. intros ->. contradiction.
  - destruct Hb as [->|Hb].
    + rewrite (RsumL_one l a); auto; [ring|]. intros c Hc Hca. apply H0; [right; exact Hc|exact Hca|]. intros ->. contradiction.
    + rewrite IH; auto.
      * rewrite H0; [ring|left; reflexivity| |]; intros ->; contradiction.
      * intros c Hc. apply H0. right. exact Hc.
Qed.

Lemma mod_0_small a b : (Z.abs a < b)%Z -> (a mod b =? 0)%Z = (a =? 0)%Z.
Proof.
  intros H. destruct (Z.eqb_spec a 0) as [->|Hn]; [rewrite Zmod_0_l; reflexivity|].
  apply Z.eqb_neq. intros E. apply Z.mod_divide in E; [|lia]. destruct E as [q ->].
  assert (q = 0)%Z by nia. subst. lia.
Qed.
(** ** the transform *)
Section Transform.
Context (N M : ax2 -> nat) (tr : nat * nat -> R).
Context (HN0 : (3 <= N a0)%nat) (HN1 : (3 <= N a1)%nat) (HM0 : (N a0 <= M a0)%nat) (HM1 : (N a1 <= M a1)%nat).
Notation idx := (nat * nat)%type.

(** complex version of the forward transform *)
Definition cfft2 (g : idx -> C) (k : idx) : C :=
  (RtoC (tr k / (INR (M a0) * INR (M a1))) * CsumL (points2 M) (fun x => g x * Cconj (wave2 N M k x)))%C.
(** the wave with integer wavenumbers m *)
Definition wm (m : Z * Z) (x : idx) : C := cis (IZR (fst m) * mesh2 M a0 x + IZR (snd m) * mesh2 M a1 x).
Definition fq (k : idx) : Z * Z := (freq (N a0) (fst k), Z.of_nat (snd k)).

Lemma rfft2_c f k : rfft2 N M tr f k = cfft2 (fun x => RtoC (f x)) k.
Proof. reflexivity. Qed.
Lemma cfft2_ext g h k : (forall x, g x = h x) -> cfft2 g k = cfft2 h k.
Proof. intros H. unfold cfft2. f_equal. apply CsumL_ext. intros x _. rewrite H. reflexivity. Qed.
Lemma cfft2_add g h k : cfft2 (fun x => g x + h x)%C k = (cfft2 g k + cfft2 h k)%C.
Proof.
  unfold cfft2. transitivity (RtoC (tr k / (INR (M a0) * INR (M a1))) * CsumL (points2 M) (fun x => g x * Cconj (wave2 N M k x) + h x * Cconj (wave2 N M k x)))%C.
  - f_equal. apply CsumL_ext. intros x _. ring.
  - rewrite CsumL_add. ring.
Qed.
Lemma cfft2_scal c g k : cfft2 (fun x => c * g x)%C k = (c * cfft2 g k)%C.
Proof.
  unfold cfft2. transitivity (RtoC (tr k / (INR (M a0) * INR (M a1))) * CsumL (points2 M) (fun x => c * (g x * Cconj (wave2 N M k x))))%C.
  - f_equal. apply CsumL_ext. intros x _. ring.
  - rewrite CsumL_scal. ring.
Qed.
Lemma cfft2_sum {A} (l : list A) (c : A -> C) (g : A -> idx -> C) k :
  cfft2 (fun x => CsumL l (fun a => c a * g a x)%C) k = CsumL l (fun a => c a * cfft2 (g a) k)%C.
Proof.
  induction l as [|a l IH]; cbn [CsumL].
  - unfold cfft2. rewrite CsumL_0; [ring|]. intros; ring.
  - rewrite (cfft2_add (fun x => c a * g a x)%C), cfft2_scal, IH. reflexivity.
Qed.

Lemma wave2_wm k x : wave2 N M k x = wm (fq k) x.
Proof. unfold wave2, wm, fq, wavenumber2. cbn [fst snd]. rewrite (INR_IZR_INZ (snd k)). reflexivity. Qed.
Lemma wm_conj m n x : (wm m x * Cconj (wm n x))%C = wm ((fst m - fst n)%Z, (snd m - snd n)%Z) x.
Proof. unfold wm. rewrite cis_conj, <- cis_add. f_equal. cbn [fst snd]. rewrite !minus_IZR. ring. Qed.
Lemma wm_sum m : CsumL (points2 M) (wm m) =
  ((if (fst m mod Z.of_nat (M a0) =? 0)%Z then RtoC (INR (M a0)) else C0) *
  (if (snd m mod Z.of_nat (M a1) =? 0)%Z then RtoC (INR (M a1)) else C0))%C.
Proof.
  unfold points2. rewrite CsumL_prod, CsumL_seq.
  rewrite <- (wv_sum (M a0)), <- (wv_sum (M a1)) by lia. rewrite <- Csum_scal_r.
  apply Csum_ext. intros i _. rewrite CsumL_seq, <- Csum_scal. apply Csum_ext. intros j _.
  unfold wm, wv. rewrite <- cis_add. f_equal. unfold mesh2. cbn [fst snd].
  field. split; apply not_0_INR; lia.
Qed.
Lemma freq_bound n j : (j < n)%nat -> (2 * Z.abs (freq n j) <= Z.of_nat n)%Z.
Proof. intros H. unfold freq. destruct (Nat.ltb_spec (2 * j) n); lia. Qed.
Lemma in_modes2 k : In k (modes2 N) <-> (fst k < N a0)%nat /\ (snd k < N a1 / 2 + 1)%nat.
Proof. destruct k as [a b]. unfold modes2. rewrite in_prod_iff, !in_seq. cbn [fst snd]. lia. Qed.
Lemma fq_bound k : In k (modes2 N) -> (2 * Z.abs (fst (fq k)) <= Z.of_nat (N a0))%Z /\ (0 <= 2 * snd (fq k) <= Z.of_nat (N a1))%Z.
Proof.
  intros H. apply in_modes2 in H. unfold fq. cbn [fst snd]. split; [apply freq_bound, H|].
  pose proof (Nat.div_mod (N a1) 2 ltac:(lia)). lia.
Qed.
(** resolved waves are not aliased *)
Lemma cfft2_wm m k : In k (modes2 N) -> (2 * Z.abs (fst m) < Z.of_nat (M a0))%Z -> (2 * Z.abs (snd m) < Z.of_nat (M a1))%Z ->
  cfft2 (wm m) k = if ((fst m =? fst (fq k)) && (snd m =? snd (fq k)))%Z%bool then RtoC (tr k) else C0.
Proof.
  intros Hk H0 H1. destruct (fq_bound k Hk) as [B0 B1]. unfold cfft2.
  transitivity (RtoC (tr k / (INR (M a0) * INR (M a1))) * CsumL (points2 M) (wm ((fst m - fst (fq k))%Z, (snd m - snd (fq k))%Z)))%C.
  { f_equal. apply CsumL_ext. intros x _. rewrite wave2_wm. apply wm_conj. }
  rewrite wm_sum. cbn [fst snd]. rewrite !mod_0_small by lia.
  rewrite <- (Z.sub_diag (fst (fq k))) at 1. 
  destruct (Z.eqb_spec (fst m - fst (fq k)) (fst (fq k) - fst (fq k)));
  destruct (Z.eqb_spec (fst m) (fst (fq k))); try lia; cbn [andb]; [|ring].
  destruct (Z.eqb_spec (snd m - snd (fq k)) 0); destruct (Z.eqb_spec (snd m) (snd (fq k))); try lia; [|ring].
  rewrite <- !RtoC_mul. f_equal. field. split; apply not_0_INR; lia.
Qed.
(** derivative of a resolved wave *)
Lemma cfft2_deriv m k i : In k (modes2 N) -> (2 * Z.abs (fst m) < Z.of_nat (M a0))%Z -> (2 * Z.abs (snd m) < Z.of_nat (M a1))%Z ->
  (RtoC (IZR (match i with a0 => fst m | a1 => snd m end)) * cfft2 (wm m) k)%C = (RtoC (wavenumber2 N i k) * cfft2 (wm m) k)%C.
Proof.
  intros Hk H0 H1. rewrite cfft2_wm by assumption.
  destruct (Z.eqb_spec (fst m) (fst (fq k))) as [E0|]; cbn [andb]; [|ring].
  destruct (Z.eqb_spec (snd m) (snd (fq k))) as [E1|]; [|ring].
  f_equal. f_equal. destruct i; [rewrite E0; reflexivity|]. rewrite E1. unfold fq, wavenumber2. cbn [snd].
  rewrite INR_IZR_INZ. reflexivity.
Qed.

(** ** backward transform of an array with the two modes (1,1) and (-1,1) *)
Definition kp : idx := (1, 1)%nat.
Definition kn : idx := (N a0 - 1, 1)%nat.
Lemma freq_1 j : (j < N a0)%nat -> freq (N a0) j = 1%Z <-> j = 1%nat.
Proof. intros H. unfold freq. destruct (Nat.ltb_spec (2 * j) (N a0)); lia. Qed.
Lemma freq_m1 j : (j < N a0)%nat -> freq (N a0) j = (-1)%Z <-> j = (N a0 - 1)%nat.
Proof. intros H. unfold freq. destruct (Nat.ltb_spec (2 * j) (N a0)); lia. Qed.
Lemma half_1 : (1 < N a1 / 2 + 1)%nat.
Proof. pose proof (Nat.div_mod (N a1) 2 ltac:(lia)). pose proof (Nat.mod_upper_bound (N a1) 2 ltac:(lia)). lia. Qed.
Lemma kp_in : In kp (modes2 N).
Proof. apply in_modes2. pose proof half_1. unfold kp; cbn [fst snd]. lia. Qed.
Lemma kn_in : In kn (modes2 N).
Proof. apply in_modes2. pose proof half_1. unfold kn; cbn [fst snd]. lia. Qed.
Lemma modes2_nodup : NoDup (modes2 N).
Proof.
  unfold modes2. generalize (seq_NoDup (N a0) 0) (seq_NoDup (N a1 / 2 + 1) 0). generalize (seq 0 (N a0)) (seq 0 (N a1 / 2 + 1)).
  intros l m Hl Hm. induction Hl as [|a l Ha Hl IH]; cbn [list_prod]; [constructor|].
  assert (Hmap : NoDup (map (fun b : nat => (a, b)) m)).
  { apply Injective_map_NoDup; [|exact Hm]. intros b c E. congruence. }
  clear Hl. revert Hmap. assert (Hd : forall b, In b (map (fun b : nat => (a, b)) m) -> ~ In b (list_prod l m)).
  { intros b Hb Hi. apply in_map_iff in Hb. destruct Hb as (c & <- & _). apply in_prod_iff in Hi. destruct Hi; contradiction. }
  revert Hd. generalize (map (fun b : nat => (a, b)) m). intros q Hd Hq.
  induction Hq as [|b q Hb Hq IHq]; cbn [app]; [exact IH|]. constructor.
  - intros Hi. apply in_app_or in Hi. destruct Hi as [Hi|Hi]; [contradiction|]. apply (Hd b); [left; reflexivity|exact Hi].
  - apply IHq. intros c Hc. apply Hd. right. exact Hc.
Qed.
Lemma irfft2_two (a : idx -> C) x : tr kp = 1 -> tr kn = 1 ->
  (forall k, In k (modes2 N) -> k <> kp -> k <> kn -> a k = C0) ->
  irfft2 N M tr a x = 2 * Re (a kp * cis (mesh2 M a0 x + mesh2 M a1 x))%C + 2 * Re (a kn * cis (mesh2 M a1 x - mesh2 M a0 x))%C.
Proof.
  intros Hp Hn H0. unfold irfft2. rewrite (RsumL_two _ kp kn).
  - assert (Hm : mult2d M kp = 2 /\ mult2d M kn = 2).
    { unfold mult2d, kp, kn. cbn [snd]. replace (2 * 1 =? M a1)%nat with false by (symmetry; apply Nat.eqb_neq; lia). split; reflexivity. }
    destruct Hm as [-> ->]. rewrite Hp, Hn. rewrite !wave2_wm. unfold wm, fq.
    assert (E1 : freq (N a0) (fst kp) = 1%Z) by (apply freq_1; [cbn; lia|reflexivity]).
    assert (E2 : freq (N a0) (fst kn) = (-1)%Z) by (apply freq_m1; [cbn; lia|reflexivity]).
    rewrite E1, E2. cbn [fst snd kp kn]. change (Z.of_nat 1) with 1%Z.
    replace (1 * mesh2 M a0 x + 1 * mesh2 M a1 x) with (mesh2 M a0 x + mesh2 M a1 x) by ring.
    replace (-1 * mesh2 M a0 x + 1 * mesh2 M a1 x) with (mesh2 M a1 x - mesh2 M a0 x) by ring. ring.
  - apply modes2_nodup.
  - apply kp_in.
  - apply kn_in.
  - unfold kp, kn. intros E. injection E. lia.
  - intros k Hk H1 H2. rewrite H0 by assumption. unfold Cmul, C0, Re; cbn [fst snd]. ring.
Qed.
Lemma tg_other c v : tg_modes N c v -> forall i k, In k (modes2 N) -> k <> kp -> k <> kn -> v i k = C0.
Proof.
  intros H i [a b] Hk H1 H2. rewrite H by exact Hk. apply in_modes2 in Hk. cbn [fst snd] in *.
  destruct (Nat.eqb_spec b 1) as [->|]; [|reflexivity].
  destruct (Z.eqb_spec (freq (N a0) a) 1) as [E|_]; [apply freq_1 in E; [|lia]; subst; contradiction H1; reflexivity|].
  destruct (Z.eqb_spec (freq (N a0) a) (-1)) as [E|_]; [apply freq_m1 in E; [|lia]; subst; contradiction H2; reflexivity|].
  reflexivity.
Qed.
Lemma tg_kp c v i : tg_modes N c v -> v i kp = match i with a0 => (0, - c / 4) | a1 => (0, c / 4) end.
Proof.
  intros H. rewrite (H i kp kp_in). cbn [snd fst kp Nat.eqb]. assert (E : freq (N a0) 1 = 1%Z) by (apply freq_1; lia).
  rewrite E. reflexivity.
Qed.
Lemma tg_kn c v i : tg_modes N c v -> v i kn = (0, c / 4).
Proof.
  intros H. rewrite (H i kn kn_in). cbn [snd fst kn Nat.eqb]. assert (E : freq (N a0) (N a0 - 1) = (-1)%Z) by (apply freq_m1; lia).
  rewrite E. reflexivity.
Qed.
Lemma tg_bwd c v i x : tr kp = 1 -> tr kn = 1 -> tg_modes N c v ->
  irfft2 N M tr (v i) x = taylor_green c (mesh2 M a0 x) (mesh2 M a1 x) i.
Proof.
  intros Hp Hn H. rewrite irfft2_two by (try assumption; intros; apply (tg_other c v H); assumption).
  rewrite (tg_kp c), (tg_kn c) by exact H. unfold cis, Cmul, Re. cbn [fst snd].
  rewrite sin_plus, sin_minus. destruct i; cbn [fst snd taylor_green]; field.
Qed.
Lemma tg_vort c v x : tr kp = 1 -> tr kn = 1 -> tg_modes N c v ->
  irfft2 N M tr (vort2d (wavenumber2 N) v) x = 2 * c * (sin (mesh2 M a0 x) * sin (mesh2 M a1 x)).
Proof.
  intros Hp Hn H. rewrite irfft2_two; try assumption.
  - unfold vort2d. rewrite !(tg_kp c), !(tg_kn c) by exact H. unfold wavenumber2. cbn [fst snd kp kn INR].
    assert (E1 : freq (N a0) 1 = 1%Z) by (apply freq_1; lia).
    assert (E2 : freq (N a0) (N a0 - 1) = (-1)%Z) by (apply freq_m1; lia). rewrite E1, E2.
    unfold cis, Csub, Cadd, Copp, Cmul, Re, RtoC, Ci. cbn [fst snd]. rewrite cos_plus, cos_minus. field.
  - intros k Hk H1 H2. unfold vort2d. rewrite !(tg_other c v H) by assumption. ring.
Qed.
End Transform.

(** ** trigonometric polynomials *)
Definition tpoly (M : ax2 -> nat) (l : list ((Z * Z) * C)) (x : nat * nat) : C :=
  CsumL l (fun p => (snd p * wm M (fst p) x)%C).
Lemma arg_m1 X : -1 * X = - X. Proof. ring. Qed.
Lemma arg_m2 X : -2 * X = - (2 * X). Proof. ring. Qed.
Ltac trig :=
  unfold wm, cis; cbn [fst snd]; rewrite ?arg_m2, ?arg_m1, ?Rmult_1_l, ?Rmult_0_l;
  rewrite ?cos_plus, ?sin_plus, ?cos_neg, ?sin_neg, ?cos_0, ?sin_0.
Definition tg0_coefs (c : R) : list ((Z * Z) * C) :=
  [((1, 1)%Z, (0, - c / 4)); ((1, -1)%Z, (0, - c / 4)); ((-1, 1)%Z, (0, c / 4)); ((-1, -1)%Z, (0, c / 4))].
Definition tg1_coefs (c : R) : list ((Z * Z) * C) :=
  [((1, 1)%Z, (0, c / 4)); ((1, -1)%Z, (0, - c / 4)); ((-1, 1)%Z, (0, c / 4)); ((-1, -1)%Z, (0, - c / 4))].
Lemma tg0_poly M c x : RtoC (taylor_green c (mesh2 M a0 x) (mesh2 M a1 x) a0) = tpoly M (tg0_coefs c) x.
Proof.
  unfold tpoly, tg0_coefs. cbn [CsumL fst snd taylor_green]. unfold wm. cbn [fst snd]. generalize (mesh2 M a0 x) (mesh2 M a1 x). intros X Y.
  trig. apply C_eq; unfold RtoC, Cadd, Cmul, C0; cbn [fst snd]; field.
Qed.
Lemma tg1_poly M c x : RtoC (taylor_green c (mesh2 M a0 x) (mesh2 M a1 x) a1) = tpoly M (tg1_coefs c) x.
Proof.
  unfold tpoly, tg1_coefs. cbn [CsumL fst snd taylor_green]. unfold wm. cbn [fst snd]. generalize (mesh2 M a0 x) (mesh2 M a1 x). intros X Y.
  trig. apply C_eq; unfold RtoC, Cadd, Cmul, C0; cbn [fst snd]; field.
Qed.
(** the convection term is the gradient of phi *)
Definition phi_coefs (c : R) : list ((Z * Z) * R) :=
  [((2, 0)%Z, c * c / 8); ((-2, 0)%Z, c * c / 8); ((0, 2)%Z, c * c / 8); ((0, -2)%Z, c * c / 8);
   ((2, 2)%Z, - (c * c) / 16); ((2, -2)%Z, - (c * c) / 16); ((-2, 2)%Z, - (c * c) / 16); ((-2, -2)%Z, - (c * c) / 16)].
Definition dphi (i : ax2) (c : R) : list ((Z * Z) * C) :=
  map (fun p => (fst p, (Ci * RtoC (IZR (match i with a0 => fst (fst p) | a1 => snd (fst p) end)) * RtoC (snd p))%C)) (phi_coefs c).
Lemma conv_poly M c x i : let u := taylor_green c (mesh2 M a0 x) (mesh2 M a1 x) in
  let w := 2 * c * (sin (mesh2 M a0 x) * sin (mesh2 M a1 x)) in
  RtoC (match i with a0 => u a1 * w | a1 => - u a0 * w end) = tpoly M (dphi i c) x.
Proof.
  cbv zeta. unfold tpoly, dphi, phi_coefs. cbn [map CsumL fst snd taylor_green]. unfold wm. cbn [fst snd].
  generalize (mesh2 M a0 x) (mesh2 M a1 x). intros X Y.
  pose proof (sin_2a X) as EX. pose proof (sin_2a Y) as EY.
  pose proof (cos_2a_sin X) as GX. pose proof (cos_2a_sin Y) as GY.
  destruct i; cbn [fst snd].
  - transitivity (RtoC (- (c * c) * sin (2 * X) * ((1 - cos (2 * Y)) / 2))).
    { f_equal. rewrite EX, GY. field. }
    trig. apply C_eq; unfold RtoC, Cadd, Cmul, C0, Ci; cbn [fst snd]; field.
  - transitivity (RtoC (- (c * c) * sin (2 * Y) * ((1 - cos (2 * X)) / 2))).
    { f_equal. rewrite EY, GX. field. }
    trig. apply C_eq; unfold RtoC, Cadd, Cmul, C0, Ci; cbn [fst snd]; field.
Qed.

Section Flow.
Context (N M : ax2 -> nat) (tr : nat * nat -> R).
Context (HN0 : (3 <= N a0)%nat) (HN1 : (3 <= N a1)%nat) (HM0 : (N a0 <= M a0)%nat) (HM1 : (N a1 <= M a1)%nat).
Notation idx := (nat * nat)%type.
Lemma rfft2_poly f l k : (forall x, RtoC (f x) = tpoly M l x) ->
  rfft2 N M tr f k = CsumL l (fun p => (snd p * cfft2 N M tr (wm M (fst p)) k)%C).
Proof.
  intros H. rewrite rfft2_c. rewrite (cfft2_ext N M tr _ (tpoly M l)) by exact H.
  unfold tpoly. apply (cfft2_sum N M tr l snd (fun p => wm M (fst p))).
Qed.
Lemma conv_fwd c v i k : (5 <= M a0)%nat -> (5 <= M a1)%nat -> tr (kp) = 1 -> tr (kn N) = 1 ->
  tg_modes N c v -> In k (modes2 N) ->
  ucrosscurl2 (irfft2 N M tr) (rfft2 N M tr) (wavenumber2 N) v i k =
  (Ci * RtoC (wavenumber2 N i k) * CsumL (phi_coefs c) (fun p => RtoC (snd p) * cfft2 N M tr (wm M (fst p)) k))%C.
Proof.
  intros H0 H1 Hp Hn Hv Hk.
  assert (Hr : ucrosscurl2 (irfft2 N M tr) (rfft2 N M tr) (wavenumber2 N) v i k = CsumL (dphi i c) (fun p => (snd p * cfft2 N M tr (wm M (fst p)) k)%C)).
  { transitivity (rfft2 N M tr (fun x => match i with
      | a0 => irfft2 N M tr (v a1) x * irfft2 N M tr (vort2d (wavenumber2 N) v) x
      | a1 => - irfft2 N M tr (v a0) x * irfft2 N M tr (vort2d (wavenumber2 N) v) x end) k).
    { unfold ucrosscurl2. destruct i; reflexivity. }
    apply rfft2_poly. intros x. rewrite <- (conv_poly M c x i). f_equal.
    rewrite (tg_vort N M tr HN0 HN1 HM0 HM1 c v x Hp Hn Hv).
    destruct i; rewrite (tg_bwd N M tr HN0 HN1 HM0 HM1 c v _ x Hp Hn Hv); reflexivity. }
  rewrite Hr. unfold dphi.
  assert (G : forall l, (forall p, In p l -> (2 * Z.abs (fst (fst p)) < Z.of_nat (M a0))%Z /\ (2 * Z.abs (snd (fst p)) < Z.of_nat (M a1))%Z) ->
     CsumL (map (fun p : Z * Z * R => (fst p, (Ci * RtoC (IZR (match i with a0 => fst (fst p) | a1 => snd (fst p) end)) * RtoC (snd p))%C)) l)
       (fun p => (snd p * cfft2 N M tr (wm M (fst p)) k)%C) =
     (Ci * RtoC (wavenumber2 N i k) * CsumL l (fun p => RtoC (snd p) * cfft2 N M tr (wm M (fst p)) k))%C).
  { induction l as [|p l IH]; intros Hl; cbn [map CsumL]; [ring|]. rewrite IH by (intros q Hq; apply Hl; right; exact Hq). cbn [fst snd].
    destruct (Hl p (or_introl eq_refl)) as [B0 B1].
    pose proof (cfft2_deriv N M tr HN0 HN1 HM0 HM1 (fst p) k i Hk B0 B1) as E.
    transitivity (Ci * RtoC (snd p) * (RtoC (IZR (match i with a0 => fst (fst p) | a1 => snd (fst p) end)) * cfft2 N M tr (wm M (fst p)) k) +
      Ci * RtoC (wavenumber2 N i k) * CsumL l (fun p0 => RtoC (snd p0) * cfft2 N M tr (wm M (fst p0)) k))%C; [ring|].
    rewrite E. ring. }
  apply G. intros p Hi. unfold phi_coefs in Hi. cbn [In] in Hi.
  repeat (destruct Hi as [<-|Hi]; [cbn [fst snd]; lia|]). destruct Hi.
Qed.
(** the right hand side of the NS2D solver on a Taylor-Green field *)
Definition tgT : transf idx idx := mkTransf idx idx (irfft2 N M tr) (rfft2 N M tr).
Lemma conv2_spec_u v : conv2_spec tgT (wavenumber2 N) v = ucrosscurl2 (irfft2 N M tr) (rfft2 N M tr) (wavenumber2 N) v.
Proof. extensionality i. destruct i; reflexivity. Qed.
Lemma tg_rhs c nu m b rhs v : (5 <= M a0)%nat -> (5 <= M a1)%nat -> tr (kp) = 1 -> tr (kn N) = 1 ->
  tg_modes N c v -> tg_modes N (- 2 * nu * c) (fst (ComputeRHS_NS2D tgT (wavenumber2 N) m nu (fun _ _ => C0) b rhs v)).
Proof.
  intros H0 H1 Hp Hn Hv i k Hk. rewrite ComputeRHS_NS2D_fst, conv2_spec_u.
  set (q := CsumL (phi_coefs c) (fun p => RtoC (snd p) * cfft2 N M tr (wm M (fst p)) k)%C).
  assert (Hg : exists q', forall j, mask_nyquist m (ucrosscurl2 (irfft2 N M tr) (rfft2 N M tr) (wavenumber2 N) v) j k = (RtoC (wavenumber2 N j k) * q')%C).
  { destruct m as [m|]; cbn [mask_nyquist].
    - destruct (m k).
      + exists (Ci * q)%C. intros j. rewrite (conv_fwd c v j k) by assumption. fold q. ring.
      + exists C0. intros j. ring.
    - exists (Ci * q)%C. intros j. rewrite (conv_fwd c v j k) by assumption. fold q. ring. }
  destruct Hg as [q' Hq'].
  assert (Hl : leray F2 (wavenumber2 N) (mask_nyquist m (ucrosscurl2 (irfft2 N M tr) (rfft2 N M tr) (wavenumber2 N) v)) i k = C0).
  { unfold leray. destruct (Req_EM_T _ 0) as [E|E].
    - rewrite Hq'. apply knorm2_0 in E. rewrite E. rewrite RtoC_0. ring.
    - assert (Hd : kdot F2 (wavenumber2 N) (mask_nyquist m (ucrosscurl2 (irfft2 N M tr) (rfft2 N M tr) (wavenumber2 N) v)) k =
         (RtoC (knorm2 F2 (wavenumber2 N) k) * q')%C).
      { unfold kdot, knorm2. cbn [elems F2 CsumL RsumL]. rewrite !Hq', !RtoC_add, !RtoC_mul, RtoC_0. ring. }
      rewrite Hd, Hq'. field. apply RtoC_neq0, E. }
  rewrite Hl. rewrite (Hv i k Hk). clear Hl Hq' q' q.
  destruct (Nat.eqb_spec (snd k) 1) as [E1|_]; [|apply C_eq; unfold Csub, Cadd, Copp, Cmul, C0, RtoC; cbn [fst snd]; ring].
  assert (Hkn : forall z, (z = 1%Z \/ z = (-1)%Z) -> freq (N a0) (fst k) = z -> knorm2 F2 (wavenumber2 N) k = 2).
  { intros z Hz E. unfold knorm2. cbn [elems F2 RsumL]. unfold wavenumber2. rewrite E, E1. cbn [INR]. destruct Hz as [-> | ->]; ring. }
  destruct (Z.eqb_spec (freq (N a0) (fst k)) 1) as [E|_].
  { rewrite (Hkn 1%Z) by auto. destruct i; apply C_eq; unfold Csub, Cadd, Copp, Cmul, C0, RtoC; cbn [fst snd]; field. }
  destruct (Z.eqb_spec (freq (N a0) (fst k)) (-1)) as [E|_].
  { rewrite (Hkn (-1)%Z) by auto. apply C_eq; unfold Csub, Cadd, Copp, Cmul, C0, RtoC; cbn [fst snd]; field. }
  apply C_eq; unfold Csub, Cadd, Copp, Cmul, C0, RtoC; cbn [fst snd]; ring.
Qed.
End Flow.

(** selection of the stored modes *)
Lemma tg_sel0 N k : (0 <= 2 * snd (fq N k) <= Z.of_nat (N a1))%Z ->
  ((0, - (1) / 4)%R * (if ((1 =? fst (fq N k)) && (1 =? snd (fq N k)))%Z%bool then C1 else C0) +
   ((0, - (1) / 4)%R * (if ((1 =? fst (fq N k)) && (-1 =? snd (fq N k)))%Z%bool then C1 else C0) +
   ((0, 1 / 4)%R * (if ((-1 =? fst (fq N k)) && (1 =? snd (fq N k)))%Z%bool then C1 else C0) +
   ((0, 1 / 4)%R * (if ((-1 =? fst (fq N k)) && (-1 =? snd (fq N k)))%Z%bool then C1 else C0) + C0))))%C =
  (if (snd k =? 1)%nat then
     if (freq (N a0) (fst k) =? 1)%Z then (0, - (1) / 4)
     else if (freq (N a0) (fst k) =? -1)%Z then (0, 1 / 4) else C0
   else C0).
Proof.
  intros Hb. unfold fq in *. cbn [fst snd] in *. generalize (freq (N a0) (fst k)). intros z.
  destruct (Nat.eqb_spec (snd k) 1) as [E1|E1]; destruct (Z.eqb_spec 1 (Z.of_nat (snd k))); try lia;
  destruct (Z.eqb_spec (-1) (Z.of_nat (snd k))); try lia; rewrite ?Bool.andb_false_r, ?Bool.andb_true_r.
  - rewrite (Z.eqb_sym 1 z), (Z.eqb_sym (-1) z).
    destruct (Z.eqb_spec z 1) as [->|]; [|destruct (Z.eqb_spec z (-1)) as [->|]]; cbn [Z.eqb Pos.eqb];
    apply C_eq; unfold Cadd, Cmul, C0, C1; cbn [fst snd]; field.
  - apply C_eq; unfold Cadd, Cmul, C0, C1; cbn [fst snd]; field.
Qed.
Lemma tg_sel1 N k : (0 <= 2 * snd (fq N k) <= Z.of_nat (N a1))%Z ->
  ((0, 1 / 4)%R * (if ((1 =? fst (fq N k)) && (1 =? snd (fq N k)))%Z%bool then C1 else C0) +
   ((0, - (1) / 4)%R * (if ((1 =? fst (fq N k)) && (-1 =? snd (fq N k)))%Z%bool then C1 else C0) +
   ((0, 1 / 4)%R * (if ((-1 =? fst (fq N k)) && (1 =? snd (fq N k)))%Z%bool then C1 else C0) +
   ((0, - (1) / 4)%R * (if ((-1 =? fst (fq N k)) && (-1 =? snd (fq N k)))%Z%bool then C1 else C0) + C0))))%C =
  (if (snd k =? 1)%nat then
     if (freq (N a0) (fst k) =? 1)%Z then (0, 1 / 4)
     else if (freq (N a0) (fst k) =? -1)%Z then (0, 1 / 4) else C0
   else C0).
Proof.
  intros Hb. unfold fq in *. cbn [fst snd] in *. generalize (freq (N a0) (fst k)). intros z.
  destruct (Nat.eqb_spec (snd k) 1) as [E1|E1]; destruct (Z.eqb_spec 1 (Z.of_nat (snd k))); try lia;
  destruct (Z.eqb_spec (-1) (Z.of_nat (snd k))); try lia; rewrite ?Bool.andb_false_r, ?Bool.andb_true_r.
  - rewrite (Z.eqb_sym 1 z), (Z.eqb_sym (-1) z).
    destruct (Z.eqb_spec z 1) as [->|]; [|destruct (Z.eqb_spec z (-1)) as [->|]]; cbn [Z.eqb Pos.eqb];
    apply C_eq; unfold Cadd, Cmul, C0, C1; cbn [fst snd]; field.
  - apply C_eq; unfold Cadd, Cmul, C0, C1; cbn [fst snd]; field.
Qed.
(** the initial field of the demo *)
Lemma tg_init_modes N U : (3 <= N a0)%nat -> (3 <= N a1)%nat ->
  tg_modes N 1 (tg_init (tgT N N (fun _ => 1)) (mesh2 N) U).
Proof.
  intros H0 H1 i k Hk.
  assert (Hb : forall m, (2 * Z.abs (fst m) < Z.of_nat (N a0))%Z -> (2 * Z.abs (snd m) < Z.of_nat (N a1))%Z ->
    cfft2 N N (fun _ => 1) (wm N m) k = if ((fst m =? fst (fq N k)) && (snd m =? snd (fq N k)))%Z%bool then C1 else C0)
    by (intros m; apply cfft2_wm; try assumption; lia).
  pose proof (fq_bound N N H0 H1 (le_n _) (le_n _) k Hk) as [B0 B1].
  destruct i.
  - transitivity (CsumL (tg0_coefs 1) (fun p => (snd p * cfft2 N N (fun _ => 1%R) (wm N (fst p)) k)%C)).
    + apply (rfft2_poly N N). intros x. rewrite <- tg0_poly. cbn [upd F2 eqd eqb2 taylor_green]. f_equal. ring.
    + unfold tg0_coefs. cbn [CsumL fst snd]. rewrite !Hb by (cbn; lia). apply tg_sel0. exact B1.
  - transitivity (CsumL (tg1_coefs 1) (fun p => (snd p * cfft2 N N (fun _ => 1%R) (wm N (fst p)) k)%C)).
    + apply (rfft2_poly N N). intros x. rewrite <- tg1_poly. cbn [upd F2 eqd eqb2 taylor_green]. f_equal. ring.
    + unfold tg1_coefs. cbn [CsumL fst snd]. rewrite !Hb by (cbn; lia). apply tg_sel1. exact B1.
Qed.

(** ** energy on the mesh *)
Lemma RtoC_RsumL {A} (l : list A) f : RtoC (RsumL l f) = CsumL l (fun i => RtoC (f i)).
Proof. induction l as [|a l IH]; simpl; [reflexivity|]. rewrite RtoC_add, IH. reflexivity. Qed.
Definition e_coefs : list ((Z * Z) * C) :=
  [((0, 0)%Z, RtoC (/ 2)); ((2, 2)%Z, RtoC (- / 8)); ((2, -2)%Z, RtoC (- / 8)); ((-2, 2)%Z, RtoC (- / 8)); ((-2, -2)%Z, RtoC (- / 8))].
Definition esum (x y : R) : R := (sin x * cos y) * (sin x * cos y) + (cos x * sin y) * (cos x * sin y).
Lemma esum_poly N x : RtoC (esum (mesh2 N a0 x) (mesh2 N a1 x)) = tpoly N e_coefs x.
Proof.
  unfold tpoly, e_coefs, esum. cbn [CsumL fst snd]. unfold wm. cbn [fst snd].
  generalize (mesh2 N a0 x) (mesh2 N a1 x). intros X Y.
  pose proof (cos_2a_sin X) as GX. pose proof (cos_2a_sin Y) as GY.
  pose proof (sin2_cos2 X) as HX. pose proof (sin2_cos2 Y) as HY. unfold Rsqr in HX, HY.
  transitivity (RtoC (/ 2 - / 2 * cos (2 * X) * cos (2 * Y))).
  { f_equal. rewrite GX, GY.
    replace ((sin X * cos Y) * (sin X * cos Y)) with (sin X * sin X * (cos Y * cos Y)) by ring.
    replace ((cos X * sin Y) * (cos X * sin Y)) with (cos X * cos X * (sin Y * sin Y)) by ring.
    replace (cos X * cos X) with (1 - sin X * sin X) by lra. replace (cos Y * cos Y) with (1 - sin Y * sin Y) by lra. field. }
  trig. apply C_eq; unfold RtoC, Cadd, Cmul, C0; cbn [fst snd]; field.
Qed.
Lemma esum_sum N : (3 <= N a0)%nat -> (3 <= N a1)%nat ->
  RsumL (points2 N) (fun x => esum (mesh2 N a0 x) (mesh2 N a1 x)) = INR (N a0) * INR (N a1) / 2.
Proof.
  intros H0 H1. apply RtoC_inj. rewrite RtoC_RsumL.
  rewrite (CsumL_ext _ _ (tpoly N e_coefs)) by (intros; apply esum_poly).
  assert (G : forall l, CsumL (points2 N) (tpoly N l) = CsumL l (fun p => (snd p * CsumL (points2 N) (wm N (fst p)))%C)).
  { induction l as [|p l IH]; cbn [CsumL].
    - apply CsumL_0. reflexivity.
    - rewrite <- IH, <- CsumL_scal, <- CsumL_add. reflexivity. }
  rewrite G. unfold e_coefs. cbn [CsumL fst snd].
  rewrite !(wm_sum N N H0 H1 (le_n _) (le_n _)). cbn [fst snd]. rewrite !mod_0_small by lia. cbn [Z.eqb].
  rewrite RtoC_div by lra. rewrite RtoC_mul, RtoC_inv by lra. field. apply RtoC_neq0. lra.
Qed.
Lemma tg_energy_val N dx L (U : pvec ax2 (nat * nat)) a : (3 <= N a0)%nat -> (3 <= N a1)%nat ->
  (forall i, 0 < L i) -> (forall i, dx i = L i / INR (N i)) ->
  (forall x, U a0 x * U a0 x + U a1 x * U a1 x = a * a * esum (mesh2 N a0 x) (mesh2 N a1 x)) ->
  tg_energy (points2 N) dx L U = a * a / 4.
Proof.
  intros H0 H1 HL Hd HU. unfold tg_energy. cbn [elems F2 RsumL].
  replace (RsumL (points2 N) (fun x => U a0 x * U a0 x) + (RsumL (points2 N) (fun x => U a1 x * U a1 x) + 0))
    with (a * a * (INR (N a0) * INR (N a1) / 2)).
  - rewrite !Hd. pose proof (HL a0). pose proof (HL a1). field. repeat split; try lra; apply not_0_INR; lia.
  - rewrite <- (esum_sum N H0 H1), <- RsumL_scal, Rplus_0_r, <- RsumL_add. apply RsumL_ext. intros x _. symmetry. apply HU.
Qed.
Lemma tg_error_val N dx L nu t a v : (3 <= N a0)%nat -> (3 <= N a1)%nat ->
  (forall i, 0 < L i) -> (forall i, dx i = L i / INR (N i)) -> tg_modes N a v ->
  tg_error (tgT N N (fun _ => 1)) (mesh2 N) (points2 N) dx L nu t v =
  a * a / 4 - exp (- 2 * nu * t) * exp (- 2 * nu * t) / 4.
Proof.
  intros H0 H1 HL Hd Hv. unfold tg_error. f_equal; [|f_equal].
  - apply (tg_energy_val N); auto. intros x. unfold bwdV. cbn [bwd tgT].
    rewrite !(tg_bwd N N (fun _ => 1) H0 H1 (le_n _) (le_n _) a v _ x eq_refl eq_refl Hv). cbn [taylor_green]. unfold esum. ring.
  - apply (tg_energy_val N); auto. intros x. cbn [upd F2 eqd eqb2]. unfold esum. ring.
Qed.
