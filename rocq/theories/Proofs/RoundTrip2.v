(** The 2D transform of the field of an array of modes (M = N, nothing truncated): the array back, up to its part that is
    not the spectrum of a real field. *)
From Coq Require Import Reals Lra Lia Arith ZArith List FunctionalExtensionality.
From Verif Require Import Base.Cplx Base.Sums Base.Fin Spec.Fourier Spec.Energy Spec.TaylorGreen Model.Maths Model.NS
  Proofs.Common Proofs.TaylorGreenProofs Proofs.InitFieldsProofs.
Import ListNotations.
Open Scope R_scope.

Lemma CsumL_one {A} (l : list A) (a : A) f : NoDup l -> In a l ->
  (forall c, In c l -> c <> a -> f c = C0) -> CsumL l f = f a.
Proof.
  induction l as [|x l IH]; intros Hn Ha H0; [destruct Ha|]. inversion Hn as [|? ? Hx Hl]; subst.
  cbn [CsumL]. destruct Ha as [->|Ha].
  - rewrite CsumL_0; [ring|]. intros c Hc. apply H0; [right; exact Hc|]. intros ->. contradiction.
  - rewrite IH; auto.
    + rewrite H0; [ring|left; reflexivity|]. intros ->. contradiction.
    + intros c Hc. apply H0. right. exact Hc.
Qed.
Lemma freq_eqm n j : exists q, freq n j = (Z.of_nat j + q * Z.of_nat n)%Z.
Proof. unfold freq. destruct (2 * j <? n)%nat; [exists 0%Z|exists (-1)%Z]; lia. Qed.
Lemma mod0_iff a b : (0 < b)%Z -> ((a mod b =? 0)%Z = true <-> exists q, a = (q * b)%Z).
Proof. intros Hb. rewrite Z.eqb_eq. split; [intros H; apply Z.mod_divide in H; [exact H|lia]|intros [q ->]; apply Z_mod_mult]. Qed.

Definition eqk (a b : nat * nat) : bool := ((fst a =? fst b) && (snd a =? snd b))%nat%bool.
Lemma eqk_spec a b : Bool.reflect (a = b) (eqk a b).
Proof.
  destruct a as [a a'], b as [b b']. unfold eqk. cbn [fst snd]. destruct (Nat.eqb_spec a b), (Nat.eqb_spec a' b'); cbn [andb]; constructor; congruence.
Qed.
Lemma RtoC_sumL {A} (l : list A) f : RtoC (RsumL l f) = CsumL l (fun a => RtoC (f a)).
Proof. induction l as [|a l IH]; cbn [RsumL CsumL]; [reflexivity|]. rewrite RtoC_add, IH. reflexivity. Qed.
Section RT.
Context (N : ax2 -> nat) (tr : nat * nat -> R) (HN0 : (3 <= N a0)%nat) (HN1 : (3 <= N a1)%nat).
Context (Htr : forall k, In k (modes2 N) -> tr k = 1).
Notation idx := (nat * nat)%type.
(** the first index of minus the wavenumber *)
Definition neg0 (j : nat) : nat := ((N a0 - j) mod N a0)%nat.
Definition partner (k : idx) : idx := (neg0 (fst k), snd k).
(** minus the wavenumber is stored in the same column *)
Definition paired (k : idx) : bool := ((snd k =? 0) || (2 * snd k =? N a1))%nat%bool.

Lemma in_modes k : In k (modes2 N) <-> (fst k < N a0)%nat /\ (snd k < N a1 / 2 + 1)%nat.
Proof. apply (in_modes2 N N); lia. Qed.
Lemma cfft2_any m k : In k (modes2 N) -> cfft2 N N tr (wm N m) k =
  if (((fst m - fst (fq N k)) mod Z.of_nat (N a0) =? 0) && ((snd m - snd (fq N k)) mod Z.of_nat (N a1) =? 0))%Z%bool then C1 else C0.
Proof.
  intros Hk. unfold cfft2.
  transitivity (RtoC (tr k / (INR (N a0) * INR (N a1))) * CsumL (points2 N) (wm N ((fst m - fst (fq N k))%Z, (snd m - snd (fq N k))%Z)))%C.
  { f_equal. apply CsumL_ext. intros x _. rewrite wave2_wm. apply wm_conj. }
  rewrite (wm_sum N N) by lia. cbn [fst snd]. rewrite (Htr k Hk).
  destruct (_ mod _ =? 0)%Z; cbn [andb]; [|ring]. destruct (_ mod _ =? 0)%Z; [|ring].
  rewrite <- !RtoC_mul. apply (f_equal RtoC). field. split; apply not_0_INR; lia.
Qed.
Lemma sel_pos k k' : In k (modes2 N) -> In k' (modes2 N) ->
  cfft2 N N tr (wm N (fq N k')) k = if eqk k' k then C1 else C0.
Proof.
  intros Hk Hk'. rewrite cfft2_any by exact Hk. apply in_modes in Hk, Hk'. destruct k as [a b], k' as [a' b']. cbn [fq fst snd] in *.
  pose proof (Nat.div_mod (N a1) 2 ltac:(lia)) as Hd.
  destruct (eqk_spec (a', b') (a, b)) as [E|E].
  - injection E as -> ->. rewrite !Z.sub_diag, !Zmod_0_l. reflexivity.
  - destruct ((freq (N a0) a' - freq (N a0) a) mod Z.of_nat (N a0) =? 0)%Z eqn:E0; [|reflexivity].
    destruct ((Z.of_nat b' - Z.of_nat b) mod Z.of_nat (N a1) =? 0)%Z eqn:E1; [|reflexivity].
    exfalso. apply E. apply mod0_iff in E0; [|lia]. apply mod0_iff in E1; [|lia]. destruct E0 as [q0 E0], E1 as [q1 E1].
    destruct (freq_eqm (N a0) a) as [p Ep], (freq_eqm (N a0) a') as [p' Ep']. rewrite Ep, Ep' in E0.
    assert (q1 = 0)%Z by nia. assert (q0 - p' + p = 0)%Z by nia. f_equal; nia.
Qed.
Lemma neg0_eqm a : (a < N a0)%nat -> exists q, Z.of_nat (neg0 a) = (- Z.of_nat a + q * Z.of_nat (N a0))%Z.
Proof.
  intros Ha. unfold neg0. destruct (Nat.eq_dec a 0) as [->|Hz]; [rewrite Nat.sub_0_r, Nat.mod_same by lia; exists 0%Z; lia|].
  rewrite Nat.mod_small by lia. exists 1%Z. lia.
Qed.
Lemma neg0_lt a : (neg0 a < N a0)%nat.
Proof. apply Nat.mod_upper_bound. lia. Qed.
Lemma partner_in k : In k (modes2 N) -> In (partner k) (modes2 N).
Proof. rewrite !in_modes. cbn [partner fst snd]. pose proof (neg0_lt (fst k)). lia. Qed.
Lemma sel_neg k k' : In k (modes2 N) -> In k' (modes2 N) ->
  cfft2 N N tr (wm N (- fst (fq N k'), - snd (fq N k'))%Z) k =
  if paired k then if eqk k' (partner k) then C1 else C0 else C0.
Proof.
  intros Hk Hk'. rewrite cfft2_any by exact Hk. apply in_modes in Hk, Hk'. destruct k as [a b], k' as [a' b']. unfold paired. cbn [fq fst snd partner] in *.
  pose proof (Nat.div_mod (N a1) 2 ltac:(lia)) as Hd.
  destruct (neg0_eqm a ltac:(lia)) as [r Er]. pose proof (neg0_lt a) as Hl.
  destruct (freq_eqm (N a0) a) as [p Ep], (freq_eqm (N a0) a') as [p' Ep']. rewrite Ep, Ep'.
  assert (Hc : (((- Z.of_nat b' - Z.of_nat b) mod Z.of_nat (N a1) =? 0)%Z = true) <-> (((b =? 0) || (2 * b =? N a1))%nat%bool = true /\ b' = b)).
  { rewrite mod0_iff by lia. rewrite Bool.orb_true_iff, !Nat.eqb_eq. split.
    - intros [q E]. assert (q = 0 \/ q = -1)%Z as [->| ->] by nia; lia.
    - intros [[->|E] ->]; [exists 0%Z|exists (-1)%Z]; lia. }
  assert (Hr : (((- (Z.of_nat a' + p' * Z.of_nat (N a0)) - (Z.of_nat a + p * Z.of_nat (N a0))) mod Z.of_nat (N a0) =? 0)%Z = true) <-> a' = neg0 a).
  { rewrite mod0_iff by lia. split.
    - intros [q E]. apply Nat2Z.inj. assert (q + p' + p + r = 0)%Z by nia. nia.
    - intros ->. exists (- r - p' - p)%Z. rewrite Er. ring. }
  assert (Hq : eqk (a', b') (partner (a, b)) = true <-> a' = neg0 a /\ b' = b).
  { unfold eqk, partner. cbn [fst snd]. rewrite Bool.andb_true_iff, !Nat.eqb_eq. reflexivity. }
  revert Hc Hr Hq. generalize (eqk (a', b') (partner (a, b))) ((b =? 0) || (2 * b =? N a1))%nat%bool.
  generalize ((- Z.of_nat b' - Z.of_nat b) mod Z.of_nat (N a1) =? 0)%Z.
  generalize ((- (Z.of_nat a' + p' * Z.of_nat (N a0)) - (Z.of_nat a + p * Z.of_nat (N a0))) mod Z.of_nat (N a0) =? 0)%Z.
  clear. intros [] [] [] []; cbn [andb]; try reflexivity; intros Hc Hr Hq; pose proof (eq_refl true) as Ht; assert (Hf : false = true) by tauto; discriminate Hf.
Qed.
Lemma wm_opp m x : Cconj (wm N m x) = wm N (- fst m, - snd m)%Z x.
Proof. unfold wm. rewrite cis_conj. f_equal. cbn [fst snd]. rewrite !opp_IZR. ring. Qed.
Lemma roundtrip2 a k : In k (modes2 N) -> rfft2 N N tr (irfft2 N N tr a) k =
  if paired k then (RtoC (/ 2) * (a k + Cconj (a (partner k))))%C else a k.
Proof.
  intros Hk. rewrite rfft2_c.
  rewrite (cfft2_ext N N tr _ (fun x => CsumL (modes2 N) (fun k' => (RtoC (mult2d N k' / 2) * a k') * wm N (fq N k') x)
     + CsumL (modes2 N) (fun k' => (RtoC (mult2d N k' / 2) * Cconj (a k')) * wm N (- fst (fq N k'), - snd (fq N k'))%Z x))%C).
  2:{ intros x. unfold irfft2. rewrite <- CsumL_add. rewrite RtoC_sumL. apply CsumL_ext. intros k' Hk'. rewrite (Htr k' Hk').
      rewrite <- wm_opp, wave2_wm. generalize (wm N (fq N k') x) (a k') (mult2d N k'). clear. intros w z r.
      apply C_eq; unfold RtoC, Cmul, Cadd, Cconj, Re; cbn [fst snd]; field. }
  rewrite cfft2_add.
  rewrite (cfft2_sum N N tr (modes2 N) (fun k' => RtoC (mult2d N k' / 2) * a k')%C (fun k' => wm N (fq N k'))).
  rewrite (cfft2_sum N N tr (modes2 N) (fun k' => RtoC (mult2d N k' / 2) * Cconj (a k'))%C (fun k' => wm N (- fst (fq N k'), - snd (fq N k'))%Z)).
  rewrite (CsumL_one (modes2 N) k (fun k' => (RtoC (mult2d N k' / 2) * a k') * cfft2 N N tr (wm N (fq N k')) k)%C).
  2:{ apply modes2_nodup. } 2:{ exact Hk. }
  2:{ intros c Hc Hd. rewrite sel_pos by assumption. destruct (eqk_spec c k); [contradiction|ring]. }
  rewrite sel_pos by assumption. destruct (eqk_spec k k) as [_|E]; [|contradiction].
  destruct (paired k) eqn:Ep.
  - rewrite (CsumL_one (modes2 N) (partner k)).
    2:{ apply modes2_nodup. } 2:{ apply partner_in, Hk. }
    2:{ intros c Hc Hd. rewrite sel_neg by assumption. rewrite Ep. destruct (eqk_spec c (partner k)); [contradiction|ring]. }
    rewrite sel_neg by (try apply partner_in; assumption). rewrite Ep. destruct (eqk_spec (partner k) (partner k)) as [_|E]; [|contradiction].
    unfold paired in Ep. unfold mult2d. cbn [partner snd]. rewrite Ep. replace (1 / 2) with (/ 2) by lra. ring.
  - rewrite CsumL_0; [|intros c Hc; rewrite sel_neg, Ep by assumption; ring].
    unfold paired in Ep. unfold mult2d. rewrite Ep. replace (2 / 2) with 1 by lra. change (RtoC 1) with C1. ring.
Qed.
(** the transform of a real field is conjugate symmetric *)
Lemma wv_per m q j : wv (N a0) (m + q * Z.of_nat (N a0)) j = wv (N a0) m j /\ wv (N a1) (m + q * Z.of_nat (N a1)) j = wv (N a1) m j.
Proof.
  assert (G : forall M, (0 < M)%nat -> wv M (m + q * Z.of_nat M) j = wv M m j).
  { intros M HM. rewrite <- wv_mul. replace (wv M (q * Z.of_nat M) j) with C1; [ring|].
    unfold wv. rewrite <- (cis_period (q * Z.of_nat j)). f_equal. rewrite !mult_IZR, <- !INR_IZR_INZ. field. apply not_0_INR. lia. }
  split; apply G; lia.
Qed.
Lemma rfft2_herm f k : In k (modes2 N) -> paired k = true -> rfft2 N N tr f (partner k) = Cconj (rfft2 N N tr f k).
Proof.
  intros Hk Hp. unfold rfft2. rewrite (Htr k Hk), (Htr _ (partner_in k Hk)), Cconj_mul, Cconj_R, Cconj_CsumL. f_equal.
  apply CsumL_ext. intros [x y] _. rewrite Cconj_mul, Cconj_R. f_equal. f_equal. rewrite !wave2_wm.
  unfold wm, fq. rewrite cis_conj. cbn [partner fst snd].
  assert (W : forall m n, cis (IZR m * mesh2 N a0 (x, y) + IZR n * mesh2 N a1 (x, y)) = (wv (N a0) m x * wv (N a1) n y)%C).
  { intros m n. unfold wv, mesh2. cbn [fst snd]. rewrite <- cis_add. f_equal. unfold Rdiv. ring. }
  replace (- (IZR (freq (N a0) (fst k)) * mesh2 N a0 (x, y) + IZR (Z.of_nat (snd k)) * mesh2 N a1 (x, y)))
    with (IZR (- freq (N a0) (fst k)) * mesh2 N a0 (x, y) + IZR (- Z.of_nat (snd k)) * mesh2 N a1 (x, y)) by (rewrite !opp_IZR; ring).
  rewrite !W. apply in_modes in Hk. f_equal.
  - destruct (freq_eqm (N a0) (fst k)) as [p ->], (freq_eqm (N a0) (neg0 (fst k))) as [p' ->]. destruct (neg0_eqm (fst k) ltac:(lia)) as [r ->].
    rewrite <- (proj1 (wv_per (- (Z.of_nat (fst k) + p * Z.of_nat (N a0))) (r + p' + p) x)). f_equal. ring.
  - unfold paired in Hp. apply Bool.orb_true_iff in Hp. rewrite !Nat.eqb_eq in Hp. destruct Hp as [->|E]; [reflexivity|].
    rewrite <- (proj2 (wv_per (- Z.of_nat (snd k)) 1 y)). f_equal. lia.
Qed.
End RT.
