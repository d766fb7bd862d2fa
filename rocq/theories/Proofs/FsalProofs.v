(** adaptiveRK against the textbook method; FSAL ring buffer; step-size controller. *)
From Coq Require Import Reals Lra Lia ZArith List FunctionalExtensionality.
From Verif Require Import Base.Cplx Base.Sums Spec.Env Base.Fin Model.Maths Model.Integrators
  Spec.RungeKutta Proofs.IntegratorProofs.
Import ListNotations.
Open Scope R_scope.

Lemma ring_inj s off i j : (i < s)%nat -> (j < s)%nat -> ring s off i = ring s off j -> i = j.
Proof.
  intros Hi Hj H. unfold ring in H.
  assert (Hs : (0 < Z.of_nat s)%Z) by lia.
  pose proof (Z.mod_pos_bound (Z.of_nat i + off) _ Hs).
  pose proof (Z.mod_pos_bound (Z.of_nat j + off) _ Hs).
  apply Z2Nat.inj in H; try lia.
  pose proof (Z.div_mod (Z.of_nat i + off) (Z.of_nat s) ltac:(lia)) as E1.
  pose proof (Z.div_mod (Z.of_nat j + off) (Z.of_nat s) ltac:(lia)) as E2.
  rewrite H in E1. set (p := ((Z.of_nat i + off) / Z.of_nat s)%Z) in *.
  set (q := ((Z.of_nat j + off) / Z.of_nat s)%Z) in *.
  assert (Hd : (Z.of_nat i - Z.of_nat j = Z.of_nat s * (p - q))%Z) by lia.
  assert (p = q).
  { destruct (Z_lt_le_dec p q); [nia|]. destruct (Z_lt_le_dec q p); [nia|lia]. }
  subst p q. lia.
Qed.

(** slot of the first stage after the decrement = slot of the last stage before it *)
Lemma ring_shift s off : (0 < s)%nat ->
  ring s ((off - 1) mod Z.of_nat s) 0 = ring s off (s - 1).
Proof.
  intros Hs. unfold ring. f_equal.
  replace (Z.of_nat 0 + (off - 1) mod Z.of_nat s)%Z with ((off - 1) mod Z.of_nat s)%Z by lia.
  rewrite Z.mod_mod by lia.
  replace (Z.of_nat (s - 1) + off)%Z with (off - 1 + 1 * Z.of_nat s)%Z by lia.
  rewrite Z.mod_add by lia. reflexivity.
Qed.
Lemma off_restore s off : (0 < s)%nat -> (0 <= off < Z.of_nat s)%Z ->
  ((off + 1 - 1) mod Z.of_nat s)%Z = off.
Proof. intros Hs H. replace (off + 1 - 1)%Z with off by lia. apply Z.mod_small; auto. Qed.

Section General.
Context {D I : Type}.
Notation V := (svec D I).
Context (f : V -> V) (A : nat -> nat -> R) (b bhat : nat -> R) (s : nat).

Lemma rk_stages_length dt u n : length (rk_stages f A dt u n) = n.
Proof. induction n as [|n IH]; simpl; auto. rewrite app_length, IH. simpl. lia. Qed.
Lemma rk_stages_nth dt u n : forall j, (j < n)%nat ->
  nth j (rk_stages f A dt u n) (fun _ _ => C0) = rk_k f A dt u j.
Proof.
  induction n as [|n IH]; intros j Hj; [lia|].
  destruct (Nat.eq_dec j n) as [->|Hn]; [reflexivity|].
  simpl. rewrite app_nth1 by (rewrite rk_stages_length; lia). apply IH; lia.
Qed.
Lemma rk_k_eq dt u i : rk_k f A dt u i = f (combo u dt i (A i) (rk_k f A dt u)).
Proof.
  unfold rk_k at 1. simpl. rewrite app_nth2 by (rewrite rk_stages_length; lia).
  rewrite rk_stages_length, Nat.sub_diag. simpl. f_equal.
  unfold combo. extensionality c; extensionality k. f_equal. f_equal.
  apply Csum_ext. intros j Hj. rewrite rk_stages_nth by assumption. reflexivity.
Qed.

Lemma fold_axpy dt (w : nat -> R) (g : nat -> V) n : forall a v,
  fold_left (fun v j => axpy v (dt * w j) (g j)) (seq a n) v =
  (fun i k => (v i k + RtoC dt * Csum n (fun j => RtoC (w (a + j)%nat) * g (a + j)%nat i k))%C).
Proof.
  induction n as [|n IH]; intros a v.
  - simpl. extensionality i; extensionality k. ring.
  - cbn [seq fold_left]. rewrite IH. extensionality i; extensionality k.
    rewrite Csum_S_l, Nat.add_0_r. unfold axpy. rewrite RtoC_mul.
    rewrite (Csum_ext n (fun j => (RtoC (w (S a + j)%nat) * g (S a + j)%nat i k)%C)
       (fun j => (RtoC (w (a + S j)%nat) * g (a + S j)%nat i k)%C)).
    2:{ intros j _. rewrite Nat.add_succ_r. reflexivity. }
    ring.
Qed.
End General.

Lemma updn_same {D I} (fY : nat -> svec D I) n v : updn fY n v n = v.
Proof. unfold updn. rewrite Nat.eqb_refl. reflexivity. Qed.
Lemma updn_other {D I} (fY : nat -> svec D I) n m v : m <> n -> updn fY n v m = fY m.
Proof. intros H. unfold updn. destruct (Nat.eqb_spec m n); congruence. Qed.
Lemma updn_updn {D I} (fY : nat -> svec D I) n v w : updn (updn fY n v) n w = updn fY n w.
Proof. extensionality m. unfold updn. destruct (Nat.eqb m n); reflexivity. Qed.

Section Loop.
Context {D I ctx : Type}.
Notation V := (svec D I).
Context (ComputeRHS : ctx -> V -> V -> V * ctx) (f : V -> V) (Hf : computes ComputeRHS f).
Context (A : nat -> nat -> R) (b bhat : nat -> R) (s : nat) (Hs : (0 < s)%nat).
Notation ist := (istate D I ctx).

(** evaluation of one stage: slot i becomes k_i if the earlier slots hold k_j *)
Lemma stage_eval_full dt i (st : ist) : (i < s)%nat ->
  (forall j, (j < i)%nat -> s_fY st (ring s (s_off st) j) = rk_k f A dt (s_u0 st) j) ->
  let st' := rk_stage_eval ComputeRHS A s dt i st in
  s_u0 st' = s_u0 st /\ s_off st' = s_off st /\ s_u1 st' = s_u1 st /\
  s_fY st' (ring s (s_off st) i) = rk_k f A dt (s_u0 st) i /\
  (forall m, m <> ring s (s_off st) i -> s_fY st' m = s_fY st m) /\
  s_ctx st' = snd (ComputeRHS (s_ctx st) (s_rhs st) (combo (s_u0 st) dt i (A i) (rk_k f A dt (s_u0 st)))).
Proof.
  intros Hi Hk. unfold rk_stage_eval.
  set (sl := ring s (s_off st) i).
  assert (G : forall n a (fY : nat -> V), (a + n <= i)%nat ->
     fold_left (fun fY j => updn fY sl (axpy (fY sl) (dt * A i j) (fY (ring s (s_off st) j)))) (seq a n) fY
     = updn fY sl (fold_left (fun v j => axpy v (dt * A i j) (fY (ring s (s_off st) j))) (seq a n) (fY sl))).
  { induction n as [|n IH]; intros a fY Ha.
    - simpl. extensionality m. unfold updn. destruct (Nat.eqb_spec m sl); subst; reflexivity.
    - cbn [seq fold_left]. rewrite IH by lia. rewrite updn_updn, !updn_same. f_equal.
      rewrite (fold_axpy dt (A i) (fun j => updn fY sl (axpy (fY sl) (dt * A i a) (fY (ring s (s_off st) a))) (ring s (s_off st) j))).
      rewrite (fold_axpy dt (A i) (fun j => fY (ring s (s_off st) j))).
      extensionality c; extensionality k. f_equal. f_equal. apply Csum_ext. intros j Hj.
      rewrite updn_other; [reflexivity|]. intros E. apply ring_inj in E; lia. }
  rewrite G by lia. set (fY0 := updn (s_fY st) sl (s_u0 st)).
  assert (E : fold_left (fun v j => axpy v (dt * A i j) (fY0 (ring s (s_off st) j))) (seq 0 i) (fY0 sl)
            = combo (s_u0 st) dt i (A i) (rk_k f A dt (s_u0 st))).
  { rewrite (fold_axpy dt (A i) (fun j => fY0 (ring s (s_off st) j))).
    unfold combo. extensionality c; extensionality k.
    replace (fY0 sl) with (s_u0 st) by (unfold fY0, updn; rewrite Nat.eqb_refl; reflexivity).
    f_equal. f_equal. apply Csum_ext. intros j Hj. cbn [Nat.add].
    unfold fY0, updn. destruct (Nat.eqb_spec (ring s (s_off st) j) sl) as [Ex|Ex].
    - apply ring_inj in Ex; lia.
    - rewrite Hk by assumption. reflexivity. }
  rewrite E.
  rewrite updn_same.
  pose proof (Hf (s_ctx st) (s_rhs st) (combo (s_u0 st) dt i (A i) (rk_k f A dt (s_u0 st)))) as H.
  destruct (ComputeRHS _ _ _) as [r c]; cbn [fst] in H. cbn [s_u0 s_off s_u1 s_fY].
  rewrite <- rk_k_eq in H. subst r.
  repeat (split; [first [reflexivity | apply updn_same]|]).
  split; [|reflexivity].
  intros m Hm. unfold fY0. rewrite !updn_other by assumption. reflexivity.
Qed.

Lemma stage_eval_spec dt i (st : ist) : (i < s)%nat ->
  (forall j, (j < i)%nat -> s_fY st (ring s (s_off st) j) = rk_k f A dt (s_u0 st) j) ->
  let st' := rk_stage_eval ComputeRHS A s dt i st in
  s_u0 st' = s_u0 st /\ s_off st' = s_off st /\ s_u1 st' = s_u1 st /\
  s_fY st' (ring s (s_off st) i) = rk_k f A dt (s_u0 st) i /\
  (forall m, m <> ring s (s_off st) i -> s_fY st' m = s_fY st m).
Proof.
  intros Hi Hk. destruct (stage_eval_full dt i st Hi Hk) as (E0 & E1 & E2 & E3 & E4 & _). cbn zeta. auto.
Qed.

(** FSAL precondition: the slot that will be read as first stage holds f(u0) *)
Definition fsal_ready (st : ist) : Prop :=
  s_fY st (ring s ((s_off st - 1) mod Z.of_nat s) 0) = f (s_u0 st).

Lemma rk_k_0 dt u : rk_k f A dt u 0 = f u.
Proof.
  rewrite rk_k_eq. f_equal. unfold combo. extensionality i; extensionality k. simpl. ring.
Qed.

Definition stage_body (fsal : bool) (ts : nat) (dt : R) (st : ist) (i : nat) : ist :=
  if orb (negb fsal) (orb (Nat.eqb ts 0) (negb (Nat.eqb i 0)))
  then rk_stage_eval ComputeRHS A s dt i st else st.

Lemma stages_partial fsal ts dt (st : ist) :
  (fsal = true -> ts <> 0%nat -> s_fY st (ring s (s_off st) 0) = f (s_u0 st)) ->
  forall n, (n <= s)%nat ->
    let st' := fold_left (stage_body fsal ts dt) (seq 0 n) st in
    s_u0 st' = s_u0 st /\ s_off st' = s_off st /\ s_u1 st' = s_u1 st /\
    (forall i, (i < n)%nat -> s_fY st' (ring s (s_off st) i) = rk_k f A dt (s_u0 st) i) /\
    (fsal = true -> ts <> 0%nat -> s_fY st' (ring s (s_off st) 0) = s_fY st (ring s (s_off st) 0)).
Proof.
  intros H0. cbn zeta.
    induction n as [|n IH]; intros Hn.
    - simpl. repeat split; auto. intros i Hi; lia.
    - rewrite seq_S, fold_left_app. cbn [fold_left Nat.add]. cbn zeta.
      destruct (IH ltac:(lia)) as (E0 & Eo & E1 & Ek & Ef).
      set (st1 := fold_left (stage_body fsal ts dt) (seq 0 n) st) in *.
      unfold stage_body.
      destruct (orb (negb fsal) (orb (Nat.eqb ts 0) (negb (Nat.eqb n 0)))) eqn:Eb.
      + destruct (stage_eval_spec dt n st1) as (F0 & Fo & F1 & Fk & Fm); [lia| |].
        { intros j Hj. rewrite Eo, E0. apply Ek; assumption. }
        rewrite Eo, E0 in Fk. rewrite Eo in Fm.
        repeat split; try congruence.
        * intros i Hi. destruct (Nat.eq_dec i n) as [->|Hin]; [exact Fk|].
          rewrite Fm by (intros Ex; apply ring_inj in Ex; lia). apply Ek; lia.
        * intros Hfs Hts. rewrite Fm; [apply Ef; auto|].
          intros Ex. apply ring_inj in Ex; [|lia|lia]. subst n.
          rewrite Hfs in Eb. apply Nat.eqb_neq in Hts. rewrite Hts in Eb. discriminate.
      + apply Bool.orb_false_iff in Eb. destruct Eb as [Eb1 Eb2].
        apply Bool.orb_false_iff in Eb2. destruct Eb2 as [Eb2 Eb3].
        apply Bool.negb_false_iff in Eb1, Eb3. apply Nat.eqb_neq in Eb2. apply Nat.eqb_eq in Eb3.
        subst n. repeat split; auto.
        intros i Hi. replace i with 0%nat by lia. rewrite rk_k_0. rewrite Ef by assumption. auto.
Qed.

Lemma stages_loop_spec fsal ts dt (st : ist) :
  (fsal = true -> ts <> 0%nat -> s_fY st (ring s (s_off st) 0) = f (s_u0 st)) ->
  let st' := rk_stages_loop ComputeRHS A s fsal ts dt st in
  s_u0 st' = s_u0 st /\ s_off st' = s_off st /\ s_u1 st' = s_u1 st /\
  (forall i, (i < s)%nat -> s_fY st' (ring s (s_off st) i) = rk_k f A dt (s_u0 st) i) /\
  (fsal = true -> ts <> 0%nat -> s_fY st' (ring s (s_off st) 0) = s_fY st (ring s (s_off st) 0)).
Proof.
  intros H0. apply (stages_partial fsal ts dt st H0 s). lia.
Qed.

(** the last call of ComputeRHS in an attempt *)
Lemma stages_loop_ctx fsal ts dt (st : ist) : (1 < s)%nat ->
  (fsal = true -> ts <> 0%nat -> s_fY st (ring s (s_off st) 0) = f (s_u0 st)) ->
  exists c r, s_ctx (rk_stages_loop ComputeRHS A s fsal ts dt st) =
    snd (ComputeRHS c r (combo (s_u0 st) dt (s - 1) (A (s - 1)%nat) (rk_k f A dt (s_u0 st)))).
Proof.
  intros Hs1 H0. change (rk_stages_loop ComputeRHS A s fsal ts dt st)
    with (fold_left (stage_body fsal ts dt) (seq 0 s) st).
  replace (seq 0 s) with (seq 0 (s - 1) ++ [(s - 1)%nat]).
  2:{ replace s with (S (s - 1)) at 3 by lia. rewrite seq_S. reflexivity. }
  rewrite fold_left_app. cbn [fold_left].
  destruct (stages_partial fsal ts dt st H0 (s - 1) ltac:(lia)) as (E0 & Eo & E1 & Ek & Ef).
  set (st1 := fold_left (stage_body fsal ts dt) (seq 0 (s - 1)) st) in *.
  unfold stage_body.
  replace (Nat.eqb (s - 1) 0) with false by (symmetry; apply Nat.eqb_neq; lia).
  cbn [negb]. rewrite !Bool.orb_true_r.
  destruct (stage_eval_full dt (s - 1) st1) as (_ & _ & _ & _ & _ & F); [lia| |].
  { intros j Hj. rewrite Eo, E0. apply Ek; assumption. }
  rewrite E0 in F. eauto.
Qed.

Lemma rk_new_spec dt (st : ist) u :
  s_u0 st = u ->
  (forall i, (i < s)%nat -> s_fY st (ring s (s_off st) i) = rk_k f A dt u i) ->
  rk_new b s dt st = rk_step f A b s dt u /\ rk_err b bhat s dt st = rk_error f A b bhat s dt u.
Proof.
  intros Hu Hk.
  assert (Es : forall g : nat -> C, Csum s g = (g 0%nat + Csum (s - 1) (fun j => g (S j)))%C).
  { intros g. rewrite <- Csum_S_l. f_equal. lia. }
  split.
  - unfold rk_new. rewrite (fold_axpy dt b (fun j => s_fY st (ring s (s_off st) j))).
    unfold rk_step, combo. extensionality i; extensionality k.
    rewrite Es. unfold axpy. rewrite RtoC_mul, Hu, (Hk 0%nat) by lia.
    rewrite (Csum_ext (s-1) (fun j => (RtoC (b (1 + j)%nat) * s_fY st (ring s (s_off st) (1 + j)) i k)%C)
       (fun j => (RtoC (b (S j)) * rk_k f A dt u (S j) i k)%C)).
    2:{ intros j Hj. cbn [Nat.add]. rewrite Hk by lia. reflexivity. }
    ring.
  - unfold rk_err. rewrite (fold_axpy dt (fun j => b j - bhat j) (fun j => s_fY st (ring s (s_off st) j))).
    unfold rk_error, combo. extensionality i; extensionality k.
    rewrite Es. unfold vscal. rewrite RtoC_mul, (Hk 0%nat) by lia.
    rewrite (Csum_ext (s-1) (fun j => (RtoC (b (1 + j)%nat - bhat (1 + j)%nat) * s_fY st (ring s (s_off st) (1 + j)) i k)%C)
       (fun j => (RtoC (b (S j) - bhat (S j)) * rk_k f A dt u (S j) i k)%C)).
    2:{ intros j Hj. cbn [Nat.add]. rewrite Hk by lia. reflexivity. }
    ring.
Qed.

Context (est_of : V -> V -> V -> R).
(** error estimate of a textbook step of size dt from u *)
Definition step_est (dt : R) (u : V) : R :=
  est_of u (rk_step f A b s dt u) (rk_error f A b bhat s dt u).

(** FSAL tableau: last row of A is b, and b_{s-1} = 0 *)
Definition fsal_tableau : Prop :=
  (forall j, (j < s - 1)%nat -> A (s - 1)%nat j = b j) /\ b (s - 1)%nat = 0.

Lemma fsal_last (Ht : fsal_tableau) dt u : rk_k f A dt u (s - 1) = f (rk_step f A b s dt u).
Proof.
  rewrite rk_k_eq. f_equal. unfold rk_step, combo. extensionality i; extensionality k. f_equal. f_equal.
  assert (Es : forall g : nat -> C, Csum s g = (Csum (s - 1) g + g (s - 1)%nat)%C).
  { intros g. replace s with (S (s - 1)) at 1 by lia. reflexivity. }
  rewrite Es, (proj2 Ht), RtoC_0.
  rewrite (Csum_ext (s-1) (fun j => (RtoC (A (s - 1)%nat j) * rk_k f A dt u j i k)%C)
     (fun j => (RtoC (b j) * rk_k f A dt u j i k)%C)).
  - ring.
  - intros j Hj. rewrite (proj1 Ht) by assumption. reflexivity.
Qed.

(** One attempt, fsal = true *)
Lemma attempt_spec (Ht : fsal_tableau) ad ts dt fm (st : ist) :
  (ts <> 0%nat -> fsal_ready st) ->
  let u := s_u0 st in
  let e := step_est dt u in
  match attempt ComputeRHS A b bhat s est_of true ad ts dt fm st with
  | Retry st' dt' fm' =>
      ad = true /\ 1 < e /\ dt' = dt * factor fm e /\ fm' = 1 /\ s_u0 st' = u /\
      (ts <> 0%nat -> fsal_ready st')
  | Accept st' dt' dp =>
      (ad = true -> e <= 1 /\ dt' = dt * factor fm e) /\ (ad = false -> dt' = dt) /\ dp = dt /\
      s_u1 st' = rk_step f A b s dt u /\
      s_fY st' (ring s ((s_off st' - 1) mod Z.of_nat s) 0) = f (rk_step f A b s dt u)
  end.
Proof.
  intros Hr. cbn zeta. unfold attempt.
  set (st1 := mkIstate (s_u0 st) (s_u1 st) (s_u2 st) (s_rhs st) (s_fY st)
     ((s_off st - 1) mod Z.of_nat s)%Z (s_ctx st)).
  destruct (stages_loop_spec true ts dt st1) as (E0 & Eo & E1 & Ek & Ef).
  { intros _ Hts. apply Hr, Hts. }
  set (st2 := rk_stages_loop ComputeRHS A s true ts dt st1) in *.
  cbn [st1 s_u0 s_off s_u1 s_fY] in E0, Eo, E1, Ek, Ef.
  destruct (rk_new_spec dt st2 (s_u0 st)) as [En Er]; [exact E0| |].
  { intros i Hi. rewrite Eo. apply Ek, Hi. }
  cbn [s_u0 s_u1 s_u2 s_rhs s_fY s_off s_ctx].
  rewrite En, Er, E0. fold (step_est dt (s_u0 st)). set (e := step_est dt (s_u0 st)).
  assert (Hlast : s_fY st2 (ring s ((s_off st2 - 1) mod Z.of_nat s) 0)
                  = f (rk_step f A b s dt (s_u0 st))).
  { rewrite ring_shift by exact Hs. rewrite Eo.
    rewrite Ek by lia. apply fsal_last, Ht. }
  destruct ad.
  - destruct (Rlt_dec 1 e) as [He|He].
    + repeat split; auto. intros Hts. unfold fsal_ready. cbn [s_off s_fY s_u0].
      replace ((s_off st2 + 1 - 1) mod Z.of_nat s)%Z with (s_off st2).
      * rewrite Eo. rewrite Ef by auto. apply Hr, Hts.
      * symmetry. apply off_restore; [exact Hs|]. rewrite Eo. apply Z.mod_pos_bound. lia.
    + cbn [s_off s_fY s_u1]. repeat split; auto; try discriminate. lra.
  - cbn [s_off s_fY s_u1]. repeat split; auto; discriminate.
Qed.

(** ** Controller *)
Lemma factor_bounds fm e : 0 <= e -> facmin <= fm -> facmin <= factor fm e <= fm.
Proof.
  intros He Hm. unfold factor. destruct (Req_EM_T e 0); [lra|].
  split.
  - apply Rmin_glb; [exact Hm|]. apply Rmax_l.
  - apply Rmin_l.
Qed.
Lemma Rpower_inv_lt1 e : 1 < e -> Rpower (/ e) (/ 5) < 1.
Proof.
  intros He. unfold Rpower. rewrite ln_Rinv by lra.
  rewrite <- exp_0. apply exp_increasing.
  assert (0 < ln e) by (rewrite <- ln_1; apply ln_increasing; lra). lra.
Qed.
Lemma Rpower_inv_ge1 e : 0 < e <= 1 -> 1 <= Rpower (/ e) (/ 5).
Proof.
  intros He. unfold Rpower. rewrite ln_Rinv by lra.
  destruct (Req_dec e 1) as [->|Hn].
  - rewrite ln_1. replace (/5 * - 0) with 0 by lra. rewrite exp_0. lra.
  - assert (ln e < 0) by (rewrite <- ln_1; apply ln_increasing; lra).
    left. rewrite <- exp_0 at 1. apply exp_increasing. lra.
Qed.
Lemma factor_reject fm e : 1 < e -> factor fm e <= fac.
Proof.
  intros He. unfold factor. destruct (Req_EM_T e 0); [lra|].
  eapply Rle_trans; [apply Rmin_r|]. apply Rmax_lub; [unfold facmin, fac; lra|].
  pose proof (Rpower_inv_lt1 e He). unfold fac in *. nra.
Qed.
Lemma factor_accept fm e : 0 <= e <= 1 -> fac <= fm -> fac <= factor fm e.
Proof.
  intros He Hm. unfold factor. destruct (Req_EM_T e 0); [lra|].
  apply Rmin_glb; [exact Hm|]. eapply Rle_trans; [|apply Rmax_r].
  pose proof (Rpower_inv_ge1 e ltac:(lra)). unfold fac. nra.
Qed.

(** ** The whole retry loop, fsal = true *)
Lemma loop_spec (Ht : fsal_tableau) (Hest : forall u v w, 0 <= est_of u v w) fuel ad ts :
  forall dt fm (st : ist) st' dt' took, 0 < dt -> 1 <= fm <= 2 ->
  (ts <> 0%nat -> fsal_ready st) ->
  adaptive_loop ComputeRHS A b bhat s est_of fuel true ad ts dt fm st = Some (st', dt', took) ->
  s_u0 st' = rk_step f A b s took (s_u0 st) /\ fsal_ready st' /\
  (ad = false -> took = dt /\ dt' = dt) /\
  (ad = true -> step_est took (s_u0 st) <= 1 /\ 0 < took <= dt /\
     fac * took <= dt' <= fm * took /\ (took <> dt -> took <= fac * dt /\ dt' <= took)).
Proof.
  induction fuel as [|n IH]; intros dt fm st st' dt' took Hdt Hfm Hr E; [discriminate|].
  cbn [adaptive_loop] in E.
  pose proof (attempt_spec Ht ad ts dt fm st Hr) as Ha. cbn zeta in Ha.
  destruct (attempt _ _ _ _ _ _ _ _ _ _ _ _) as [st1 dt1 fm1|st1 dt1 dp].
  - destruct Ha as (Had & He & Hdt1 & Hfm1 & Hu & Hr1). subst fm1 ad.
    pose proof (factor_bounds fm (step_est dt (s_u0 st)) (Hest _ _ _)
       ltac:(unfold facmin, fac in *; lra)) as Hb.
    pose proof (factor_reject fm _ He) as Hrj.
    assert (Hdt1p : 0 < dt1 <= fac * dt) by (unfold facmin, fac in *; subst dt1; nra).
    destruct (IH dt1 1 st1 st' dt' took) as (G1 & G2 & G3 & G4); auto; [lra|lra|].
    rewrite Hu in *. split; [exact G1|]. split; [exact G2|]. split; [discriminate|].
    intros _. destruct (G4 eq_refl) as (G5 & G6 & G7 & G8).
    split; [exact G5|]. unfold fac in *. repeat split; try lra; try nra.
  - injection E as <- <- <-. cbn [s_u0]. destruct Ha as (Hadt & Hadf & -> & Hu & Hl).
    split; [exact Hu|]. split; [unfold fsal_ready; cbn [s_off s_fY s_u0]; rewrite Hu; exact Hl|].
    split; [intros Had; split; [reflexivity|apply Hadf, Had]|].
    intros Had. destruct (Hadt Had) as [He ->]. split; [exact He|].
    split; [lra|]. split; [|congruence].
    pose proof (factor_bounds fm (step_est dt (s_u0 st)) (Hest _ _ _)
       ltac:(unfold facmin, fac in *; lra)) as Hb.
    pose proof (factor_accept fm (step_est dt (s_u0 st)) ltac:(split; [apply Hest|exact He]) ltac:(unfold fac; lra)).
    nra.
Qed.

(** ** Termination of the retry loop *)
(** which field the solver's buffers belong to after an accepted step: the last evaluation
    of the right hand side was at the new solution *)
Lemma fsal_last_arg (Ht : fsal_tableau) dt u :
  combo u dt (s - 1) (A (s - 1)%nat) (rk_k f A dt u) = rk_step f A b s dt u.
Proof.
  unfold rk_step, combo. extensionality i; extensionality k. f_equal. f_equal.
  assert (Es : forall g : nat -> C, Csum s g = (Csum (s - 1) g + g (s - 1)%nat)%C).
  { intros g. replace s with (S (s - 1)) at 1 by lia. reflexivity. }
  rewrite Es, (proj2 Ht), RtoC_0.
  rewrite (Csum_ext (s-1) (fun j => (RtoC (A (s - 1)%nat j) * rk_k f A dt u j i k)%C)
     (fun j => (RtoC (b j) * rk_k f A dt u j i k)%C)).
  - ring.
  - intros j Hj. rewrite (proj1 Ht) by assumption. reflexivity.
Qed.
Lemma attempt_ctx (Ht : fsal_tableau) (Hs1 : (1 < s)%nat) ad ts dt fm (st : ist) :
  (ts <> 0%nat -> fsal_ready st) ->
  match attempt ComputeRHS A b bhat s est_of true ad ts dt fm st with
  | Retry st' _ _ | Accept st' _ _ =>
      exists c r, s_ctx st' = snd (ComputeRHS c r (rk_step f A b s dt (s_u0 st)))
  end.
Proof.
  intros Hr. unfold attempt.
  set (st1 := mkIstate (s_u0 st) (s_u1 st) (s_u2 st) (s_rhs st) (s_fY st)
     ((s_off st - 1) mod Z.of_nat s)%Z (s_ctx st)).
  destruct (stages_loop_ctx true ts dt st1 Hs1) as (c & r & Ec).
  { intros _ Hts. apply Hr, Hts. }
  cbn [st1 s_u0] in Ec. rewrite (fsal_last_arg Ht) in Ec.
  destruct ad; [destruct (Rlt_dec _ _)|]; cbn [s_ctx]; eauto.
Qed.
Lemma loop_ctx (Ht : fsal_tableau) (Hs1 : (1 < s)%nat) fuel ad ts :
  forall dt fm (st : ist) st' dt' took,
  (ts <> 0%nat -> fsal_ready st) ->
  adaptive_loop ComputeRHS A b bhat s est_of fuel true ad ts dt fm st = Some (st', dt', took) ->
  exists c r, s_ctx st' = snd (ComputeRHS c r (s_u0 st')).
Proof.
  induction fuel as [|n IH]; intros dt fm st st' dt' took Hr E; [discriminate|].
  cbn [adaptive_loop] in E.
  pose proof (attempt_spec Ht ad ts dt fm st Hr) as Ha. cbn zeta in Ha.
  pose proof (attempt_ctx Ht Hs1 ad ts dt fm st Hr) as Hc.
  destruct (attempt _ _ _ _ _ _ _ _ _ _ _ _) as [st1 dt1 fm1|st1 dt1 dp].
  - destruct Ha as (_ & _ & _ & _ & _ & Hr1). apply (IH _ _ _ _ _ _ Hr1 E).
  - injection E as <- <- <-. destruct Ha as (_ & _ & _ & Hu & _). destruct Hc as (c & r & Hc).
    cbn [s_ctx s_u0]. rewrite Hu. eauto.
Qed.

Lemma adaptive_loop_S n fsal ad ts dt fm (st : ist) :
  adaptive_loop ComputeRHS A b bhat s est_of (S n) fsal ad ts dt fm st =
  match attempt ComputeRHS A b bhat s est_of fsal ad ts dt fm st with
  | Retry st dt fm => adaptive_loop ComputeRHS A b bhat s est_of n fsal ad ts dt fm st
  | Accept st dt dp => Some (mkIstate (s_u1 st) (s_u1 st) (s_u2 st) (s_rhs st) (s_fY st) (s_off st) (s_ctx st), dt, dp)
  end.
Proof. reflexivity. Qed.
Lemma loop_terminates (Ht : fsal_tableau) (Hest : forall u v w, 0 <= est_of u v w) ad ts delta :
  forall n dt fm (st : ist), 0 < dt -> facmin <= fm ->
  (ts <> 0%nat -> fsal_ready st) ->
  (forall h, 0 < h <= delta -> step_est h (s_u0 st) <= 1) ->
  dt * fac ^ n <= delta ->
  exists r, adaptive_loop ComputeRHS A b bhat s est_of (S n) true ad ts dt fm st = Some r.
Proof.
  induction n as [|n IH]; intros dt fm st Hdt Hfm Hr He Hd;
   rewrite adaptive_loop_S;
   pose proof (attempt_spec Ht ad ts dt fm st Hr) as Ha; cbn zeta in Ha;
   destruct (attempt _ _ _ _ _ _ _ _ _ _ _ _) as [st1 dt1 fm1|st1 dt1 dp].
  - exfalso. destruct Ha as (_ & H1 & _). specialize (He dt ltac:(simpl in Hd; lra)). lra.
  - eexists; reflexivity.
  - destruct Ha as (Had & H1 & Hdt1 & Hfm1 & Hu & Hr1). subst fm1.
    pose proof (factor_bounds fm (step_est dt (s_u0 st)) (Hest _ _ _) Hfm) as Hb.
    pose proof (factor_reject fm _ H1) as Hrj.
    apply IH; auto.
    + subst dt1. unfold facmin in *. nra.
    + unfold facmin; lra.
    + rewrite Hu. exact He.
    + simpl in Hd. pose proof (pow_lt fac n ltac:(unfold fac; lra)) as Hp. subst dt1.
      apply Rle_trans with (dt * fac * fac ^ n); [|lra].
      apply Rmult_le_compat_r; [lra|]. apply Rmult_le_compat_l; lra.
  - eexists; reflexivity.
Qed.

(** accepted steps are textbook steps, for steps of either sign *)
Lemma loop_step (Ht : fsal_tableau) fuel ad ts :
  forall dt fm (st : ist) st' dt' took,
  (ts <> 0%nat -> fsal_ready st) ->
  adaptive_loop ComputeRHS A b bhat s est_of fuel true ad ts dt fm st = Some (st', dt', took) ->
  s_u0 st' = rk_step f A b s took (s_u0 st) /\ fsal_ready st'.
Proof.
  induction fuel as [|n IH]; intros dt fm st st' dt' took Hr E; [discriminate|].
  cbn [adaptive_loop] in E.
  pose proof (attempt_spec Ht ad ts dt fm st Hr) as Ha. cbn zeta in Ha.
  destruct (attempt _ _ _ _ _ _ _ _ _ _ _ _) as [st1 dt1 fm1|st1 dt1 dp].
  - destruct Ha as (Had & He & Hdt1 & Hfm1 & Hu & Hr1).
    destruct (IH _ _ _ _ _ _ Hr1 E) as [G1 G2]. rewrite Hu in G1. auto.
  - injection E as <- <- <-. cbn [s_u0]. destruct Ha as (_ & _ & -> & Hu & Hl).
    split; [exact Hu|]. unfold fsal_ready; cbn [s_off s_fY s_u0]. rewrite Hu. exact Hl.
Qed.

(** If the estimate is at most fac^5 for all steps of length at most delta (in the direction
    sg = 1 or -1), the loop returns, and neither the step taken nor the next step proposed is
    shorter than min(h, delta/100). *)
Lemma Rpower_inv_ge_fac e : 0 < e <= fac ^ 5 -> 1 <= fac * Rpower (/ e) (/ 5).
Proof.
  intros He. unfold Rpower. rewrite ln_Rinv by lra.
  assert (Hf0 : 0 < fac) by (unfold fac; lra).
  assert (Hl : ln e <= 5 * ln fac).
  { replace (5 * ln fac) with (ln (fac ^ 5)).
    - destruct (proj2 He) as [H|H]; [left; apply ln_increasing; lra|right; congruence].
    - rewrite <- Rpower_pow by exact Hf0. unfold Rpower. rewrite ln_exp. simpl. lra. }
  rewrite <- (exp_ln fac Hf0) at 1. rewrite <- exp_plus.
  rewrite <- exp_0. destruct (Rle_lt_or_eq_dec 0 (ln fac + / 5 * - ln e) ltac:(lra)) as [H|H].
  - left. apply exp_increasing. exact H.
  - right. rewrite <- H. reflexivity.
Qed.
Lemma factor_small fm e : 0 <= e <= fac ^ 5 -> 1 <= fm -> 1 <= factor fm e.
Proof.
  intros He Hm. unfold factor. destruct (Req_EM_T e 0); [exact Hm|].
  apply Rmin_glb; [exact Hm|]. eapply Rle_trans; [|apply Rmax_r].
  apply Rpower_inv_ge_fac. lra.
Qed.
Lemma loop_progress (Ht : fsal_tableau) (Hest : forall u v w, 0 <= est_of u v w) ts delta sg :
  0 < delta ->
  forall n h fm (st : ist), 0 < h -> 1 <= fm <= 2 ->
  (ts <> 0%nat -> fsal_ready st) ->
  (forall h', 0 < h' <= delta -> step_est (sg * h') (s_u0 st) <= fac ^ 5) ->
  h * fac ^ n <= delta ->
  exists st' d k, adaptive_loop ComputeRHS A b bhat s est_of (S n) true true ts (sg * h) fm st = Some (st', sg * d, sg * k) /\
    Rmin h (delta / 100) <= k <= h /\ Rmin h (delta / 100) <= d /\ (h <= delta -> k = h) /\
    s_u0 st' = rk_step f A b s (sg * k) (s_u0 st) /\ fsal_ready st'.
Proof.
  intros Hdelta. assert (Hf5 : fac ^ 5 < 1) by (unfold fac; simpl; lra).
  induction n as [|n IH]; intros h fm st Hh Hfm Hr He Hd;
   rewrite adaptive_loop_S;
   pose proof (attempt_spec Ht true ts (sg * h) fm st Hr) as Ha; cbn zeta in Ha;
   destruct (attempt _ _ _ _ _ _ _ _ _ _ _ _) as [st1 dt1 fm1|st1 dt1 dp].
  1: { exfalso. destruct Ha as (_ & H1 & _). specialize (He h ltac:(simpl in Hd; lra)). lra. }
  2: { destruct Ha as (Had & H1 & Hdt1 & Hfm1 & Hu & Hr1). subst fm1.
    pose proof (factor_bounds fm (step_est (sg * h) (s_u0 st)) (Hest _ _ _) ltac:(unfold facmin; lra)) as Hb.
    pose proof (factor_reject fm _ H1) as Hrj.
    set (q := factor fm (step_est (sg * h) (s_u0 st))) in *.
    assert (Hhd : delta < h).
    { destruct (Rlt_le_dec delta h) as [|Hle]; auto. exfalso. specialize (He h (conj Hh Hle)). lra. }
    destruct (IH (h * q) 1 st1) as (st' & d & k & E & Hk & Hd' & _ & Hs' & Hr').
    - unfold facmin in *; nra.
    - lra.
    - exact Hr1.
    - rewrite Hu. exact He.
    - simpl in Hd. pose proof (pow_lt fac n ltac:(unfold fac; lra)) as Hp.
      apply Rle_trans with (h * fac * fac ^ n); [|lra].
      apply Rmult_le_compat_r; [lra|]. apply Rmult_le_compat_l; lra.
    - exists st', d, k. subst dt1. replace (sg * h * q) with (sg * (h * q)) by ring. rewrite E.
      rewrite Hu in Hs'.
      assert (Hm : Rmin (h * q) (delta / 100) = delta / 100).
      { apply Rmin_right. unfold facmin in *. nra. }
      rewrite Hm in Hk, Hd'.
      assert (Hm2 : Rmin h (delta / 100) = delta / 100) by (apply Rmin_right; lra).
      rewrite Hm2. unfold fac in Hrj.
      repeat split; auto; try lra; try nra. }
  all: destruct Ha as (Hadt & _ & Hdp & Hu & Hl); destruct (Hadt eq_refl) as [H1 Hdt1];
    pose proof (factor_accept fm (step_est (sg * h) (s_u0 st)) ltac:(split; [apply Hest|exact H1]) ltac:(unfold fac; lra)) as Hfa;
    set (q := factor fm (step_est (sg * h) (s_u0 st))) in *;
    exists (mkIstate (s_u1 st1) (s_u1 st1) (s_u2 st1) (s_rhs st1) (s_fY st1) (s_off st1) (s_ctx st1)), (h * q), h;
    (split; [rewrite Hdt1, Hdp; replace (sg * h * q) with (sg * (h * q)) by ring; reflexivity|]);
    (split; [split; [apply Rmin_l|lra]|]);
    (split; [|split; [auto|split; [exact Hu|unfold fsal_ready; cbn [s_off s_fY s_u0]; rewrite Hu; exact Hl]]]);
    (destruct (Rle_lt_dec h delta) as [Hle|Hlt];
     [ eapply Rle_trans; [apply Rmin_l|];
       assert (1 <= q) by (apply factor_small; [split; [apply Hest|apply He; lra]|lra]); nra
     | eapply Rle_trans; [apply Rmin_r|]; unfold fac in Hfa; nra ]).
Qed.
End Loop.
