(** Time bookkeeping of solve() in IEEE binary64 (Flocq's rounding to nearest even). *)
From Coq Require Import Reals Lra Lia ZArith List.
From Flocq Require Import Core Sterbenz.
From Verif Require Import Base.Cplx Base.Sums Spec.Env Base.Fin Model.Maths Model.BS5
  Model.Integrators Model.Integrate Model.Solve Model.Run
  Proofs.SolveProofs Proofs.RunProofs Proofs.LoopProofs.
Open Scope R_scope.

Definition b64_exp := FLT_exp (-1074) 53.
(** round to nearest, ties to even, in binary64 without overflow *)
Definition b64 (x : R) : R := round radix2 b64_exp ZnearestE x.
(** the finite binary64 numbers (exponent unbounded above) *)
Definition is_b64 (x : R) : Prop := generic_format radix2 b64_exp x.

#[local] Instance prec53 : Prec_gt_0 53.
Proof. reflexivity. Qed.
#[local] Instance vexp : Valid_exp b64_exp.
Proof. exact (FLT_exp_valid (-1074) 53). Qed.
#[local] Instance mexp : Monotone_exp b64_exp.
Proof. exact (FLT_exp_monotone (-1074) 53). Qed.

Lemma b64_id x : is_b64 x -> b64 x = x.
Proof. intros H. apply round_generic; [apply valid_rnd_N|exact H]. Qed.
Lemma b64_mono x y : x <= y -> b64 x <= b64 y.
Proof. apply round_le; [apply vexp|apply valid_rnd_N]. Qed.

Lemma last_step_exact t T : is_b64 t -> is_b64 T -> T / 2 <= t <= T -> b64 (t + b64 (T - t)) = T.
Proof.
  intros Ht HT H.
  assert (G : b64 (T - t) = T - t).
  { apply b64_id. apply (sterbenz radix2 b64_exp T t HT Ht).
    split; lra. }
  rewrite G. replace (t + (T - t)) with T by ring. apply b64_id, HT.
Qed.

Lemma is_b64_bpow e : (-1074 <= e)%Z -> is_b64 (bpow radix2 e).
Proof.
  intros He. apply generic_format_bpow. unfold b64_exp, FLT_exp. lia.
Qed.

(** binary64 addition loses a small increment *)
Lemma b64_absorb e x : (-1000 <= e)%Z -> 0 < x < bpow radix2 (e - 53) ->
  b64 (bpow radix2 e + x) = bpow radix2 e.
Proof.
  intros He [Hx0 Hx].
  assert (Hle : bpow radix2 (e - 53) < bpow radix2 e) by (apply bpow_lt; lia).
  assert (Hm : mag radix2 (bpow radix2 e + x) = (e + 1)%Z :> Z).
  { apply mag_unique_pos. replace (e + 1 - 1)%Z with e by ring.
    split; [lra|]. rewrite bpow_plus_1. simpl IZR. lra. }
  unfold b64, round, scaled_mantissa, cexp. rewrite Hm.
  replace (b64_exp (e + 1)) with (e - 52)%Z by (unfold b64_exp, FLT_exp; lia).
  rewrite Rmult_plus_distr_r, <- bpow_plus.
  replace (e + - (e - 52))%Z with 52%Z by ring.
  rewrite (Znearest_imp _ _ (2^52)%Z).
  - unfold F2R. cbn [Fnum Fexp]. replace (IZR (2^52)) with (bpow radix2 52) by (rewrite <- IZR_Zpower by lia; reflexivity).
    rewrite <- bpow_plus. f_equal. ring.
  - replace (IZR (2^52)) with (bpow radix2 52) by (rewrite <- IZR_Zpower by lia; reflexivity).
    replace (bpow radix2 52 + x * bpow radix2 (- (e - 52)) - bpow radix2 52) with (x * bpow radix2 (- (e - 52))) by ring.
    rewrite Rabs_right by (apply Rle_ge, Rmult_le_pos; [lra|apply bpow_ge_0]).
    apply Rlt_le_trans with (bpow radix2 (e - 53) * bpow radix2 (- (e - 52))).
    + apply Rmult_lt_compat_r; [apply bpow_gt_0|exact Hx].
    + rewrite <- bpow_plus. replace (e - 53 + - (e - 52))%Z with (-1)%Z by ring. simpl. lra.
Qed.

(** ** A step that does not advance time *)
Section Stall.
Context {W : Type} (rnd : R -> R) (eps T : R) (Heps : 0 < eps).
Context (integrate : R -> nat -> W -> option (W * R * R)) (update : R -> nat -> W -> W)
        (hdf5 : R -> nat -> W -> W * bool).
Context (Hfix : forall dt n w, exists w', integrate dt n w = Some (w', dt, dt)).
Context (Hk : forall t n w, snd (hdf5 t n w) = false).
Notation eot := (end_of_tstep_NS rnd eps T).

Lemma stall_loop t dt : rnd (t + dt) = t -> t < rnd (T + eps) -> eps <= Rabs (rnd (t - T)) ->
  forall fuel dt_in (s : lstate W), l_t s = t -> l_dt s = dt ->
  loop rnd eps T integrate update hdf5 eot fuel dt_in s = None.
Proof.
  intros H1 H2 H3. induction fuel as [|n IH]; intros dt_in s Et Ed; [reflexivity|].
  cbn [loop]. unfold iter. rewrite Et, Ed, H1.
  destruct (Rle_dec t (rnd (T + eps))) as [_|N]; [|exfalso; lra].
  destruct (Hfix dt (l_tstep s) (l_w s)) as [w' E0]. rewrite E0, H1.
  pose proof (Hk t (S (l_tstep s)) (update t (S (l_tstep s)) w')) as Hkk.
  destruct (hdf5 _ _ _) as [w2 kill]. cbn [snd] in Hkk. subst kill.
  unfold end_of_tstep_NS. rewrite H1.
  destruct (Rlt_dec (Rabs (rnd (t - T))) eps) as [N|_]; [exfalso; lra|].
  destruct (Rle_dec (rnd (T + eps)) t) as [N|_]; [exfalso; lra|].
  apply IH; reflexivity.
Qed.
End Stall.

(** the concrete stall t = 2^60, dt = 1, T = 2^61 *)
Definition t_stall := bpow radix2 60.
Definition T_stall := bpow radix2 61.
Lemma eps12_1 : eps12 < 1.
Proof. unfold eps12. rewrite <- Rinv_1. apply Rinv_lt_contravar; [rewrite Rmult_1_l; apply pow_lt; lra|].
  apply Rlt_pow_R1; [lra|lia]. Qed.
Lemma stall_add : b64 (t_stall + 1) = t_stall.
Proof. apply b64_absorb; [lia|]. cbn. lra. Qed.
Lemma T_stall_2 : T_stall = 2 * t_stall.
Proof. unfold T_stall, t_stall. replace 61%Z with (60 + 1)%Z by reflexivity. rewrite bpow_plus_1. reflexivity. Qed.
Lemma t_stall_ge : 1 <= t_stall.
Proof. unfold t_stall. change 1 with (bpow radix2 0). apply bpow_le. lia. Qed.
Lemma stall_lt : t_stall < b64 (T_stall + eps12).
Proof.
  apply Rlt_le_trans with (b64 T_stall).
  - rewrite b64_id by (apply is_b64_bpow; lia). rewrite T_stall_2. pose proof t_stall_ge. lra.
  - apply b64_mono. pose proof eps12_pos. lra.
Qed.
Lemma stall_far : eps12 <= Rabs (b64 (t_stall - T_stall)).
Proof.
  rewrite T_stall_2. replace (t_stall - 2 * t_stall) with (- t_stall) by ring.
  unfold b64. rewrite round_NE_opp. change (eps12 <= Rabs (- b64 t_stall)). rewrite Rabs_Ropp.
  rewrite b64_id by (apply is_b64_bpow; lia). pose proof t_stall_ge. pose proof eps12_1.
  rewrite Rabs_right; lra.
Qed.
