(** The Taylor-Green demo over a whole run (C74). *)
From Coq Require Import Reals Lra Lia Arith ZArith List FunctionalExtensionality.
From Verif Require Import Base.Cplx Base.Sums Base.Fin Spec.Fourier Spec.Energy Spec.TaylorGreen Spec.Env Spec.RungeKutta
  Model.Maths Model.NS Model.NS2D Model.TG2D Model.Integrators Model.Integrate Model.Solve Model.Run
  Proofs.Common Proofs.NSProofs Proofs.SolveProofs Proofs.RunProofs Proofs.LoopProofs Proofs.TaylorGreenProofs.
Import ListNotations.
Open Scope R_scope.

(** ** the exponential and its Taylor polynomial *)
Lemma exp_neg_taylor x : 0 <= x <= 1 ->
  rk4_poly (- x) - x ^ 5 / 120 <= exp (- x) <= rk4_poly (- x).
Proof.
  intros Hx. set (U := fun n : nat => x ^ n / INR (fact n)).
  assert (Hdec : Un_decreasing U).
  { intros n. unfold U. rewrite fact_simpl, mult_INR, S_INR. pose proof (pos_INR n). pose proof (INR_fact_lt_0 n) as Hf.
    assert (Hp : 0 <= x ^ n) by (apply pow_le; lra). cbn [pow].
    apply Rmult_le_reg_r with ((INR n + 1) * INR (fact n)); [nra|].
    replace (x * x ^ n / ((INR n + 1) * INR (fact n)) * ((INR n + 1) * INR (fact n))) with (x * x ^ n) by (field; lra).
    replace (x ^ n / INR (fact n) * ((INR n + 1) * INR (fact n))) with ((INR n + 1) * x ^ n) by (field; lra). nra. }
  assert (Hs : Un_cv (fun n => sum_f_R0 (tg_alt U) n) (exp (- x))).
  { unfold exp. destruct (exist_exp (- x)) as [l Hl]. cbn [proj1_sig]. unfold exp_in, infinite_sum in Hl.
    intros e He. destruct (Hl e He) as [n0 Hn0]. exists n0. intros n Hn. specialize (Hn0 n Hn).
    replace (sum_f_R0 (tg_alt U) n) with (sum_f_R0 (fun i => / INR (fact i) * (- x) ^ i) n); [exact Hn0|].
    apply sum_eq. intros i _. unfold tg_alt, U. replace (- x) with (-1 * x) by ring. rewrite Rpow_mult_distr. unfold Rdiv. ring. }
  pose proof (alternated_series_ineq U (exp (- x)) 2 Hdec (cv_speed_pow_fact x) Hs) as [H1 H2].
  unfold tg_alt, U in H1, H2. cbn [Nat.mul Nat.add sum_f_R0 pow fact INR] in H1, H2. unfold rk4_poly. lra.
Qed.
Lemma rk4_poly_err h z : 0 <= h <= / 2 -> - h <= z <= h ->
  (z <= 0 -> 0 <= rk4_poly z <= 1 /\ Rabs (rk4_poly z - exp z) <= h ^ 5 / 120) /\
  0 <= rk4_poly z <= 7 / 4 /\ Rabs (rk4_poly z - exp z) <= h ^ 5 / 30.
Proof.
  intros Hh Hz.
  assert (Hneg : z <= 0 -> 0 <= rk4_poly z <= 1 /\ Rabs (rk4_poly z - exp z) <= h ^ 5 / 120).
  { intros Hn. assert (Hx : 0 <= - z <= h) by lra. destruct (exp_neg_taylor (- z)) as [H1 H2]; [lra|].
    rewrite Ropp_involutive in H1, H2. pose proof (exp_pos z) as He.
    assert (H5 : (- z) ^ 5 <= h ^ 5) by (apply pow_incr; lra).
    split.
    - split; [lra|]. unfold rk4_poly. assert (Hw : exists x, x = - z) by eauto. destruct Hw as [x Ex].
      replace z with (- x) by lra. assert (0 <= x <= / 2) by lra. 
      assert (0 <= x ^ 2 <= / 4) by (split; [nra|]; simpl; nra).
      replace (1 + - x + (- x) ^ 2 / 2 + (- x) ^ 3 / 6 + (- x) ^ 4 / 24) with (1 - x * (1 - x / 2 + x ^ 2 / 6 * (1 - x / 4))) by field.
      assert (0 <= x ^ 2 / 6 * (1 - x / 4)) by nra. nra.
    - rewrite Rabs_right by lra. lra. }
  split; [exact Hneg|]. destruct (Rle_dec z 0) as [Hn|Hn].
  - destruct (Hneg Hn) as [H1 H2]. split; [lra|]. assert (0 <= h ^ 5) by (apply pow_le; lra). lra.
  - assert (Hp : 0 < z <= / 2) by lra. destruct (exp_neg_taylor z) as [H1 H2]; [lra|].
    assert (H5 : z ^ 5 <= h ^ 5) by (apply pow_incr; lra).
    assert (Hz2 : 0 < z ^ 2 <= / 4) by (split; [nra|]; simpl; nra).
    assert (Hz3 : 0 < z ^ 3 <= / 8) by (split; [apply pow_lt; lra|]; replace (z ^ 3) with (z ^ 2 * z) by ring; nra).
    assert (Hz4 : 0 < z ^ 4 <= / 16) by (split; [apply pow_lt; lra|]; replace (z ^ 4) with (z ^ 2 * z ^ 2) by ring; nra).
    assert (Hz5 : 0 < z ^ 5 <= / 32) by (split; [apply pow_lt; lra|]; replace (z ^ 5) with (z ^ 4 * z) by ring; nra).
    assert (HR : 1 <= rk4_poly z <= 1.66) by (unfold rk4_poly; lra).
    assert (Hq : 0.6 <= exp (- z)).
    { unfold rk4_poly in H1. replace ((- z) ^ 2) with (z ^ 2) in H1 by ring. replace ((- z) ^ 3) with (- z ^ 3) in H1 by ring.
      replace ((- z) ^ 4) with (z ^ 4) in H1 by ring. assert (z ^ 2 - z + / 4 >= 0) by (replace (z ^ 2 - z + / 4) with ((z - / 2) ^ 2) by field; apply Rle_ge, pow2_ge_0). lra. }
    assert (Hprod : rk4_poly z * rk4_poly (- z) = 1 + z ^ 5 * (z / 72 + z ^ 3 / 576)) by (unfold rk4_poly; field).
    assert (He : exp z * exp (- z) = 1) by (rewrite <- exp_plus, Rplus_opp_r; apply exp_0).
    assert (Hup : rk4_poly z * exp (- z) <= 1 + z ^ 5 * 0.02) by nra.
    assert (Hlo : 1 - z ^ 5 * 0.02 <= rk4_poly z * exp (- z)).
    { apply Rle_trans with (rk4_poly z * (rk4_poly (- z) - z ^ 5 / 120)); [|nra].
      rewrite Rmult_minus_distr_l, Hprod. nra. }
    split; [lra|]. apply Rle_trans with (z ^ 5 / 30); [|lra].
    apply Rmult_le_reg_r with (exp (- z)); [lra|].
    rewrite <- (Rabs_right (exp (- z))) at 1 by lra. rewrite <- Rabs_mult, Rmult_minus_distr_r, He.
    assert (z ^ 5 * 0.02 <= z ^ 5 / 30 * exp (- z)) by nra.
    apply Rabs_le. lra.
Qed.

Lemma exp_le_1 x : x <= 0 -> 0 < exp x <= 1.
Proof.
  intros H. split; [apply exp_pos|]. destruct H as [H| ->]; [|rewrite exp_0; lra].
  left. rewrite <- exp_0. apply exp_increasing, H.
Qed.

(** ** amplitudes *)
Lemma tg_plus N a b r u v : tg_modes N a u -> tg_modes N b v -> tg_modes N (a + r * b) (plus u r v).
Proof.
  intros Hu Hv i k Hk. unfold plus. rewrite (Hu i k Hk), (Hv i k Hk).
  destruct (snd k =? 1)%nat; [destruct (_ =? 1)%Z; [destruct i|destruct (_ =? -1)%Z]|];
    apply C_eq; unfold Cadd, Cmul, RtoC, C0; cbn [fst snd]; field.
Qed.
Lemma tg_cast N a b v : a = b -> tg_modes N a v -> tg_modes N b v.
Proof. intros ->. auto. Qed.
Lemma tg_rk4 N f lam dt a u : (forall b v, tg_modes N b v -> tg_modes N (lam * b) (f v)) ->
  tg_modes N a u -> tg_modes N (rk4_poly (lam * dt) * a) (rk4 f dt u).
Proof.
  intros Hf Hu.
  assert (H1 : tg_modes N (lam * a) (rk4_k1 f u)) by (apply Hf, Hu).
  assert (H2 : tg_modes N (lam * (a + dt / 2 * (lam * a))) (rk4_k2 f dt u)) by (apply Hf, tg_plus; [exact Hu|exact H1]).
  assert (H3 : tg_modes N (lam * (a + dt / 2 * (lam * (a + dt / 2 * (lam * a))))) (rk4_k3 f dt u)) by (apply Hf, tg_plus; [exact Hu|exact H2]).
  assert (H4 : tg_modes N (lam * (a + dt * (lam * (a + dt / 2 * (lam * (a + dt / 2 * (lam * a))))))) (rk4_k4 f dt u)) by (apply Hf, tg_plus; [exact Hu|exact H3]).
  pose proof (tg_plus N _ _ (dt / 6) _ _ (tg_plus N _ _ (dt / 3) _ _ (tg_plus N _ _ (dt / 3) _ _ (tg_plus N _ _ (dt / 6) _ _ Hu H1) H2) H3) H4) as H.
  intros i k Hk. transitivity (plus (plus (plus (plus u (dt / 6) (rk4_k1 f u)) (dt / 3) (rk4_k2 f dt u)) (dt / 3) (rk4_k3 f dt u)) (dt / 6) (rk4_k4 f dt u) i k).
  - unfold rk4, plus. replace (dt / 3) with (dt / 6 * 2) by field. rewrite RtoC_mul. ring.
  - refine (tg_cast N _ _ _ _ H i k Hk). unfold rk4_poly. field.
Qed.
(** the set of multiples of the vortex is a subspace *)
Lemma tg_subspace N : subspace (fun v => exists a, tg_modes N a v).
Proof.
  split.
  - exists 0. intros i k Hk. destruct (snd k =? 1)%nat; [destruct (_ =? 1)%Z; [destruct i|destruct (_ =? -1)%Z]|];
      apply C_eq; unfold C0; cbn [fst snd]; field.
  - intros u c v [a Ha] [b Hb]. exists (a + c * b). apply tg_plus; assumption.
Qed.

(** ** the time loop with a fixed step *)
Section Loop.
Context {D I ctx E : Type}.
Notation V := (svec D I).
Notation W := (world D I ctx E).
Context (ComputeRHS : ctx -> V -> V -> V * ctx) (est_of : V -> V -> V -> R)
        (upd : R -> nat -> V * V * ctx * E -> V * V * ctx * E)
        (out : R -> nat -> V -> ctx * E -> ctx * E * bool).
Context (T : R) (fuel : nat) (g : integ) (Hg : g <> IBS5 true) (dt0 : R).
Notation it := (run_iter ComputeRHS est_of upd out (fun x => x) T (S fuel) g).
(** t = n dt0, and the next step has the size dt0 or ends the run *)
Definition fixed_top (n : nat) (s : lstate W) : Prop :=
  l_t s = INR n * dt0 /\ (l_dt s = dt0 \/ l_dt s = T - l_t s /\ - eps12 <= l_dt s <= dt0 + eps12).
Lemma it_cases s : match it s with
  | Stop s' => s' = s /\ T + eps12 < l_t s + l_dt s
  | Raise _ => False
  | Kill s' => l_t s + l_dt s <= T + eps12 /\ l_t s' = l_t s + l_dt s
  | Break s' => l_t s + l_dt s <= T + eps12 /\ l_t s' = l_t s + l_dt s
  | Cont s' => l_t s + l_dt s <= T + eps12 /\ l_t s' = l_t s + l_dt s /\
      eps12 <= Rabs (l_t s' - T) /\
      (l_dt s' = l_dt s \/ l_dt s' = T - l_t s' /\ l_dt s' <= l_dt s + eps12)
  end.
Proof.
  unfold run_iter, iter. destruct (Rle_dec _ _) as [H|H]; [|split; [reflexivity|lra]].
  destruct (fixed_step ComputeRHS est_of fuel g Hg (l_dt s) (l_tstep s) (l_w s)) as [w' Ew]. rewrite Ew.
  destruct (run_output _ _ _ _) as [w kill]. destruct kill; [cbn [l_t]; auto|].
  unfold end_of_tstep_NS. pose proof eps12_pos.
  destruct (Rlt_dec _ _) as [H1|H1]; [cbn [l_t]; auto|].
  destruct (Rlt_dec _ _) as [H2|H2].
  { cbn [l_t l_dt]. repeat split; try lra. right. split; [reflexivity|].
    unfold Rabs in H2. destruct (Rcase_abs _) in H2; lra. }
  destruct (Rle_dec _ _) as [H3|H3]; cbn [l_t l_dt]; repeat split; try lra.
Qed.
Lemma top_cont n s s' : fixed_top n s -> it s = Cont s' -> fixed_top (S n) s' /\ INR (S n) * dt0 <= T + eps12.
Proof.
  intros [Ht Hd] E1. pose proof (it_cases s) as H. rewrite E1 in H. destruct H as (Hle & Ht' & Hne & Hd').
  pose proof eps12_pos. destruct Hd as [Hd|[Hd Hb]].
  - rewrite Hd in *. assert (Et : l_t s' = INR (S n) * dt0) by (rewrite S_INR; lra). split; [|lra].
    split; [exact Et|]. destruct Hd' as [Hd'|[Hd' Hd'']]; [left; lra|right].
    split; [exact Hd'|]. lra.
  - exfalso. rewrite Hd in Ht'. replace (l_t s' - T) with 0 in Hne by lra. rewrite Rabs_R0 in Hne. lra.
Qed.
Lemma top_reach s0 n s : l_t s0 = 0 -> l_dt s0 = dt0 -> 0 <= T ->
  run_reach ComputeRHS est_of upd out (fun x => x) T (S fuel) g s0 n s ->
  fixed_top n s /\ INR n * dt0 <= T + eps12.
Proof.
  intros H0 H1 HT H. induction H as [|n s s' H IH E1].
  - split; [split; [rewrite H0; cbn [INR]; ring|left; exact H1]|]. cbn [INR]. pose proof eps12_pos. lra.
  - apply (top_cont n s s'); [apply IH|exact E1].
Qed.
(** what solve() returns *)
Lemma loop_returned s0 fl dt_in s' : forall m s, run_reach ComputeRHS est_of upd out (fun x => x) T (S fuel) g s0 m s ->
  loop (fun x => x) eps12 T (run_integrate ComputeRHS est_of (S fuel) g) (run_update upd) (run_output out)
    (end_of_tstep_NS (fun x => x) eps12 T) fl dt_in s = Some (Returned s') ->
  exists n s1, run_reach ComputeRHS est_of upd out (fun x => x) T (S fuel) g s0 n s1 /\
    (l_t s' = l_t s1 /\ l_w s' = l_w s1 \/ exists s2, it s1 = Break s2 /\ l_t s' = l_t s2 /\ l_w s' = l_w s2).
Proof.
  induction fl as [|fl IH]; intros m s Hr H; [discriminate|]. cbn [loop] in H.
  pose proof (it_cases s) as Hc. unfold run_iter in Hc, IH |- *.
  destruct (iter _ _ _ _ _ _ _ s) as [s1|s1|s1|s1|s1] eqn:E1; try discriminate.
  - destruct Hc as [-> _]. exists m, s. split; [exact Hr|]. left. unfold finish in H. cbn [l_open] in H.
    destruct (l_open s); [|discriminate]. injection H as <-. auto.
  - exists m, s. split; [exact Hr|]. right. exists s1. split; [exact E1|]. unfold finish in H. cbn [l_open] in H.
    destruct (l_open s1); [|discriminate]. injection H as <-. auto.
  - apply (IH (S m) s1); [|exact H]. econstructor; [exact Hr|exact E1].
Qed.
End Loop.

(** ** the demo *)
Section Demo.
Context {E : Type} (N M : ax2 -> nat) (tr : nat * nat -> R) (m : option (nat * nat -> bool)) (nu : R).
Context (HN0 : (3 <= N a0)%nat) (HN1 : (3 <= N a1)%nat) (HM0 : (N a0 <= M a0)%nat) (HM1 : (N a1 <= M a1)%nat).
Context (HM5 : (5 <= M a0)%nat) (HM6 : (5 <= M a1)%nat) (Hp : tr kp = 1) (Hn : tr (kn N) = 1).
Notation idx := (nat * nat)%type.
Notation rhs := (ComputeRHS_NS2D (tgT N M tr) (wavenumber2 N) m nu (fun _ _ => C0)).
Definition tgf (u : svec ax2 idx) : svec ax2 idx :=
  fst (rhs (mkNs2buf (fun _ _ => 0) (fun _ => 0) (fun _ => C0) (fun _ => C0)) (fun _ _ => C0) u).
Lemma tgf_computes : computes rhs tgf.
Proof. intros b r u. unfold tgf. refine (eq_trans (ComputeRHS_NS2D_fst _ _ m nu _ b r u) (eq_sym _)). apply ComputeRHS_NS2D_fst. Qed.
Lemma tgf_modes b v : tg_modes N b v -> tg_modes N (- 2 * nu * b) (tgf v).
Proof. intros H. apply tg_rhs; assumption. Qed.

Notation V2 := (svec ax2 (nat * nat)).
Notation B2 := (ns2buf (nat * nat) (nat * nat)).
Context (est : V2 -> V2 -> V2 -> R) (upd : R -> nat -> V2 * V2 * B2 * E -> V2 * V2 * B2 * E)
        (out : R -> nat -> V2 -> B2 * E -> B2 * E * bool).
Context (Hu : update_readonly upd) (T : R) (fuel : nat) (HT : 0 <= T) (Hnu : 0 <= nu).
Notation it := (run_iter rhs est upd out (fun x => x) T (S fuel) IRK4).
Notation rch := (run_reach rhs est upd out (fun x => x) T (S fuel) IRK4).
Context (s0 : lstate (world ax2 idx (ns2buf idx idx) E)) (Hs0 : l_t s0 = 0) (Hn0 : l_tstep s0 = 0%nat).
Context (Hdt : 0 < l_dt s0) (H1 : tg_modes N 1 (solution (l_w s0))).
Let h := 2 * nu * (l_dt s0 + eps12).
Context (Hh : h <= / 2).
Lemma h_pos : 0 <= h.
Proof. unfold h. pose proof eps12_pos. nra. Qed.
Lemma step_modes n s s' a : rch s0 n s -> run_stepped rhs est upd out (fun x => x) T (S fuel) IRK4 s s' ->
  tg_modes N a (solution (l_w s)) -> tg_modes N (rk4_poly (- 2 * nu * l_dt s) * a) (solution (l_w s')).
Proof.
  intros Hr Hs Ha.
  destruct (run_textbook rhs est upd out tgf tgf_computes Hu (fun x => x) T (S fuel) IRK4 s0 n s s' Hn0 Hr Hs) as [-> _].
  apply tg_rk4; [|exact Ha]. intros b v. apply tgf_modes.
Qed.
Lemma tops n s : rch s0 n s -> exists a, tg_modes N a (solution (l_w s)) /\ 0 <= a <= 1 /\
  Rabs (a - exp (- 2 * nu * l_t s)) <= INR n * (h ^ 5 / 120).
Proof.
  pose proof eps12_pos as He. pose proof h_pos as Hh0. intros H. induction H as [|n s s' H IH E1].
  - exists 1. split; [exact H1|]. split; [lra|]. rewrite Hs0. replace (- 2 * nu * 0) with 0 by ring. rewrite exp_0.
    cbn [INR]. rewrite Rminus_diag_eq, Rabs_R0 by reflexivity. lra.
  - destruct IH as (a & Ha & Ha1 & Herr).
    destruct (top_reach rhs est upd out T fuel IRK4 ltac:(discriminate) (l_dt s0) s0 n s Hs0 eq_refl HT H) as [Ht _].
    pose proof (it_cases rhs est upd out T fuel IRK4 ltac:(discriminate) s) as Hc. unfold run_iter in Hc. rewrite E1 in Hc.
    destruct Hc as (_ & Et & Hne & _).
    assert (Hd : l_dt s = l_dt s0).
    { destruct Ht as [_ [Hd|[Hd _]]]; [exact Hd|]. exfalso. rewrite Hd in Et. replace (l_t s' - T) with 0 in Hne by lra. rewrite Rabs_R0 in Hne. lra. }
    pose proof (step_modes n s s' a H (or_introl E1) Ha) as Hm. rewrite Hd in Hm.
    set (z := - 2 * nu * l_dt s0) in *.
    destruct (rk4_poly_err h z) as [Hz _]; [lra|unfold z, h; nra|].
    destruct (Hz ltac:(unfold z; nra)) as [Hb1 Hb2].
    exists (rk4_poly z * a). split; [exact Hm|]. split; [nra|].
    rewrite S_INR. replace (- 2 * nu * l_t s') with (z + - 2 * nu * l_t s) by (rewrite Et, Hd; unfold z; ring).
    rewrite exp_plus.
    replace (rk4_poly z * a - exp z * exp (- 2 * nu * l_t s)) with
      (rk4_poly z * (a - exp (- 2 * nu * l_t s)) + (rk4_poly z - exp z) * exp (- 2 * nu * l_t s)) by ring.
    eapply Rle_trans; [apply Rabs_triang|]. rewrite !Rabs_mult.
    assert (Hexp : 0 < exp (- 2 * nu * l_t s) <= 1).
    { destruct Ht as [-> _]. apply exp_le_1. pose proof (pos_INR n). assert (0 <= nu * (INR n * l_dt s0)) by (repeat apply Rmult_le_pos; lra). lra. }
    rewrite (Rabs_right (rk4_poly z)), (Rabs_right (exp (- 2 * nu * l_t s))) by lra.
    pose proof (Rabs_pos (a - exp (- 2 * nu * l_t s))). pose proof (Rabs_pos (rk4_poly z - exp z)). nra.
Qed.
(** the amplitude after any run *)
Lemma returned_amplitude fl s' : run_solve rhs est upd out (fun x => x) T (S fuel) IRK4 fl s0 = Some (Returned s') ->
  exists a, tg_modes N a (solution (l_w s')) /\ 0 <= a <= 2 /\ exp (- 2 * nu * l_t s') <= 2 /\
   Rabs (a - exp (- 2 * nu * l_t s')) <= ((T + eps12) / l_dt s0 + 1) * (h ^ 5 / 30).
Proof.
  pose proof eps12_pos as He. pose proof h_pos as Hh0. intros H.
  assert (Hh5 : 0 <= h ^ 5) by (apply pow_le, Hh0).
  destruct (loop_returned rhs est upd out T fuel IRK4 ltac:(discriminate) s0 fl _ s' 0 s0 (reach_0 _ _ _ _ _ _ _ s0) H)
    as (n & s & Hr & Hcase).
  destruct (tops n s Hr) as (a & Ha & Ha1 & Herr).
  destruct (top_reach rhs est upd out T fuel IRK4 ltac:(discriminate) (l_dt s0) s0 n s Hs0 eq_refl HT Hr) as [Ht Hnb].
  assert (Hn' : INR n <= (T + eps12) / l_dt s0).
  { apply Rmult_le_reg_r with (l_dt s0); [lra|]. unfold Rdiv. rewrite Rmult_assoc, Rinv_l by lra. lra. }
  assert (Hexp : 0 < exp (- 2 * nu * l_t s) <= 1).
  { destruct Ht as [-> _]. apply exp_le_1. pose proof (pos_INR n). assert (0 <= nu * (INR n * l_dt s0)) by (repeat apply Rmult_le_pos; lra). lra. }
  destruct Hcase as [[Et Ew]|(s2 & E2 & Et & Ew)].
  - exists a. rewrite Et, Ew. split; [exact Ha|]. split; [lra|]. split; [lra|]. pose proof (pos_INR n). nra.
  - pose proof (it_cases rhs est upd out T fuel IRK4 ltac:(discriminate) s) as Hc. rewrite E2 in Hc. destruct Hc as (_ & Et2).
    pose proof (step_modes n s s2 a Hr (or_intror (or_introl E2)) Ha) as Hm.
    set (z := - 2 * nu * l_dt s) in *.
    assert (Hz : - h <= z <= h).
    { destruct Ht as [_ [Hd|[_ Hd]]]; unfold z, h; [rewrite Hd|]; nra. }
    destruct (rk4_poly_err h z) as (_ & Hb1 & Hb2); [lra|exact Hz|].
    assert (Ez : exp (- 2 * nu * l_t s') = exp z * exp (- 2 * nu * l_t s)).
    { rewrite Et, Et2, <- exp_plus. f_equal. unfold z. ring. }
    assert (Hh1 : h ^ 5 <= / 32) by (replace (/ 32) with ((/ 2) ^ 5) by field; apply pow_incr; lra).
    assert (Hez : exp z <= 2) by (pose proof (Rabs_def2 (rk4_poly z - exp z) (h ^ 5 / 30 + / 100) ltac:(lra)); lra).
    exists (rk4_poly z * a). rewrite Ew. split; [exact Hm|]. split; [nra|].
    pose proof (exp_pos z). rewrite Ez. split; [nra|].
    replace (rk4_poly z * a - exp z * exp (- 2 * nu * l_t s)) with
      (rk4_poly z * (a - exp (- 2 * nu * l_t s)) + (rk4_poly z - exp z) * exp (- 2 * nu * l_t s)) by ring.
    eapply Rle_trans; [apply Rabs_triang|]. rewrite !Rabs_mult.
    rewrite (Rabs_right (rk4_poly z)), (Rabs_right (exp (- 2 * nu * l_t s))) by lra.
    pose proof (Rabs_pos (a - exp (- 2 * nu * l_t s))). pose proof (Rabs_pos (rk4_poly z - exp z)). pose proof (pos_INR n). nra.
Qed.
Lemma error_bound dx L fl s' : (forall i, 0 < L i) -> (forall i, dx i = L i / INR (N i)) ->
  run_solve rhs est upd out (fun x => x) T (S fuel) IRK4 fl s0 = Some (Returned s') ->
  Rabs (tg_error (tgT N N (fun _ => 1)) (mesh2 N) (points2 N) dx L nu (l_t s') (solution (l_w s')))
  <= ((T + eps12) / l_dt s0 + 1) * (h ^ 5 / 30).
Proof.
  intros HL Hdx H. destruct (returned_amplitude fl s' H) as (a & Ha & Ha1 & He2 & Herr).
  rewrite (tg_error_val N dx L nu (l_t s') a) by assumption.
  set (e := exp (- 2 * nu * l_t s')) in *. assert (0 < e) by apply exp_pos.
  replace (a * a / 4 - e * e / 4) with ((a - e) * ((a + e) / 4)) by field.
  rewrite Rabs_mult, (Rabs_right ((a + e) / 4)) by lra.
  pose proof (Rabs_pos (a - e)). nra.
Qed.
End Demo.
