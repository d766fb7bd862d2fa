(** Lifting of linear invariants and of linear conjugacies from the right hand side to
    complete simulations. *)
From Coq Require Import Reals Lra Lia ZArith List FunctionalExtensionality.
From Verif Require Import Base.Cplx Base.Sums Spec.Env Base.Fin Model.Maths Model.Integrators Model.BS5
  Model.Integrate Model.Solve Model.Run Proofs.IntegratorProofs Proofs.SolveProofs.
Import ListNotations.
Open Scope R_scope.

Lemma some_inj {A B} (f : A -> B) x y : option_map f (Some x) = option_map f (Some y) -> f x = f y.
Proof. cbn. intros H. injection H. auto. Qed.

Section Inv.
Context {D I ctx E : Type}.
Notation V := (svec D I).
Context (ComputeRHS : ctx -> V -> V -> V * ctx) (est_of : V -> V -> V -> R).
Context (user_update : R -> nat -> V * V * ctx * E -> V * V * ctx * E).
Context (output : R -> nat -> V -> ctx * E -> ctx * E * bool).
Context (P : V -> Prop) (HP : subspace P).
Context (Hrhs : forall c r u, P u -> P (fst (ComputeRHS c r u))).
(** the user's update keeps the invariant *)
Context (Hupd : update_keeps user_update P).

Lemma integrate_inv fuel g dt ts st st' d k :
  inv_st P st -> integrate ComputeRHS est_of fuel g dt ts st = Some (st', d, k) -> inv_st P st'.
Proof.
  intros H E0. destruct g as [| | |ad]; cbn [integrate] in E0.
  - pose proof (RK4_inv ComputeRHS P HP Hrhs dt st H) as G. apply (f_equal (option_map (fun x => fst (fst x)))) in E0. apply some_inj in E0. cbn [fst] in E0. rewrite E0 in G. exact G.
  - pose proof (FE_inv ComputeRHS P HP Hrhs dt st H) as G. apply (f_equal (option_map (fun x => fst (fst x)))) in E0. apply some_inj in E0. cbn [fst] in E0. rewrite E0 in G. exact G.
  - pose proof (AB2_inv ComputeRHS P HP Hrhs dt ts st H) as G. apply (f_equal (option_map (fun x => fst (fst x)))) in E0. apply some_inj in E0. cbn [fst] in E0. rewrite E0 in G. exact G.
  - apply (adaptive_loop_inv ComputeRHS P HP Hrhs _ _ _ _ _ _ _ _ _ _ _ _ _ H E0).
Qed.

Lemma run_inv rnd T fuel g s0 s : inv_st P (w_st (l_w s0)) ->
  observed ComputeRHS est_of user_update output rnd T fuel g s0 s -> inv_st P (w_st (l_w s)).
Proof.
  intros H0 (n & s1 & Hr & Hs).
  assert (Hi : forall dt n (w w' : world D I ctx E) d k, inv_st P (w_st w) ->
     run_integrate ComputeRHS est_of fuel g dt n w = Some (w', d, k) -> inv_st P (w_st w')).
  { intros dt m w w' d k Hw E0. unfold run_integrate in E0.
    destruct (integrate ComputeRHS est_of fuel g dt m (w_st w)) as [[[st d'] k']|] eqn:E1; [|discriminate].
    injection E0 as <- <- <-. apply (integrate_inv _ _ _ _ _ _ _ _ Hw E1). }
  assert (Hu : forall t n (w : world D I ctx E), inv_st P (w_st w) -> inv_st P (w_st (run_update user_update t n w))).
  { intros t m [st e] (A0 & A1 & A2). unfold run_update. cbn [w_st w_env].
    pose proof (Hupd t m (s_u0 st) (s_rhs st) (s_ctx st) e A0) as G.
    destruct (user_update _ _ _) as [[[u r] c] e']. repeat split; cbn [w_st s_u0 s_u1 s_fY]; auto. }
  assert (Ho : forall t n (w : world D I ctx E), inv_st P (w_st w) -> inv_st P (w_st (fst (run_output output t n w)))).
  { intros t m [st e] (A0 & A1 & A2). unfold run_output. cbn [w_st w_env].
    destruct (output _ _ _ _) as [[c e'] k]. repeat split; cbn [fst w_st s_u0 s_u1 s_fY]; auto. }
  assert (He : forall t dt (w : world D I ctx E), inv_st P (w_st w) ->
      inv_st P (w_st (snd (end_of_tstep_NS rnd eps12 T t dt w)))).
  { intros t dt w Hw. unfold end_of_tstep_NS.
    repeat (destruct (Rlt_dec _ _) || destruct (Rle_dec _ _)); exact Hw. }
  assert (H1 : inv_st P (w_st (l_w s1))).
  { apply (reach_inv _ _ _ _ _ _ _ (fun w => inv_st P (w_st w)) Hi Hu Ho He s0 n s1 H0 Hr). }
  destruct Hs as [->|Hs]; [exact H1|].
  apply (stepped_inv _ _ _ _ _ _ _ (fun w => inv_st P (w_st w)) Hi Hu Ho He s1 s H1 Hs).
Qed.

Lemma run_inv_start rnd T fuel g s0 s u0 : at_start s0 u0 -> P u0 ->
  observed ComputeRHS est_of user_update output rnd T fuel g s0 s -> P (solution (l_w s)).
Proof.
  intros (rhs & c & e & E0) Hu Ho.
  assert (H0 : inv_st P (w_st (l_w s0))) by (rewrite E0; cbn [w_st]; apply (inv_init P HP); exact Hu).
  destruct (run_inv rnd T fuel g s0 s H0 Ho) as [A _]. exact A.
Qed.
End Inv.

(** ** Affine version: some coefficients never change *)

(** ** Conjugacy by a linear map *)
Section Sim.
Context {D1 I1 D2 I2 ctx1 ctx2 : Type}.
Notation V1 := (svec D1 I1).
Notation V2 := (svec D2 I2).
Context (L : V1 -> V2) (L0 : L (fun _ _ => C0) = (fun _ _ => C0))
        (Lax : forall u c v, L (axpy u c v) = axpy (L u) c (L v)).
Context (R1 : ctx1 -> V1 -> V1 -> V1 * ctx1) (R2 : ctx2 -> V2 -> V2 -> V2 * ctx2).
Context (P : V1 -> Prop) (HP : subspace P).
Context (HR : forall c r u, P u -> P (fst (R1 c r u))).
Context (HL : forall c r c' r' u, P u -> fst (R2 c' r' (L u)) = L (fst (R1 c r u))).

Definition sim (s1 : istate D1 I1 ctx1) (s2 : istate D2 I2 ctx2) : Prop :=
  inv_st P s1 /\ s_u0 s2 = L (s_u0 s1) /\ s_u1 s2 = L (s_u1 s1) /\
  (forall n, s_fY s2 n = L (s_fY s1 n)) /\ s_off s2 = s_off s1.

Lemma L_scal c u : L (vscal c u) = vscal c (L u).
Proof.
  replace (vscal c u) with (axpy (fun _ _ => C0) c u).
  - rewrite Lax, L0. extensionality i; extensionality k. unfold axpy, vscal. ring.
  - extensionality i; extensionality k. unfold axpy, vscal. ring.
Qed.

Lemma sim_init u r1 c1 r2 c2 : P u -> sim (init_istate u r1 c1) (init_istate (L u) r2 c2).
Proof.
  intros H. split; [apply inv_init; assumption|]. cbn. repeat split; auto.
Qed.

Lemma rk4_stage_sim dt rk s1 s2 :
  inv_st P s1 /\ P (s_u2 s1) -> s_u0 s2 = L (s_u0 s1) -> s_u1 s2 = L (s_u1 s1) -> s_u2 s2 = L (s_u2 s1) ->
  (forall n, s_fY s2 n = L (s_fY s1 n)) -> s_off s2 = s_off s1 ->
  let t1 := rk4_stage R1 dt s1 rk in let t2 := rk4_stage R2 dt s2 rk in
  (inv_st P t1 /\ P (s_u2 t1)) /\ s_u0 t2 = L (s_u0 t1) /\ s_u1 t2 = L (s_u1 t1) /\ s_u2 t2 = L (s_u2 t1) /\
  (forall n, s_fY t2 n = L (s_fY t1 n)) /\ s_off t2 = s_off t1.
Proof.
  intros [Hi H2] E0 E1 E2 EY Eo t1 t2.
  pose proof Hi as (A0 & A1 & AY).
  pose proof (rk4_stage_inv R1 P HP HR dt s1 rk A0 A1 H2 AY) as Q. cbn zeta in Q.
  fold t1 in Q. split; [split; [repeat split|]; apply Q|].
  unfold t1, t2, rk4_stage. rewrite E0.
  pose proof (HL (s_ctx s1) (s_rhs s1) (s_ctx s2) (s_rhs s2) (s_u0 s1) A0) as G.
  destruct (R1 _ _ _) as [r1 c1], (R2 _ _ _) as [r2 c2]. cbn [fst] in G. subst r2.
  cbn [s_u0 s_u1 s_u2 s_fY s_off]. rewrite E1, E2.
  repeat split; auto; destruct (Nat.ltb rk 3); rewrite ?Lax; auto.
Qed.

Lemma RK4_sim dt s1 s2 : sim s1 s2 -> sim (fst (fst (RK4 R1 dt s1))) (fst (fst (RK4 R2 dt s2))).
Proof.
  intros (Hi & E0 & E1 & EY & Eo).
  split; [apply RK4_inv; assumption|]. unfold RK4. cbn [fst fold_left].
  set (a0 := mkIstate (s_u0 s1) (s_u0 s1) (s_u0 s1) (s_rhs s1) (s_fY s1) (s_off s1) (s_ctx s1)).
  set (b0 := mkIstate (s_u0 s2) (s_u0 s2) (s_u0 s2) (s_rhs s2) (s_fY s2) (s_off s2) (s_ctx s2)).
  destruct Hi as (A0 & A1 & AY).
  destruct (rk4_stage_sim dt 0 a0 b0) as (F1 & F2 & F3 & F4 & F5 & F6); auto.
  { split; [repeat split|]; cbn; auto. }
  destruct (rk4_stage_sim dt 1 _ _ F1 F2 F3 F4 F5 F6) as (G1 & G2 & G3 & G4 & G5 & G6).
  destruct (rk4_stage_sim dt 2 _ _ G1 G2 G3 G4 G5 G6) as (H1 & H2 & H3 & H4 & H5 & H6).
  destruct (rk4_stage_sim dt 3 _ _ H1 H2 H3 H4 H5 H6) as (J1 & J2 & J3 & J4 & J5 & J6).
  cbn [s_u0 s_u1 s_fY s_off]. auto.
Qed.

Lemma FE_sim dt s1 s2 : sim s1 s2 -> sim (fst (fst (ForwardEuler R1 dt s1))) (fst (fst (ForwardEuler R2 dt s2))).
Proof.
  intros (Hi & E0 & E1 & EY & Eo).
  split; [apply FE_inv; assumption|]. unfold ForwardEuler. rewrite E0.
  pose proof (HL (s_ctx s1) (s_rhs s1) (s_ctx s2) (s_rhs s2) (s_u0 s1) (proj1 Hi)) as G.
  destruct (R1 _ _ _) as [r1 c1], (R2 _ _ _) as [r2 c2]. cbn [fst] in G. subst r2.
  cbn [fst s_u0 s_u1 s_fY s_off]. rewrite Lax. auto.
Qed.

Lemma AB2_sim dt ts s1 s2 : sim s1 s2 -> sim (fst (fst (AB2 R1 dt ts s1))) (fst (fst (AB2 R2 dt ts s2))).
Proof.
  intros (Hi & E0 & E1 & EY & Eo).
  split; [apply AB2_inv; assumption|]. unfold AB2. rewrite E0, E1.
  pose proof (HL (s_ctx s1) (s_rhs s1) (s_ctx s2) (s_rhs s2) (s_u0 s1) (proj1 Hi)) as G.
  destruct (R1 _ _ _) as [r1 c1], (R2 _ _ _) as [r2 c2]. cbn [fst] in G. subst r2.
  cbn [fst s_u0 s_u1 s_fY s_off]. rewrite L_scal. split; [|auto].
  destruct (Nat.eqb ts 0); [rewrite Lax; reflexivity|].
  transitivity (axpy (axpy (L (s_u0 s1)) (1.5*dt) (L r1)) (-0.5) (L (s_u1 s1))).
  - extensionality i; extensionality k. unfold axpy. replace (-0.5) with (-(0.5)) by lra.
    rewrite RtoC_opp. ring.
  - rewrite <- !Lax. f_equal. extensionality i; extensionality k. unfold axpy.
    replace (-0.5) with (-(0.5)) by lra. rewrite RtoC_opp. ring.
Qed.

Section RK.
Context (A : nat -> nat -> R) (b bhat : nat -> R) (s : nat).
Context (est1 : V1 -> V1 -> V1 -> R) (est2 : V2 -> V2 -> V2 -> R).

Lemma L_updn (f1 : nat -> V1) (f2 : nat -> V2) n v : (forall m, f2 m = L (f1 m)) ->
  forall m, updn f2 n (L v) m = L (updn f1 n v m).
Proof. intros H m. unfold updn. destruct (Nat.eqb m n); auto. Qed.

Lemma stage_eval_sim dt i s1 s2 : sim s1 s2 ->
  sim (rk_stage_eval R1 A s dt i s1) (rk_stage_eval R2 A s dt i s2).
Proof.
  intros (Hi & E0 & E1 & EY & Eo).
  split; [apply stage_eval_inv; assumption|].
  destruct Hi as (A0 & A1 & AY). unfold rk_stage_eval. rewrite Eo, E0.
  set (off := s_off s1).
  assert (G : forall l (f1 : nat -> V1) (f2 : nat -> V2), (forall m, P (f1 m)) -> (forall m, f2 m = L (f1 m)) ->
    let g1 := fold_left (fun fY j => updn fY (ring s off i) (axpy (fY (ring s off i)) (dt * A i j) (fY (ring s off j)))) l f1 in
    let g2 := fold_left (fun fY j => updn fY (ring s off i) (axpy (fY (ring s off i)) (dt * A i j) (fY (ring s off j)))) l f2 in
    (forall m, P (g1 m)) /\ (forall m, g2 m = L (g1 m))).
  { induction l as [|a l IH]; intros f1 f2 Hp Hf; cbn [fold_left]; [auto|].
    apply IH.
    - apply (updn_P P); auto. apply P_axpy; auto.
    - rewrite !Hf, <- Lax. apply L_updn. exact Hf. }
  specialize (G (seq 0 i) (updn (s_fY s1) (ring s off i) (s_u0 s1)) (updn (s_fY s2) (ring s off i) (L (s_u0 s1)))
    (updn_P P _ _ _ AY A0) (L_updn _ _ _ _ EY)). cbn zeta in G.
  set (g1 := fold_left _ _ (updn (s_fY s1) _ _)) in *.
  set (g2 := fold_left _ _ (updn (s_fY s2) _ _)) in *.
  destruct G as [Gp Ge]. rewrite Ge.
  pose proof (HL (s_ctx s1) (s_rhs s1) (s_ctx s2) (s_rhs s2) _ (Gp (ring s off i))) as G.
  destruct (R1 _ _ _) as [r1 c1], (R2 _ _ _) as [r2 c2]. cbn [fst] in G. subst r2.
  cbn [s_u0 s_u1 s_fY s_off]. repeat split; auto. apply L_updn. exact Ge.
Qed.

Lemma stages_loop_sim fsal ts dt s1 s2 : sim s1 s2 ->
  sim (rk_stages_loop R1 A s fsal ts dt s1) (rk_stages_loop R2 A s fsal ts dt s2).
Proof.
  unfold rk_stages_loop. generalize (seq 0 s) as l. intros l; revert s1 s2.
  induction l as [|a l IH]; intros s1 s2 H; cbn [fold_left]; auto. apply IH.
  destruct (orb _ _); auto. apply stage_eval_sim; auto.
Qed.

Lemma rk_new_sim dt s1 s2 : sim s1 s2 -> rk_new b s dt s2 = L (rk_new b s dt s1).
Proof.
  intros (Hi & E0 & E1 & EY & Eo). unfold rk_new. rewrite Eo, E0.
  assert (G : forall l v, fold_left (fun v j => axpy v (dt * b j) (s_fY s2 (ring s (s_off s1) j))) l (L v)
     = L (fold_left (fun v j => axpy v (dt * b j) (s_fY s1 (ring s (s_off s1) j))) l v)).
  { induction l as [|a l IH]; intros v; cbn [fold_left]; auto. rewrite <- IH, Lax, EY. reflexivity. }
  rewrite <- G, Lax, EY. reflexivity.
Qed.
Lemma rk_err_sim dt s1 s2 : sim s1 s2 -> rk_err b bhat s dt s2 = L (rk_err b bhat s dt s1).
Proof.
  intros (Hi & E0 & E1 & EY & Eo). unfold rk_err. rewrite Eo.
  assert (G : forall l v, fold_left (fun v j => axpy v (dt * (b j - bhat j)) (s_fY s2 (ring s (s_off s1) j))) l (L v)
     = L (fold_left (fun v j => axpy v (dt * (b j - bhat j)) (s_fY s1 (ring s (s_off s1) j))) l v)).
  { induction l as [|a l IH]; intros v; cbn [fold_left]; auto. rewrite <- IH, Lax, EY. reflexivity. }
  rewrite <- G, L_scal, EY. reflexivity.
Qed.

Lemma sim_off s1 s2 off : sim s1 s2 ->
  sim (mkIstate (s_u0 s1) (s_u1 s1) (s_u2 s1) (s_rhs s1) (s_fY s1) off (s_ctx s1))
      (mkIstate (s_u0 s2) (s_u1 s2) (s_u2 s2) (s_rhs s2) (s_fY s2) off (s_ctx s2)).
Proof. intros (Hi & E0 & E1 & EY & Eo). split; [apply inv_st_off; exact Hi|]. cbn. auto. Qed.

(** the error estimates agree (needed for the adaptive method only) *)
Definition est_agrees := forall u v w, P u -> P v -> est2 (L u) (L v) (L w) = est1 u v w.

Lemma attempt_sim fsal ad ts dt fm s1 s2 : (ad = true -> est_agrees) -> sim s1 s2 ->
  match attempt R1 A b bhat s est1 fsal ad ts dt fm s1, attempt R2 A b bhat s est2 fsal ad ts dt fm s2 with
  | Retry t1 d1 f1, Retry t2 d2 f2 => sim t1 t2 /\ d1 = d2 /\ f1 = f2
  | Accept t1 d1 p1, Accept t2 d2 p2 => sim t1 t2 /\ d1 = d2 /\ p1 = p2
  | _, _ => False
  end.
Proof.
  intros He Hs. pose proof (attempt_inv R1 P HP HR A b bhat s est1 fsal ad ts dt fm s1 (proj1 Hs)) as Hinv.
  unfold attempt in *.
  assert (Eo : s_off s2 = s_off s1) by apply Hs. rewrite Eo.
  set (off := if fsal then _ else s_off s1) in *.
  pose proof (stages_loop_sim fsal ts dt _ _ (sim_off s1 s2 off Hs)) as S.
  set (t1 := rk_stages_loop R1 _ _ _ _ _ _) in *. set (t2 := rk_stages_loop R2 _ _ _ _ _ _) in *.
  rewrite (rk_new_sim dt t1 t2 S), (rk_err_sim dt t1 t2 S).
  pose proof S as (Si & S0 & S1 & SY & So).
  cbn [s_u0 s_u1 s_u2 s_rhs s_fY s_off s_ctx] in *. rewrite S0, So.
  assert (Pn : P (rk_new b s dt t1)) by (apply (rk_new_P P HP); exact Si).
  destruct ad.
  - rewrite (He eq_refl (s_u0 t1) (rk_new b s dt t1) (rk_err b bhat s dt t1) (proj1 Si) Pn).
    destruct (Rlt_dec _ _); (split; [split; [exact Hinv|cbn; auto]|auto]).
  - split; [split; [exact Hinv|cbn; auto]|auto].
Qed.

Lemma adaptive_loop_sim fuel fsal ad ts : (ad = true -> est_agrees) -> forall dt fm s1 s2, sim s1 s2 ->
  match adaptive_loop R1 A b bhat s est1 fuel fsal ad ts dt fm s1,
        adaptive_loop R2 A b bhat s est2 fuel fsal ad ts dt fm s2 with
  | None, None => True
  | Some (t1, d1, p1), Some (t2, d2, p2) => sim t1 t2 /\ d1 = d2 /\ p1 = p2
  | _, _ => False
  end.
Proof.
  intros He. induction fuel as [|n IH]; intros dt fm s1 s2 Hs; cbn [adaptive_loop]; [exact I|].
  pose proof (attempt_sim fsal ad ts dt fm s1 s2 He Hs) as Ha.
  destruct (attempt R1 _ _ _ _ _ _ _ _ _ _ _) as [t1 d1 f1|t1 d1 p1],
           (attempt R2 _ _ _ _ _ _ _ _ _ _ _) as [t2 d2 f2|t2 d2 p2]; try contradiction.
  - destruct Ha as (Ha & <- & <-). apply IH; exact Ha.
  - destruct Ha as ((Hi & S0 & S1 & SY & So) & <- & <-). split; [|auto].
    destruct Hi as (A0 & A1 & AY). split; [repeat split; cbn; auto|cbn; auto].
Qed.
End RK.

Lemma integrate_sim est1 est2 fuel g dt ts s1 s2 :
  (g = IBS5 true -> est_agrees est1 est2) -> sim s1 s2 ->
  match integrate R1 est1 fuel g dt ts s1, integrate R2 est2 fuel g dt ts s2 with
  | None, None => True
  | Some (t1, d1, p1), Some (t2, d2, p2) => sim t1 t2 /\ d1 = d2 /\ p1 = p2
  | _, _ => False
  end.
Proof.
  intros He Hs. destruct g as [| | |ad]; cbn [integrate].
  - pose proof (RK4_sim dt s1 s2 Hs) as G.
    destruct (RK4_dt R1 dt s1) as [D1' D1''], (RK4_dt R2 dt s2) as [D2' D2''].
    destruct (RK4 R1 dt s1) as [[t1 d1] p1], (RK4 R2 dt s2) as [[t2 d2] p2].
    cbn [fst snd] in *. subst. auto.
  - pose proof (FE_sim dt s1 s2 Hs) as G. unfold ForwardEuler in *.
    destruct (R1 _ _ _), (R2 _ _ _). cbn [fst] in G. auto.
  - pose proof (AB2_sim dt ts s1 s2 Hs) as G. unfold AB2 in *.
    destruct (R1 _ _ _), (R2 _ _ _). cbn [fst] in G. auto.
  - apply adaptive_loop_sim; [|exact Hs]. intros ->. apply He; reflexivity.
Qed.

(** Two complete simulations in lock-step. *)
Context {E1 E2 : Type} (est1 : V1 -> V1 -> V1 -> R) (est2 : V2 -> V2 -> V2 -> R)
  (upd1 : R -> nat -> V1 * V1 * ctx1 * E1 -> V1 * V1 * ctx1 * E1)
  (upd2 : R -> nat -> V2 * V2 * ctx2 * E2 -> V2 * V2 * ctx2 * E2)
  (out1 : R -> nat -> V1 -> ctx1 * E1 -> ctx1 * E1 * bool)
  (out2 : R -> nat -> V2 -> ctx2 * E2 -> ctx2 * E2 * bool).
Context (Hu : forall t n u r c e r' c' e', P u ->
  P (fst (fst (fst (upd1 t n (u, r, c, e))))) /\
  fst (fst (fst (upd2 t n (L u, r', c', e')))) = L (fst (fst (fst (upd1 t n (u, r, c, e)))))).
Context (rnd : R -> R) (T : R) (fuel : nat) (g : integ).
Context (He : g = IBS5 true -> est_agrees est1 est2).
(** neither run is killed by a kill file *)
Context (Hk1 : forall t n u c e, snd (out1 t n u (c, e)) = false)
        (Hk2 : forall t n u c e, snd (out2 t n u (c, e)) = false).

Definition lsim (a : lstate (world D1 I1 ctx1 E1)) (b : lstate (world D2 I2 ctx2 E2)) : Prop :=
  l_t a = l_t b /\ l_dt a = l_dt b /\ l_tstep a = l_tstep b /\ sim (w_st (l_w a)) (w_st (l_w b)).

Lemma iter_sim a b : lsim a b ->
  match run_iter R1 est1 upd1 out1 rnd T fuel g a, run_iter R2 est2 upd2 out2 rnd T fuel g b with
  | Stop a, Stop b | Break a, Break b | Cont a, Cont b | Raise a, Raise b => lsim a b
  | _, _ => False
  end.
Proof.
  intros (Et & Ed & En & Hs). unfold run_iter, iter. rewrite <- Et, <- Ed, <- En.
  destruct (Rle_dec _ _) as [Hle|Hle]; [|unfold lsim; auto].
  unfold run_integrate.
  pose proof (integrate_sim est1 est2 fuel g (l_dt a) (l_tstep a) _ _ He Hs) as G.
  destruct (integrate R1 _ _ _ _ _ _) as [[[t1 d1] p1]|], (integrate R2 _ _ _ _ _ _) as [[[t2 d2] p2]|];
    try contradiction; [|unfold lsim; auto].
  destruct G as (G & <- & <-).
  set (t := rnd (l_t a + p1)). set (n := S (l_tstep a)).
  unfold run_update. cbn [w_st w_env].
  pose proof G as ((A0 & A1 & AY) & S0 & S1 & SY & So). rewrite S0.
  destruct (Hu t n (s_u0 t1) (s_rhs t1) (s_ctx t1) (w_env (l_w a)) (s_rhs t2) (s_ctx t2) (w_env (l_w b)) A0) as [Hp Hl].
  destruct (upd1 _ _ _) as [[[u1 r1] c1] e1], (upd2 _ _ _) as [[[u2 r2] c2] e2].
  cbn [fst] in Hp, Hl. subst u2.
  unfold run_output. cbn [w_st w_env s_u0 s_u1 s_u2 s_rhs s_fY s_off s_ctx].
  pose proof (Hk1 t n u1 c1 e1) as K1. pose proof (Hk2 t n (L u1) c2 e2) as K2.
  destruct (out1 _ _ _ _) as [[c1' e1'] k1], (out2 _ _ _ _) as [[c2' e2'] k2]. cbn [snd] in K1, K2. subst k1 k2.
  unfold end_of_tstep_NS.
  assert (Z : sim (mkIstate u1 (s_u1 t1) (s_u2 t1) r1 (s_fY t1) (s_off t1) c1')
                  (mkIstate (L u1) (s_u1 t2) (s_u2 t2) r2 (s_fY t2) (s_off t2) c2')).
  { split; [repeat split; cbn; auto|cbn; auto]. }
  repeat (destruct (Rlt_dec _ _) || destruct (Rle_dec _ _)); unfold lsim; cbn; auto.
Qed.

Lemma reach_sim a b n a' : lsim a b -> run_reach R1 est1 upd1 out1 rnd T fuel g a n a' ->
  exists b', run_reach R2 est2 upd2 out2 rnd T fuel g b n b' /\ lsim a' b'.
Proof.
  intros H Hr. induction Hr as [|n s s' Hr IH E].
  - exists b. split; [constructor|exact H].
  - destruct IH as (b' & Hb & Hs). pose proof (iter_sim s b' Hs) as G.
    unfold run_iter in G. rewrite E in G.
    destruct (iter rnd eps12 T (run_integrate R2 est2 fuel g) _ _ _ b') as [x|x|x|x|x] eqn:Eb; try contradiction.
    exists x. split; [|exact G]. econstructor; [exact Hb|exact Eb].
Qed.

Lemma observed_sim a b a' : lsim a b -> observed R1 est1 upd1 out1 rnd T fuel g a a' ->
  exists b', observed R2 est2 upd2 out2 rnd T fuel g b b' /\ lsim a' b'.
Proof.
  intros H (n & s1 & Hr & Hs). destruct (reach_sim a b n s1 H Hr) as (b1 & Hb & S1).
  destruct Hs as [->|Hs].
  - exists b1. split; [exists n, b1; auto|exact S1].
  - pose proof (iter_sim s1 b1 S1) as G. unfold run_iter in G.
    destruct Hs as [E|[E|E]]; rewrite E in G; try contradiction;
    destruct (iter rnd eps12 T (run_integrate R2 est2 fuel g) _ _ _ b1) as [x|x|x|x|x] eqn:Eb; try contradiction.
    + exists x. split; [|exact G]. exists n, b1. split; [exact Hb|]. right. left. exact Eb.
    + exists x. split; [|exact G]. exists n, b1. split; [exact Hb|]. right. right; left. exact Eb.
Qed.
End Sim.

(** ** A step can be taken *)
Section Step.
Context {D I ctx E : Type}.
Notation V := (svec D I).
Context (ComputeRHS : ctx -> V -> V -> V * ctx) (est_of : V -> V -> V -> R).
Context (user_update : R -> nat -> V * V * ctx * E -> V * V * ctx * E).
Context (output : R -> nat -> V -> ctx * E -> ctx * E * bool).

Lemma integrate_fixed_total fuel g dt ts st : g <> IBS5 true ->
  exists st', integrate ComputeRHS est_of (S fuel) g dt ts st = Some (st', dt, dt).
Proof.
  intros H. destruct g as [| | |[]]; try congruence; cbn [integrate].
  - unfold RK4. eexists; reflexivity.
  - unfold ForwardEuler. destruct (ComputeRHS _ _ _). eexists; reflexivity.
  - unfold AB2. destruct (ComputeRHS _ _ _). eexists; reflexivity.
  - unfold adaptiveRK. cbn [adaptive_loop]. unfold attempt. eexists; reflexivity.
Qed.

(** with a fixed-step integrator, if the time condition holds, a step is taken *)
Lemma step_exists rnd T fuel g s : g <> IBS5 true -> rnd (l_t s + l_dt s) <= rnd (T + eps12) ->
  exists s', run_stepped ComputeRHS est_of user_update output rnd T (S fuel) g s s' /\
             l_tstep s' = S (l_tstep s) /\ l_t s' = rnd (l_t s + l_dt s).
Proof.
  intros Hg Hle. unfold run_stepped, stepped, iter.
  destruct (Rle_dec _ _) as [_|N]; [|contradiction]. unfold run_integrate.
  destruct (integrate_fixed_total fuel g (l_dt s) (l_tstep s) (w_st (l_w s)) Hg) as [st' ->].
  destruct (run_output _ _ _ _) as [w kill]. destruct kill.
  - eexists; split; [right; right; reflexivity|auto].
  - destruct (end_of_tstep_NS _ _ _ _ _ _) as [[brk d] w']. destruct brk.
    + eexists; split; [right; left; reflexivity|auto].
    + eexists; split; [left; reflexivity|auto].
Qed.
End Step.
