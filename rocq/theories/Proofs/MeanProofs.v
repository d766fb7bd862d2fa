(** The mean mode, the NS/VV equivalence and the pressure left behind by a step. *)
From Coq Require Import Reals Lra Lia List FunctionalExtensionality.
From Verif Require Import Base.Cplx Base.Sums Spec.Env Base.Fin Spec.Fourier Spec.RungeKutta Model.Maths Model.NS Model.NS2D
  Model.VV Model.MHD Model.Bq2D Model.BS5 Model.Integrators Model.Integrate Model.Solve Model.Run
  Proofs.Common Proofs.NSProofs Proofs.VVProofs Proofs.MHDProofs Proofs.BqProofs
  Proofs.IntegratorProofs Proofs.FsalProofs Proofs.RunProofs Proofs.AffineProofs Proofs.PeriodicProofs.
Import ListNotations.
Open Scope R_scope.


Lemma deriv_mean {D I} (K : D -> I -> R) j f k : is_mean K k -> deriv (K j) f k = C0.
Proof. intros H. unfold deriv. rewrite (H j), RtoC_0. ring. Qed.
Lemma knorm2_mean {D I} (F : fin D) (K : D -> I -> R) k : is_mean K k -> knorm2 F K k = 0.
Proof. intros H. apply knorm2_0, H. Qed.

Section NS.
Context {I X E : Type} (T : transf I X) (K : ax3 -> I -> R).

Lemma NS_rhs_mean c m nu S b r u i k : is_mean K k ->
  fst (ComputeRHS_NS T K c m nu S b r u) i k = (mask_nyquist m (conv_spec T K c u) i k + S i k)%C.
Proof.
  intros H. rewrite ComputeRHS_NS_fst, leray_mean by assumption.
  rewrite (knorm2_mean F3 K k H). rewrite Rmult_0_r, RtoC_0. ring.
Qed.
Lemma divuu_mean u i k : is_mean K k -> divuu (bwd T) (fwd T) F3 K u i k = C0.
Proof. intros H. unfold divuu. apply CsumL_0. intros. apply deriv_mean, H. Qed.
Lemma NS_div_mean m nu S b r u i k : is_mean K k ->
  fst (ComputeRHS_NS T K Divergence m nu S b r u) i k = S i k.
Proof.
  intros H. rewrite NS_rhs_mean by assumption. unfold mask_nyquist, conv_spec.
  rewrite ?divuu_mean by assumption. destruct m as [f|]; [destruct (f k)|]; rewrite ?divuu_mean by assumption; ring.
Qed.

Definition dir_mean (v : svec ax3 I) : Prop := forall i k, is_mean K k -> v i k = C0.

Lemma NS_mean_run m nu S est upd (out : R -> nat -> svec ax3 I -> nsbuf ax3 I X * E -> _) rnd Tend fuel g s0 s u0 :
  (forall i k, is_mean K k -> S i k = C0) ->
  update_keeps upd (mean_is K u0) -> at_start s0 u0 -> (g = IAB2 -> l_tstep s0 = 0%nat) ->
  observed (ComputeRHS_NS T K Divergence m nu S) est upd out rnd Tend fuel g s0 s ->
  mean_is K u0 (solution (l_w s)).
Proof.
  intros HS Hup H0 Hg Ho.
  refine (aff_run _ dir_mean (mean_is K u0) _ _ _ _ _ _ Hup _ _ _ _ s0 s u0 H0 _ Hg Ho).
  - apply (sub_zero (fun _ k => is_mean K k)).
  - intros u c v Hu Hv i k H. unfold axpy, plus. rewrite Hu, Hv by assumption. ring.
  - intros c r u _ i k H. rewrite NS_div_mean by assumption. apply HS, H.
  - intros i k _. reflexivity.
Qed.
End NS.

Section MHD.
Context {I X E : Type} (T : transf I X) (K : ax3 -> I -> R).
Definition mean6 (m v : svec ax6 I) : Prop := forall i k, is_mean K k -> v i k = m i k.
Lemma convM_mean ub r k : is_mean K k -> convM_spec T K ub r k = C0.
Proof.
  intros H. unfold convM_spec. cbn [elems F3 CsumL].
  destruct r as [i|i]; rewrite !(H _), !RtoC_0; field; apply two_nz.
Qed.
Lemma MHD_mean_run m nu eta est upd (out : R -> nat -> svec ax6 I -> mhdbuf I X * E -> _) rnd Tend fuel g s0 s u0 :
  update_keeps upd (mean6 u0) -> at_start s0 u0 -> (g = IAB2 -> l_tstep s0 = 0%nat) ->
  observed (ComputeRHS_MHD T K m nu eta) est upd out rnd Tend fuel g s0 s ->
  mean6 u0 (solution (l_w s)).
Proof.
  intros Hup H0 Hg Ho.
  refine (aff_run _ (fun v => forall i k, is_mean K k -> v i k = C0) (mean6 u0) _ _ _ _ _ _ Hup _ _ _ _ s0 s u0 H0 _ Hg Ho).
  - apply (sub_zero (fun _ k => is_mean K k)).
  - intros u c v Hu Hv i k H. unfold axpy, plus. rewrite Hu, Hv by assumption. ring.
  - intros c r u _ i k H. rewrite ComputeRHS_MHD_fst.
    assert (Hz : forall r, mask_nyquist m (convM_spec T K u) r k = C0).
    { intros r0. unfold mask_nyquist. destruct m as [f|]; [destruct (f k)|]; auto using convM_mean. }
    rewrite (knorm2_mean F3 K k H), !Rmult_0_r, RtoC_0.
    destruct i as [i|i].
    + rewrite leray_mean by assumption. unfold velo. rewrite Hz. ring.
    + rewrite Hz. ring.
  - intros i k _. reflexivity.
Qed.
End MHD.

Section Bq.
Context {I X E : Type} (T : transf I X) (K : ax2 -> I -> R).
Definition rho_mean (m v : svec axb I) : Prop := forall k, is_mean K k -> v None k = m None k.
Lemma Bq_rho_mean_run m nu Ri Pr est upd (out : R -> nat -> svec axb I -> bqbuf I X * E -> _) rnd Tend fuel g s0 s u0 :
  update_keeps upd (rho_mean u0) -> at_start s0 u0 -> (g = IAB2 -> l_tstep s0 = 0%nat) -> Pr <> 0 ->
  observed (ComputeRHS_Bq T K m nu Ri Pr) est upd out rnd Tend fuel g s0 s ->
  rho_mean u0 (solution (l_w s)).
Proof.
  intros Hup H0 Hg HPr Ho.
  refine (aff_run _ (fun v => forall i k, i = None /\ is_mean K k -> v i k = C0) (rho_mean u0) _ _ _ _ _ _ Hup _ _ _ _ s0 s u0 H0 _ Hg Ho).
  - apply (sub_zero (fun i k => i = None /\ is_mean K k)).
  - intros u c v Hu Hv k H. unfold axpy, plus. rewrite Hu, Hv by auto. ring.
  - intros c r u _ i k [-> H]. rewrite ComputeRHS_Bq_fst.
    rewrite (knorm2_mean F2 K k H), Rmult_0_r, RtoC_0.
    assert (Hz : mask_nyquist m (convB_spec T K u) None k = C0).
    { assert (Hc : convB_spec T K u None k = C0).
      { unfold convB_spec. rewrite CsumL_0; [ring|]. intros; apply deriv_mean, H. }
      unfold mask_nyquist. destruct m as [f|]; [destruct (f k)|]; auto. }
    rewrite Hz. field. apply RtoC_neq0, HPr.
  - intros k _. reflexivity.
Qed.
End Bq.

(** ** Navier-Stokes (Vortex) and velocity-vorticity *)
Section VVNS.
Context {I X : Type} (T : transf I X) (K : ax3 -> I -> R).
Notation vec := (svec ax3 I).

Lemma curl_axpy (u : vec) c v : curl_hat K (axpy u c v) = axpy (curl_hat K u) c (curl_hat K v).
Proof. extensionality i; extensionality k. unfold curl_hat, axpy. destruct i; ring. Qed.
Lemma curl_zero : curl_hat K (fun _ _ => C0) = (fun _ _ => C0).
Proof. extensionality i; extensionality k. unfold curl_hat. destruct i; ring. Qed.
Lemma curl_mask m (v : vec) : curl_hat K (mask_nyquist m v) = mask_nyquist m (curl_hat K v).
Proof.
  destruct m as [f|]; [|reflexivity]. extensionality i; extensionality k.
  unfold curl_hat, mask_nyquist. destruct (f k); destruct i; ring.
Qed.
Lemma curl_leray (v : vec) : curl_hat K (leray F3 K v) = curl_hat K v.
Proof.
  extensionality i; extensionality k. unfold curl_hat, leray.
  destruct (Req_EM_T _ 0); destruct i; ring.
Qed.

Definition df0 (u : vec) : Prop := divfree F3 K u /\ (forall i k, is_mean K k -> u i k = C0).
Lemma sub_df0 : subspace df0.
Proof. apply sub_and; [apply sub_divfree|]. apply (sub_zero (fun _ k => is_mean K k)). Qed.

Lemma VV_of_NS m nu S b r b' r' u : df0 u ->
  fst (ComputeRHS_VV T K (K_over_K2_of F3 K) (K2_of F3 K) m nu (curl_hat K S) b' r' (curl_hat K u)) =
  curl_hat K (fst (ComputeRHS_NS T K Vortex m nu S b r u)).
Proof.
  intros [Hd Hm]. rewrite ComputeRHS_VV_fst, ComputeRHS_NS_fst.
  transitivity (fun i k => (mask_nyquist m (curl_hat K (conv_spec T K Vortex u)) i k
     - RtoC (nu * knorm2 F3 K k) * curl_hat K u i k + curl_hat K S i k)%C).
  - extensionality i; extensionality k. f_equal. f_equal.
    unfold convVV_spec. rewrite velocity_of_curl by assumption. reflexivity.
  - rewrite <- curl_mask, <- (curl_leray (mask_nyquist m _)).
    extensionality i; extensionality k. unfold curl_hat. destruct i; ring.
Qed.
End VVNS.


Lemma NS_VV_run {I X E E'} (T : transf I X) K m nu S est est'
  upd (out : R -> nat -> svec ax3 I -> nsbuf ax3 I X * E -> _)
  upd' (out' : R -> nat -> svec ax3 I -> vvbuf I X * E' -> _) rnd Tend fuel g s0 s0' u0 s :
  g <> IBS5 true ->
  (* the convection term and the source have zero mean *)
  (forall u, df0 K u -> forall i k, is_mean K k -> mask_nyquist m (conv_spec T K Vortex u) i k = C0) ->
  df0 K S ->
  update_readonly upd -> update_readonly upd' -> never_killed out -> never_killed out' ->
  df0 K u0 -> at_start s0 u0 -> at_start s0' (curl_hat K u0) ->
  l_t s0' = l_t s0 -> l_dt s0' = l_dt s0 -> l_tstep s0' = l_tstep s0 ->
  observed (ComputeRHS_NS T K Vortex m nu S) est upd out rnd Tend fuel g s0 s ->
  exists s', observed (ComputeRHS_VV T K (K_over_K2_of F3 K) (K2_of F3 K) m nu (curl_hat K S)) est' upd' out' rnd Tend fuel g s0' s' /\
    l_t s' = l_t s /\ l_tstep s' = l_tstep s /\ solution (l_w s') = curl_hat K (solution (l_w s)).
Proof.
  intros Hg Hc HS Hu Hu' Hk Hk' H0 (r1 & c1 & e1 & E1) (r2 & c2 & e2 & E2) Et Ed En Ho.
  destruct (observed_sim (curl_hat K) (curl_zero K) (curl_axpy K)
     (ComputeRHS_NS T K Vortex m nu S)
     (ComputeRHS_VV T K (K_over_K2_of F3 K) (K2_of F3 K) m nu (curl_hat K S))
     (df0 K) (sub_df0 K)) with (est1 := est) (est2 := est') (upd1 := upd) (upd2 := upd') (out1 := out) (out2 := out')
     (rnd := rnd) (T := Tend) (fuel := fuel) (g := g) (a := s0) (b := s0') (a' := s) as (s' & Ho' & Ls).
  - intros c r u [Hd Hm]. split.
    + intros k. rewrite kdot_NS, Hd, (proj1 HS). ring.
    + intros i k Hi. rewrite NS_rhs_mean by assumption. rewrite (Hc u (conj Hd Hm)) by assumption.
      rewrite (proj2 HS) by assumption. ring.
  - intros c r c' r' u Hd. apply VV_of_NS, Hd.
  - intros t n u r c e r' c' e' Hd. rewrite Hu, Hu'. auto.
  - intros ->. congruence.
  - exact Hk.
  - exact Hk'.
  - split; [auto|split; [auto|split; [auto|]]]. rewrite E1, E2. cbn [w_st]. apply (sim_init (curl_hat K) (curl_zero K)); [apply sub_df0|exact H0].
  - exact Ho.
  - exists s'. split; [exact Ho'|]. destruct Ls as (A & B & C & (_ & Dd & _)).
    unfold solution. auto.
Qed.

(** ** Which field do the solver's buffers belong to after one step? *)
Section Obs.
Context {D I ctx O : Type}.
Notation V := (svec D I).
Context (ComputeRHS : ctx -> V -> V -> V * ctx) (f : V -> V) (Hf : computes ComputeRHS f).
(** [obs] (for instance P_hat) of the buffers after a call depends on the field only *)
Context (obs : ctx -> O) (o : V -> O) (Ho : forall c r u, obs (snd (ComputeRHS c r u)) = o u).

Lemma RK4_ctx dt st : obs (s_ctx (fst (fst (RK4 ComputeRHS dt st)))) =
  o (plus (s_u0 st) dt (rk4_k3 f dt (s_u0 st))).
Proof.
  unfold RK4. cbn [fst s_ctx fold_left].
  set (s0 := mkIstate (s_u0 st) (s_u0 st) (s_u0 st) (s_rhs st) (s_fY st) (s_off st) (s_ctx st)).
  destruct (stage_u0 ComputeRHS f Hf dt s0 0) as (A0 & B0 & _ & _). set (s1 := rk4_stage ComputeRHS dt s0 0) in *.
  destruct (stage_u0 ComputeRHS f Hf dt s1 1) as (A1 & B1 & _ & _). set (s2 := rk4_stage ComputeRHS dt s1 1) in *.
  destruct (stage_u0 ComputeRHS f Hf dt s2 2) as (A2 & B2 & _ & _). set (s3 := rk4_stage ComputeRHS dt s2 2) in *.
  cbn [Nat.ltb Nat.leb nth rk4_a rk4_b] in *.
  unfold s0 in A0, B0; cbn [s_u0 s_u1 s_u2] in A0, B0.
  assert (E1 : s_u0 s1 = plus (s_u0 st) (dt / 2) (rk4_k1 f (s_u0 st))).
  { rewrite A0, plus_axpy. f_equal. lra. }
  assert (E2 : s_u0 s2 = plus (s_u0 st) (dt / 2) (rk4_k2 f dt (s_u0 st))).
  { rewrite A1, B0, E1, plus_axpy. unfold rk4_k2. f_equal. lra. }
  assert (E3 : s_u0 s3 = plus (s_u0 st) dt (rk4_k3 f dt (s_u0 st))).
  { rewrite A2, B1, B0, E2, plus_axpy. unfold rk4_k3. f_equal. lra. }
  rewrite <- E3. rewrite <- (Ho (s_ctx s3) (s_rhs s3)). unfold rk4_stage.
  destruct (ComputeRHS _ _ _); reflexivity.
Qed.
Lemma FE_ctx dt st : obs (s_ctx (fst (fst (ForwardEuler ComputeRHS dt st)))) = o (s_u0 st).
Proof.
  rewrite <- (Ho (s_ctx st) (s_rhs st)). unfold ForwardEuler. destruct (ComputeRHS _ _ _); reflexivity.
Qed.
Lemma AB2_ctx dt ts st : obs (s_ctx (fst (fst (AB2 ComputeRHS dt ts st)))) = o (s_u0 st).
Proof.
  rewrite <- (Ho (s_ctx st) (s_rhs st)). unfold AB2. destruct (ComputeRHS _ _ _); reflexivity.
Qed.
End Obs.
