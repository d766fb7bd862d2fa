(** Invariants of complete simulations with the periodic solvers. *)
From Coq Require Import Reals Lra Lia List FunctionalExtensionality.
From Verif Require Import Base.Cplx Base.Sums Spec.Env Base.Fin Spec.Fourier Spec.RungeKutta Model.Maths Model.NS Model.NS2D
  Model.VV Model.MHD Model.Bq2D Model.Integrators Model.Integrate Model.Solve Model.Run
  Proofs.Common Proofs.NSProofs Proofs.VVProofs Proofs.MHDProofs Proofs.BqProofs
  Proofs.IntegratorProofs Proofs.RunProofs Proofs.AffineProofs.
Import ListNotations.
Open Scope R_scope.

(** ** Subspaces *)
Section Sub.
Context {D I : Type} (F : fin D) (K : D -> I -> R).
Lemma kdot_zero k : kdot F K (fun _ _ => C0) k = C0.
Proof. unfold kdot. apply CsumL_0. intros; ring. Qed.
Lemma kdot_axpy (u : svec D I) c v k : kdot F K (axpy u c v) k = (kdot F K u k + RtoC c * kdot F K v k)%C.
Proof.
  unfold axpy, plus. rewrite (kdot_add F K u (fun i k => RtoC c * v i k)%C).
  rewrite (kdot_scal F K (fun _ => RtoC c)). reflexivity.
Qed.
Lemma sub_divfree : subspace (divfree F K).
Proof.
  split; [intros k; apply kdot_zero|]. intros u c v Hu Hv k. rewrite kdot_axpy, Hu, Hv. ring.
Qed.
Lemma sub_zero (S : D -> I -> Prop) : subspace (fun v : svec D I => forall i k, S i k -> v i k = C0).
Proof.
  split; [reflexivity|]. intros u c v Hu Hv i k H. unfold axpy, plus. rewrite Hu, Hv by assumption. ring.
Qed.
Lemma sub_and (P Q : svec D I -> Prop) : subspace P -> subspace Q -> subspace (fun v => P v /\ Q v).
Proof.
  intros [P0 P1] [Q0 Q1]. split; [auto|]. intros u c v [Hu Hu'] [Hv Hv']. auto.
Qed.
Lemma get_divergence_0 (u : svec D I) : divfree F K u -> forall k, get_divergence_hat F K u k = C0.
Proof. intros H k. unfold get_divergence_hat. fold (kdot F K u k). rewrite H. ring. Qed.
End Sub.
Lemma sub_pre {D E I} (L : svec D I -> svec E I) (P : svec E I -> Prop) :
  L (fun _ _ => C0) = (fun _ _ => C0) -> (forall u c v, L (axpy u c v) = axpy (L u) c (L v)) ->
  subspace P -> subspace (fun v => P (L v)).
Proof. intros L0 L1 [P0 P1]. split; [rewrite L0; exact P0|]. intros u c v Hu Hv. rewrite L1. auto. Qed.
Lemma sub_velo {I} (P : svec ax3 I -> Prop) : subspace P -> subspace (fun v : svec ax6 I => P (velo v)).
Proof. apply sub_pre; reflexivity. Qed.
Lemma sub_magn {I} (P : svec ax3 I -> Prop) : subspace P -> subspace (fun v : svec ax6 I => P (magn v)).
Proof. apply sub_pre; reflexivity. Qed.
Lemma sub_velo2 {I} (P : svec ax2 I -> Prop) : subspace P -> subspace (fun v : svec axb I => P (velo2 v)).
Proof. apply sub_pre; reflexivity. Qed.

Lemma mask_masked {D I} m (v : svec D I) i k : masked (D:=D) m i k -> mask_nyquist m v i k = C0.
Proof. destruct m as [f|]; simpl; [intros ->; reflexivity|contradiction]. Qed.

(** ** Leray projection *)
Section Leray.
Context {D I : Type} (F : fin D) (K : D -> I -> R).
Lemma project_leray (u : svec D I) : project F u K (K_over_K2_of F K) = leray F K u.
Proof.
  extensionality i; extensionality k. unfold project, leray.
  replace (CsumL (elems F) (fun i0 => RCmul (K_over_K2_of F K i0 k) (u i0 k)))
    with (CsumL (elems F) (fun i0 => (u i0 k * RtoC (K_over_K2_of F K i0 k))%C))
    by (apply CsumL_ext; intros; unfold RCmul; ring).
  rewrite KoK2_dot. destruct (Req_EM_T (knorm2 F K k) 0); ring.
Qed.
Lemma leray_zero_at (v : svec D I) k : (forall i, v i k = C0) -> forall i, leray F K v i k = C0.
Proof.
  intros H i. unfold leray. destruct (Req_EM_T _ 0) as [E|E]; [apply H|].
  rewrite H. replace (kdot F K v k) with C0.
  - field. apply RtoC_neq0, E.
  - unfold kdot. symmetry. apply CsumL_0. intros; rewrite H; ring.
Qed.
Lemma leray_grad (v : svec D I) : exists phi, forall i k, (v i k - leray F K v i k)%C = (RtoC (K i k) * phi k)%C.
Proof.
  exists (fun k => if Req_EM_T (knorm2 F K k) 0 then C0 else (kdot F K v k / RtoC (knorm2 F K k))%C).
  intros i k. unfold leray. destruct (Req_EM_T _ 0); ring.
Qed.
(** orthogonality: w . conj(K phi) = phi* (K.w) = 0 *)
Lemma divfree_orth_grad (w : svec D I) phi k : divfree F K w ->
  CsumL (elems F) (fun i => (w i k * Cconj (RtoC (K i k) * phi k))%C) = C0.
Proof.
  intros H. transitivity (Cconj (phi k) * kdot F K w k)%C; [|rewrite H; ring].
  unfold kdot. rewrite <- CsumL_scal. apply CsumL_ext. intros. rewrite Cconj_mul, Cconj_R. ring.
Qed.
End Leray.

(** ** Observed states of a simulation *)
Section Solvers.
Context {I X E : Type}.

Lemma NS_divfree (T : transf I X) K c m nu S est upd (out : R -> nat -> svec ax3 I -> nsbuf ax3 I X * E -> _) rnd Tend fuel g s0 s u0 :
  divfree F3 K u0 -> divfree F3 K S -> update_keeps upd (divfree F3 K) -> at_start s0 u0 ->
  observed (ComputeRHS_NS T K c m nu S) est upd out rnd Tend fuel g s0 s ->
  divfree F3 K (solution (l_w s)).
Proof.
  intros Hu HS Hup H0 Ho.
  refine (run_inv_start _ _ _ _ (divfree F3 K) (sub_divfree F3 K) _ Hup _ _ _ _ _ _ _ H0 Hu Ho).
  intros cc r u Hd k. rewrite kdot_NS, Hd, HS. ring.
Qed.
Lemma NS2D_divfree (T : transf I X) K m nu S est upd (out : R -> nat -> svec ax2 I -> ns2buf I X * E -> _) rnd Tend fuel g s0 s u0 :
  divfree F2 K u0 -> divfree F2 K S -> update_keeps upd (divfree F2 K) -> at_start s0 u0 ->
  observed (ComputeRHS_NS2D T K m nu S) est upd out rnd Tend fuel g s0 s ->
  divfree F2 K (solution (l_w s)).
Proof.
  intros Hu HS Hup H0 Ho.
  refine (run_inv_start _ _ _ _ (divfree F2 K) (sub_divfree F2 K) _ Hup _ _ _ _ _ _ _ H0 Hu Ho).
  intros cc r u Hd k. rewrite kdot_NS2D, Hd, HS. ring.
Qed.
Lemma MHD_divfree (T : transf I X) K m nu eta est upd (out : R -> nat -> svec ax6 I -> mhdbuf I X * E -> _) rnd Tend fuel g s0 s u0 :
  divfree F3 K (velo u0) /\ divfree F3 K (magn u0) ->
  update_keeps upd (fun v => divfree F3 K (velo v) /\ divfree F3 K (magn v)) -> at_start s0 u0 ->
  observed (ComputeRHS_MHD T K m nu eta) est upd out rnd Tend fuel g s0 s ->
  divfree F3 K (velo (solution (l_w s))) /\ divfree F3 K (magn (solution (l_w s))).
Proof.
  intros Hu Hup H0 Ho.
  refine (run_inv_start _ _ _ _ (fun v => divfree F3 K (velo v) /\ divfree F3 K (magn v)) _ _ Hup _ _ _ _ _ _ _ H0 Hu Ho).
  - apply sub_and; [apply sub_velo|apply sub_magn]; apply sub_divfree.
  - intros cc r u [Hd Hb]. split; intros k.
    + rewrite kdot_MHD_u, Hd. ring.
    + rewrite kdot_MHD_b, Hb. ring.
Qed.
(** the two fields separately *)
Lemma MHD_divfree_b (T : transf I X) K m nu eta est upd (out : R -> nat -> svec ax6 I -> mhdbuf I X * E -> _) rnd Tend fuel g s0 s u0 :
  divfree F3 K (magn u0) -> update_keeps upd (fun v => divfree F3 K (magn v)) -> at_start s0 u0 ->
  observed (ComputeRHS_MHD T K m nu eta) est upd out rnd Tend fuel g s0 s ->
  divfree F3 K (magn (solution (l_w s))).
Proof.
  intros Hu Hup H0 Ho.
  refine (run_inv_start _ _ _ _ (fun v => divfree F3 K (magn v)) (sub_magn _ (sub_divfree F3 K)) _ Hup _ _ _ _ _ _ _ H0 Hu Ho).
  intros cc r u Hb k. rewrite kdot_MHD_b, Hb. ring.
Qed.
Lemma VV_divfree (T : transf I X) K m nu S est upd (out : R -> nat -> svec ax3 I -> vvbuf I X * E -> _) rnd Tend fuel g s0 s u0 :
  divfree F3 K u0 -> divfree F3 K S -> update_keeps upd (divfree F3 K) -> at_start s0 u0 ->
  observed (ComputeRHS_VV T K (K_over_K2_of F3 K) (K2_of F3 K) m nu S) est upd out rnd Tend fuel g s0 s ->
  divfree F3 K (solution (l_w s)).
Proof.
  intros Hu HS Hup H0 Ho.
  refine (run_inv_start _ _ _ _ (divfree F3 K) (sub_divfree F3 K) _ Hup _ _ _ _ _ _ _ H0 Hu Ho).
  intros cc r u Hd k. rewrite kdot_VV, Hd, HS. ring.
Qed.
Lemma Bq_divfree (T : transf I X) K m nu Ri Pr est upd (out : R -> nat -> svec axb I -> bqbuf I X * E -> _) rnd Tend fuel g s0 s u0 :
  divfree F2 K (velo2 u0) -> update_keeps upd (fun v => divfree F2 K (velo2 v)) -> at_start s0 u0 ->
  observed (ComputeRHS_Bq T K m nu Ri Pr) est upd out rnd Tend fuel g s0 s ->
  divfree F2 K (velo2 (solution (l_w s))).
Proof.
  intros Hu Hup H0 Ho.
  refine (run_inv_start _ _ _ _ (fun v => divfree F2 K (velo2 v)) (sub_velo2 _ (sub_divfree F2 K)) _ Hup _ _ _ _ _ _ _ H0 Hu Ho).
  intros cc r u Hd k. rewrite kdot_Bq, Hd. ring.
Qed.

(** masked modes *)
Notation zero_masked m := (fun v => forall i k, masked m i k -> v i k = C0).
Lemma NS_masked (T : transf I X) K c m nu S est upd (out : R -> nat -> svec ax3 I -> nsbuf ax3 I X * E -> _) rnd Tend fuel g s0 s u0 :
  (forall i k, masked m i k -> u0 i k = C0) -> (forall i k, masked m i k -> S i k = C0) ->
  update_keeps upd (zero_masked m) -> at_start s0 u0 ->
  observed (ComputeRHS_NS T K c m nu S) est upd out rnd Tend fuel g s0 s ->
  forall i k, masked m i k -> solution (l_w s) i k = C0.
Proof.
  intros Hu HS Hup H0 Ho.
  refine (run_inv_start _ _ _ _ (zero_masked m) (sub_zero (masked m)) _ Hup _ _ _ _ _ _ _ H0 Hu Ho).
  intros cc r u Hd i k Hk. rewrite ComputeRHS_NS_fst.
  rewrite leray_zero_at by (intros j; apply mask_masked; exact Hk).
  rewrite Hd, HS by assumption. ring.
Qed.
Lemma NS2D_masked (T : transf I X) K m nu S est upd (out : R -> nat -> svec ax2 I -> ns2buf I X * E -> _) rnd Tend fuel g s0 s u0 :
  (forall i k, masked m i k -> u0 i k = C0) -> (forall i k, masked m i k -> S i k = C0) ->
  update_keeps upd (zero_masked m) -> at_start s0 u0 ->
  observed (ComputeRHS_NS2D T K m nu S) est upd out rnd Tend fuel g s0 s ->
  forall i k, masked m i k -> solution (l_w s) i k = C0.
Proof.
  intros Hu HS Hup H0 Ho.
  refine (run_inv_start _ _ _ _ (zero_masked m) (sub_zero (masked m)) _ Hup _ _ _ _ _ _ _ H0 Hu Ho).
  intros cc r u Hd i k Hk. rewrite ComputeRHS_NS2D_fst.
  rewrite leray_zero_at by (intros j; apply mask_masked; exact Hk).
  rewrite Hd, HS by assumption. ring.
Qed.
Lemma VV_masked (T : transf I X) K m nu S est upd (out : R -> nat -> svec ax3 I -> vvbuf I X * E -> _) rnd Tend fuel g s0 s u0 :
  (forall i k, masked m i k -> u0 i k = C0) -> (forall i k, masked m i k -> S i k = C0) ->
  update_keeps upd (zero_masked m) -> at_start s0 u0 ->
  observed (ComputeRHS_VV T K (K_over_K2_of F3 K) (K2_of F3 K) m nu S) est upd out rnd Tend fuel g s0 s ->
  forall i k, masked m i k -> solution (l_w s) i k = C0.
Proof.
  intros Hu HS Hup H0 Ho.
  refine (run_inv_start _ _ _ _ (zero_masked m) (sub_zero (masked m)) _ Hup _ _ _ _ _ _ _ H0 Hu Ho).
  intros cc r u Hd i k Hk. rewrite ComputeRHS_VV_fst.
  rewrite mask_masked by assumption. rewrite Hd, HS by assumption. ring.
Qed.
Lemma MHD_masked (T : transf I X) K m nu eta est upd (out : R -> nat -> svec ax6 I -> mhdbuf I X * E -> _) rnd Tend fuel g s0 s u0 :
  (forall i k, masked m i k -> u0 i k = C0) ->
  update_keeps upd (zero_masked m) -> at_start s0 u0 ->
  observed (ComputeRHS_MHD T K m nu eta) est upd out rnd Tend fuel g s0 s ->
  forall i k, masked m i k -> solution (l_w s) i k = C0.
Proof.
  intros Hu Hup H0 Ho.
  refine (run_inv_start _ _ _ _ (zero_masked m) (sub_zero (masked m)) _ Hup _ _ _ _ _ _ _ H0 Hu Ho).
  intros cc r u Hd i k Hk. rewrite ComputeRHS_MHD_fst. destruct i as [i|i].
  - rewrite leray_zero_at by (intros j; unfold velo; apply mask_masked; exact Hk).
    rewrite Hd by exact Hk. ring.
  - rewrite mask_masked by exact Hk. rewrite Hd by exact Hk. ring.
Qed.
Lemma Bq_masked (T : transf I X) K m nu Ri Pr est upd (out : R -> nat -> svec axb I -> bqbuf I X * E -> _) rnd Tend fuel g s0 s u0 :
  (forall i k, masked m i k -> u0 i k = C0) ->
  update_keeps upd (zero_masked m) -> at_start s0 u0 -> Pr <> 0 ->
  observed (ComputeRHS_Bq T K m nu Ri Pr) est upd out rnd Tend fuel g s0 s ->
  forall i k, masked m i k -> solution (l_w s) i k = C0.
Proof.
  intros Hu Hup H0 HPr Ho.
  refine (run_inv_start _ _ _ _ (zero_masked m) (sub_zero (masked m)) _ Hup _ _ _ _ _ _ _ H0 Hu Ho).
  intros cc r u Hd i k Hk. rewrite ComputeRHS_Bq_fst. destruct i as [i|].
  - rewrite leray_zero_at.
    + rewrite Hd by exact Hk. ring.
    + intros j. unfold velo2, buoy. rewrite mask_masked by exact Hk.
      destruct j; rewrite ?(Hd None k) by exact Hk; ring.
  - rewrite mask_masked by exact Hk. rewrite Hd by exact Hk. field. apply RtoC_neq0, HPr.
Qed.
End Solvers.
