(** Properties of the triply/doubly periodic solvers. *)
From Coq Require Import Reals Lra ZArith List FunctionalExtensionality.
From Verif Require Import Base.Cplx Base.Sums Base.Fin Spec.Fourier Spec.Env Spec.RungeKutta
  Model.Maths Model.NS Model.NS2D Model.VV Model.MHD Model.Bq2D Model.BS5
  Model.Integrators Model.Integrate Model.Solve Model.Run
  Proofs.Common Proofs.NSProofs Proofs.VVProofs Proofs.MHDProofs Proofs.BqProofs Proofs.IntegratorProofs
  Proofs.FsalProofs Proofs.RunProofs Proofs.PeriodicProofs Proofs.MeanProofs Proofs.LoopProofs Spec.Calls Props.Demo.
Import ListNotations.
Open Scope R_scope.

Section Runs.
Context {I X E : Type}.

(** ** C01 *)
Theorem C01_NS (T : transf I X) (K : ax3 -> I -> R) (c : conv_kind) mask nu Source
    est upd (out : R -> nat -> svec ax3 I -> nsbuf ax3 I X * E -> _) rnd Tend fuel g s0 s u0 :
  divfree F3 K u0 -> divfree F3 K Source -> update_keeps upd (divfree F3 K) -> at_start s0 u0 ->
  observed (ComputeRHS_NS T K c mask nu Source) est upd out rnd Tend fuel g s0 s ->
  divfree F3 K (solution (l_w s)) /\ forall k, get_divergence_hat F3 K (solution (l_w s)) k = C0.
Proof.
  intros H H0 H1 H2 H3. assert (H4 : divfree F3 K (solution (l_w s))) by exact (NS_divfree T K c mask nu Source est upd out rnd Tend fuel g s0 s u0 H H0 H1 H2 H3).
  split; [exact H4|apply get_divergence_0, H4].
Qed.

Theorem C01_NS2D (T : transf I X) (K : ax2 -> I -> R) mask nu Source
    est upd (out : R -> nat -> svec ax2 I -> ns2buf I X * E -> _) rnd Tend fuel g s0 s u0 :
  divfree F2 K u0 -> divfree F2 K Source -> update_keeps upd (divfree F2 K) -> at_start s0 u0 ->
  observed (ComputeRHS_NS2D T K mask nu Source) est upd out rnd Tend fuel g s0 s ->
  divfree F2 K (solution (l_w s)) /\ forall k, get_divergence_hat F2 K (solution (l_w s)) k = C0.
Proof.
  intros H H0 H1 H2 H3. assert (H4 : divfree F2 K (solution (l_w s))) by exact (NS2D_divfree T K mask nu Source est upd out rnd Tend fuel g s0 s u0 H H0 H1 H2 H3).
  split; [exact H4|apply get_divergence_0, H4].
Qed.

(** ** C02 *)
Theorem C02_MHD (T : transf I X) (K : ax3 -> I -> R) mask nu eta
    est upd (out : R -> nat -> svec ax6 I -> mhdbuf I X * E -> _) rnd Tend fuel g s0 s u0 :
  divfree F3 K (velo u0) /\ divfree F3 K (magn u0) ->
  update_keeps upd (fun v => divfree F3 K (velo v) /\ divfree F3 K (magn v)) -> at_start s0 u0 ->
  observed (ComputeRHS_MHD T K mask nu eta) est upd out rnd Tend fuel g s0 s ->
  divfree F3 K (velo (solution (l_w s))) /\ divfree F3 K (magn (solution (l_w s))).
Proof. intros; eapply MHD_divfree with (u0 := u0); eassumption. Qed.
(** the magnetic field alone: no projection, no condition on the velocity *)
Theorem C02_MHD_magnetic (T : transf I X) (K : ax3 -> I -> R) mask nu eta
    est upd (out : R -> nat -> svec ax6 I -> mhdbuf I X * E -> _) rnd Tend fuel g s0 s u0 :
  divfree F3 K (magn u0) -> update_keeps upd (fun v => divfree F3 K (magn v)) -> at_start s0 u0 ->
  observed (ComputeRHS_MHD T K mask nu eta) est upd out rnd Tend fuel g s0 s ->
  divfree F3 K (magn (solution (l_w s))).
Proof. intros; eapply MHD_divfree_b with (u0 := u0); eassumption. Qed.

(** ** C03 *)
Theorem C03_VV_vorticity (T : transf I X) (K : ax3 -> I -> R) mask nu Source
    est upd (out : R -> nat -> svec ax3 I -> vvbuf I X * E -> _) rnd Tend fuel g s0 s w0 :
  divfree F3 K w0 -> divfree F3 K Source -> update_keeps upd (divfree F3 K) -> at_start s0 w0 ->
  observed (ComputeRHS_VV T K (K_over_K2_of F3 K) (K2_of F3 K) mask nu Source) est upd out rnd Tend fuel g s0 s ->
  divfree F3 K (solution (l_w s)).
Proof. intros; eapply VV_divfree with (u0 := w0); eassumption. Qed.
Theorem C03_VV_velocity (K : ax3 -> I -> R) :
  (forall w, divfree F3 K (velocity_hat (K_over_K2_of F3 K) w)) /\
  (forall u, divfree F3 K u -> (forall i k, is_mean K k -> u i k = C0) ->
     velocity_hat (K_over_K2_of F3 K) (curl_hat K u) = u) /\
  (forall w i k, is_mean K k -> velocity_hat (K_over_K2_of F3 K) w i k = C0).
Proof.
  split; [|split].
  - apply velocity_divfree.
  - intros u Hd Hm. apply velocity_of_curl; assumption.
  - apply velocity_mean.
Qed.

(** ** C04 *)
Theorem C04_Bq2D (T : transf I X) (K : ax2 -> I -> R) mask nu Ri Pr
    est upd (out : R -> nat -> svec axb I -> bqbuf I X * E -> _) rnd Tend fuel g s0 s u0 :
  divfree F2 K (velo2 u0) -> update_keeps upd (fun v => divfree F2 K (velo2 v)) -> at_start s0 u0 ->
  observed (ComputeRHS_Bq T K mask nu Ri Pr) est upd out rnd Tend fuel g s0 s ->
  divfree F2 K (velo2 (solution (l_w s))).
Proof. intros; eapply Bq_divfree with (u0 := u0); eassumption. Qed.
(** the pressure absorbs exactly the divergent part of convection plus buoyancy *)
Theorem C04_Bq2D_pressure (T : transf I X) (K : ax2 -> I -> R) mask nu Ri Pr b rhs ur :
  exists force : svec ax2 I,
    (forall k, force a0 k = mask_nyquist mask (fst (Conv_Bq T K rhs ur b)) (Some a0) k) /\
    (forall k, force a1 k = (mask_nyquist mask (fst (Conv_Bq T K rhs ur b)) (Some a1) k - RtoC Ri * ur None k)%C) /\
    forall i k, fst (ComputeRHS_Bq T K mask nu Ri Pr b rhs ur) (Some i) k =
      (leray F2 K force i k - RtoC (nu * knorm2 F2 K k) * ur (Some i) k)%C.
Proof.
  exists (fun i k => velo2 (mask_nyquist mask (convB_spec T K ur)) i k + buoy Ri ur i k)%C.
  split; [|split].
  - intros k. rewrite Conv_Bq_spec. unfold velo2, buoy. ring.
  - intros k. rewrite Conv_Bq_spec. unfold velo2, buoy. ring.
  - intros i k. rewrite ComputeRHS_Bq_fst. reflexivity.
Qed.

(** ** C08 *)
Theorem C08_NS_divergence (T : transf I X) (K : ax3 -> I -> R) mask nu Source
    est upd (out : R -> nat -> svec ax3 I -> nsbuf ax3 I X * E -> _) rnd Tend fuel g s0 s u0 :
  (forall i k, is_mean K k -> Source i k = C0) ->
  update_keeps upd (mean_is K u0) -> at_start s0 u0 -> (g = IAB2 -> l_tstep s0 = 0%nat) ->
  observed (ComputeRHS_NS T K Divergence mask nu Source) est upd out rnd Tend fuel g s0 s ->
  forall i k, is_mean K k -> solution (l_w s) i k = u0 i k.
Proof. intros; eapply NS_mean_run with (u0 := u0); eassumption. Qed.
(** the right hand side of the mean mode, for every convection form *)
Theorem C08_mean_rhs (T : transf I X) (K : ax3 -> I -> R) c mask nu Source b rhs u i k :
  is_mean K k ->
  fst (ComputeRHS_NS T K c mask nu Source b rhs u) i k =
  (mask_nyquist mask (fst (Conv T K c rhs u b)) i k + Source i k)%C.
Proof. intros H. rewrite Conv_spec. apply NS_rhs_mean, H. Qed.
Theorem C08_MHD (T : transf I X) (K : ax3 -> I -> R) mask nu eta
    est upd (out : R -> nat -> svec ax6 I -> mhdbuf I X * E -> _) rnd Tend fuel g s0 s u0 :
  update_keeps upd (fun v => forall i k, is_mean K k -> v i k = u0 i k) -> at_start s0 u0 ->
  (g = IAB2 -> l_tstep s0 = 0%nat) ->
  observed (ComputeRHS_MHD T K mask nu eta) est upd out rnd Tend fuel g s0 s ->
  forall i k, is_mean K k -> solution (l_w s) i k = u0 i k.
Proof. intros; eapply MHD_mean_run with (u0 := u0); eassumption. Qed.
Theorem C08_Bq2D_density (T : transf I X) (K : ax2 -> I -> R) mask nu Ri Pr
    est upd (out : R -> nat -> svec axb I -> bqbuf I X * E -> _) rnd Tend fuel g s0 s u0 :
  update_keeps upd (fun v => forall k, is_mean K k -> v None k = u0 None k) -> at_start s0 u0 ->
  (g = IAB2 -> l_tstep s0 = 0%nat) -> Pr <> 0 ->
  observed (ComputeRHS_Bq T K mask nu Ri Pr) est upd out rnd Tend fuel g s0 s ->
  forall k, is_mean K k -> solution (l_w s) None k = u0 None k.
Proof. intros; eapply Bq_rho_mean_run with (u0 := u0); eassumption. Qed.

(** ** C09 *)
Theorem C09_NS (T : transf I X) (K : ax3 -> I -> R) c mask nu Source
    est upd (out : R -> nat -> svec ax3 I -> nsbuf ax3 I X * E -> _) rnd Tend fuel g s0 s u0 :
  (forall i k, masked mask i k -> u0 i k = C0) -> (forall i k, masked mask i k -> Source i k = C0) ->
  update_keeps upd (fun v => forall i k, masked mask i k -> v i k = C0) -> at_start s0 u0 ->
  observed (ComputeRHS_NS T K c mask nu Source) est upd out rnd Tend fuel g s0 s ->
  forall i k, masked mask i k -> solution (l_w s) i k = C0.
Proof. intros ? ? ? ? ? ?; eapply NS_masked with (u0 := u0); eassumption. Qed.
Theorem C09_NS2D (T : transf I X) (K : ax2 -> I -> R) mask nu Source
    est upd (out : R -> nat -> svec ax2 I -> ns2buf I X * E -> _) rnd Tend fuel g s0 s u0 :
  (forall i k, masked mask i k -> u0 i k = C0) -> (forall i k, masked mask i k -> Source i k = C0) ->
  update_keeps upd (fun v => forall i k, masked mask i k -> v i k = C0) -> at_start s0 u0 ->
  observed (ComputeRHS_NS2D T K mask nu Source) est upd out rnd Tend fuel g s0 s ->
  forall i k, masked mask i k -> solution (l_w s) i k = C0.
Proof. intros ? ? ? ? ? ?; eapply NS2D_masked with (u0 := u0); eassumption. Qed.
Theorem C09_VV (T : transf I X) (K : ax3 -> I -> R) mask nu Source
    est upd (out : R -> nat -> svec ax3 I -> vvbuf I X * E -> _) rnd Tend fuel g s0 s u0 :
  (forall i k, masked mask i k -> u0 i k = C0) -> (forall i k, masked mask i k -> Source i k = C0) ->
  update_keeps upd (fun v => forall i k, masked mask i k -> v i k = C0) -> at_start s0 u0 ->
  observed (ComputeRHS_VV T K (K_over_K2_of F3 K) (K2_of F3 K) mask nu Source) est upd out rnd Tend fuel g s0 s ->
  forall i k, masked mask i k -> solution (l_w s) i k = C0.
Proof. intros ? ? ? ? ? ?; eapply VV_masked with (u0 := u0); eassumption. Qed.
Theorem C09_MHD (T : transf I X) (K : ax3 -> I -> R) mask nu eta
    est upd (out : R -> nat -> svec ax6 I -> mhdbuf I X * E -> _) rnd Tend fuel g s0 s u0 :
  (forall i k, masked mask i k -> u0 i k = C0) ->
  update_keeps upd (fun v => forall i k, masked mask i k -> v i k = C0) -> at_start s0 u0 ->
  observed (ComputeRHS_MHD T K mask nu eta) est upd out rnd Tend fuel g s0 s ->
  forall i k, masked mask i k -> solution (l_w s) i k = C0.
Proof. intros ? ? ? ? ?; eapply MHD_masked with (u0 := u0); eassumption. Qed.
Theorem C09_Bq2D (T : transf I X) (K : ax2 -> I -> R) mask nu Ri Pr
    est upd (out : R -> nat -> svec axb I -> bqbuf I X * E -> _) rnd Tend fuel g s0 s u0 :
  (forall i k, masked mask i k -> u0 i k = C0) ->
  update_keeps upd (fun v => forall i k, masked mask i k -> v i k = C0) -> at_start s0 u0 -> Pr <> 0 ->
  observed (ComputeRHS_Bq T K mask nu Ri Pr) est upd out rnd Tend fuel g s0 s ->
  forall i k, masked mask i k -> solution (l_w s) i k = C0.
Proof. intros ? ? ? ? ? ?; eapply Bq_masked with (u0 := u0); eassumption. Qed.
End Runs.

Section Pointwise.
Context {I X : Type}.

(** ** C05 *)
Theorem C05_project {D} (F : fin D) (K : D -> I -> R) (u : svec D I) :
  let p := fun v => project F v K (K_over_K2_of F K) in
  divfree F K (p u) /\
  p (p u) = p u /\
  (divfree F K u -> p u = u) /\
  (forall i k, is_mean K k -> p u i k = u i k) /\
  (exists phi, forall i k, (u i k - p u i k)%C = (RtoC (K i k) * phi k)%C) /\
  (forall k, CsumL (elems F) (fun i => (p u i k * Cconj (u i k - p u i k))%C) = C0).
Proof.
  cbv beta zeta. rewrite !project_leray.
  assert (Hd : divfree F K (leray F K u)) by (intros k; apply kdot_leray).
  split; [exact Hd|]. split.
  { extensionality i; extensionality k. apply leray_divfree, Hd. }
  split. { intros H. extensionality i; extensionality k. apply leray_divfree, H. }
  split. { intros i k H. apply leray_mean, H. }
  split; [apply leray_grad|].
  intros k. destruct (leray_grad F K u) as [phi Hp].
  rewrite <- (divfree_orth_grad F K (leray F K u) phi k Hd). apply CsumL_ext. intros i _. rewrite Hp. reflexivity.
Qed.

(** ** C11 *)
Theorem C11_convection (T : transf I X) (K : ax3 -> I -> R) (u r : svec ax3 I) b :
  (forall i k, fst (Conv T K Standard r u b) i k = (- ugradu (bwd T) (fwd T) F3 K u i k)%C) /\
  (forall i k, fst (Conv T K Divergence r u b) i k = (- divuu (bwd T) (fwd T) F3 K u i k)%C) /\
  (forall i k, fst (Conv T K Vortex r u b) i k = ucrosscurl (bwd T) (fwd T) K u i k) /\
  (forall i k, fst (Conv T K Skewed r u b) i k =
     ((fst (Conv T K Standard r u b) i k + fst (Conv T K Divergence r u b) i k) / RtoC 2)%C).
Proof.
  rewrite !Conv_spec. cbn [conv_spec]. repeat split; auto. intros i k.
  replace (RtoC (/ 2)) with (/ RtoC 2)%C; [field; apply two_nz|].
  rewrite <- RtoC_inv by lra. reflexivity.
Qed.
Theorem C11_NS2D (T : transf I X) (K : ax2 -> I -> R) (u r : svec ax2 I) b :
  fst (Conv2 T K r u b) = ucrosscurl2 (bwd T) (fwd T) K u.
Proof. rewrite Conv2_spec. reflexivity. Qed.

(** ** C12 *)
Theorem C12_NS (T : transf I X) K c mask nu Source b b' r r' (u : svec ax3 I) :
  fst (ComputeRHS_NS T K c mask nu Source b r u) = fst (ComputeRHS_NS T K c mask nu Source b' r' u) /\
  P_hat (snd (ComputeRHS_NS T K c mask nu Source b r u)) = P_hat (snd (ComputeRHS_NS T K c mask nu Source b' r' u)).
Proof. rewrite !ComputeRHS_NS_fst, !ComputeRHS_NS_P. auto. Qed.
Theorem C12_NS2D (T : transf I X) K mask nu Source b b' r r' (u : svec ax2 I) :
  fst (ComputeRHS_NS2D T K mask nu Source b r u) = fst (ComputeRHS_NS2D T K mask nu Source b' r' u) /\
  P_hat2 (snd (ComputeRHS_NS2D T K mask nu Source b r u)) = P_hat2 (snd (ComputeRHS_NS2D T K mask nu Source b' r' u)).
Proof. rewrite !ComputeRHS_NS2D_fst, !ComputeRHS_NS2D_P. auto. Qed.
Theorem C12_VV (T : transf I X) K mask nu Source b b' r r' (w : svec ax3 I) :
  let rhs := ComputeRHS_VV T K (K_over_K2_of F3 K) (K2_of F3 K) mask nu Source in
  fst (rhs b r w) = fst (rhs b' r' w).
Proof. cbv beta zeta. rewrite !ComputeRHS_VV_fst. reflexivity. Qed.
Theorem C12_MHD (T : transf I X) K mask nu eta b b' r r' (u : svec ax6 I) :
  fst (ComputeRHS_MHD T K mask nu eta b r u) = fst (ComputeRHS_MHD T K mask nu eta b' r' u) /\
  P_hat6 (snd (ComputeRHS_MHD T K mask nu eta b r u)) = P_hat6 (snd (ComputeRHS_MHD T K mask nu eta b' r' u)).
Proof. rewrite !ComputeRHS_MHD_fst, !ComputeRHS_MHD_P. auto. Qed.
Theorem C12_Bq2D (T : transf I X) K mask nu Ri Pr b b' r r' (u : svec axb I) :
  fst (ComputeRHS_Bq T K mask nu Ri Pr b r u) = fst (ComputeRHS_Bq T K mask nu Ri Pr b' r' u) /\
  P_hatb (snd (ComputeRHS_Bq T K mask nu Ri Pr b r u)) = P_hatb (snd (ComputeRHS_Bq T K mask nu Ri Pr b' r' u)).
Proof. rewrite !ComputeRHS_Bq_fst, !ComputeRHS_Bq_P. auto. Qed.

(** ** C13: [conv] is the (masked) convection term, [p] the spectral pressure of get_pressure *)
Theorem C13_NS (T : transf I X) K c mask nu Source b r (u : svec ax3 I) :
  let conv := mask_nyquist mask (fst (Conv T K c r u b)) in
  let p := get_pressure_hat (P_hat (snd (ComputeRHS_NS T K c mask nu Source b r u))) in
  (forall i k, (Ci * RtoC (K i k) * p k)%C = (conv i k - leray F3 K conv i k)%C) /\
  (forall k, (RtoC (knorm2 F3 K k) * p k)%C = (- Ci * kdot F3 K conv k)%C) /\
  (forall k, is_mean K k -> p k = C0).
Proof.
  cbv beta zeta. rewrite Conv_spec, ComputeRHS_NS_P. unfold get_pressure_hat.
  set (cv := mask_nyquist mask (conv_spec T K c u)). split; [|split].
  - intros i k. unfold leray. destruct (Req_EM_T (knorm2 F3 K k) 0) as [E0|E0]; [ring|].
    transitivity (- (Ci * Ci) * RtoC (K i k) * (kdot F3 K cv k / RtoC (knorm2 F3 K k)))%C; [ring|]. rewrite Ci_sq. ring.
  - intros k. destruct (Req_EM_T (knorm2 F3 K k) 0) as [E0|E0].
    + replace (kdot F3 K cv k) with C0; [ring|]. symmetry. unfold kdot. apply CsumL_0. intros i _.
      rewrite (mean_K F3 K i k E0), RtoC_0. ring.
    + field. apply RtoC_neq0, E0.
  - intros k H. destruct (Req_EM_T (knorm2 F3 K k) 0) as [E0|E0]; [ring|].
    exfalso. apply E0, knorm2_0, H.
Qed.

(** ** C52 *)
Theorem C52_elsasser (T : transf I X) (K : ax3 -> I -> R) rhs ub b :
  linear_forward (fwd T) -> fst (Conv_MHD T K rhs ub b) = mhd_ub (bwd T) (fwd T) K ub.
Proof. intros H. rewrite Conv_MHD_spec. apply elsasser_ub, H. Qed.

(** ** C54 *)
Theorem C54_K_over_K2 {D} (F : fin D) (K : D -> I -> R) (k : I) :
  where_K2_0 (K2_of F K) k <> 0 /\
  (forall i, is_mean K k -> K_over_K2_of F K i k = 0) /\
  (forall i, ~ is_mean K k -> knorm2 F K k <> 0 /\ K_over_K2_of F K i k = K i k / knorm2 F K k) /\
  (RsumL (elems F) (fun i => K i k * K_over_K2_of F K i k) = 1 \/
   is_mean K k /\ RsumL (elems F) (fun i => K i k * K_over_K2_of F K i k) = 0).
Proof.
  split; [apply where_K2_0_nz|]. split; [intros i; apply K_over_K2_zero|].
  split.
  { intros i H. split; [intros E0; apply H, (knorm2_0 F K k), E0|apply K_over_K2_nz, H]. }
  destruct (Req_EM_T (knorm2 F K k) 0) as [E0|E0].
  - right. split; [apply (knorm2_0 F K k), E0|]. apply RsumL_0. intros i _.
    rewrite (mean_K F K i k E0). ring.
  - left. transitivity (/ knorm2 F K k * knorm2 F K k); [|field; exact E0].
    unfold knorm2 at 2. rewrite <- RsumL_scal. apply RsumL_ext. intros i _.
    rewrite K_over_K2_nz by (intros H; apply E0, knorm2_0, H). field. exact E0.
Qed.
End Pointwise.

(** ** C10 *)
Theorem C10_NS_VV {I X E E'} (T : transf I X) K mask nu Source est est'
  upd (out : R -> nat -> svec ax3 I -> nsbuf ax3 I X * E -> _)
  upd' (out' : R -> nat -> svec ax3 I -> vvbuf I X * E' -> _) rnd Tend fuel g s0 s0' u0 s :
  let solenoidal u := divfree F3 K u /\ (forall i k, is_mean K k -> u i k = C0) in
  g <> IBS5 true ->
  (forall u, solenoidal u -> forall i k, is_mean K k -> mask_nyquist mask (ucrosscurl (bwd T) (fwd T) K u) i k = C0) ->
  solenoidal Source -> solenoidal u0 ->
  update_readonly upd -> update_readonly upd' -> never_killed out -> never_killed out' ->
  at_start s0 u0 -> at_start s0' (curl_hat K u0) ->
  l_t s0' = l_t s0 -> l_dt s0' = l_dt s0 -> l_tstep s0' = l_tstep s0 ->
  observed (ComputeRHS_NS T K Vortex mask nu Source) est upd out rnd Tend fuel g s0 s ->
  exists s', observed (ComputeRHS_VV T K (K_over_K2_of F3 K) (K2_of F3 K) mask nu (curl_hat K Source))
               est' upd' out' rnd Tend fuel g s0' s' /\
    l_t s' = l_t s /\ l_tstep s' = l_tstep s /\ solution (l_w s') = curl_hat K (solution (l_w s)).
Proof. cbv beta zeta. intros. eapply NS_VV_run with (u0 := u0); eassumption. Qed.

(** ** C14: the state whose pressure get_pressure reports after a step, NS solver.
    [pressure_of] = get_pressure right after an explicit ComputeRHS of that field. *)
Section C14.
Context {I X : Type} (T : transf I X) (K : ax3 -> I -> R) (c : conv_kind) (mask : option (I -> bool)) (nu : R) (Source : svec ax3 I).
Notation rhsf := (ComputeRHS_NS T K c mask nu Source).
Definition pressure_now (b : nsbuf ax3 I X) : sfield I := get_pressure_hat (P_hat b).
Definition pressure_of (b0 : nsbuf ax3 I X) (r0 u : svec ax3 I) : sfield I := pressure_now (snd (rhsf b0 r0 u)).
Definition f_of (b0 : nsbuf ax3 I X) (r0 u : svec ax3 I) : svec ax3 I := fst (rhsf b0 r0 u).

Theorem C14_which_field b0 r0 (st : istate ax3 I (nsbuf ax3 I X)) dt ts :
  let u := s_u0 st in let f := f_of b0 r0 in
  pressure_now (s_ctx (fst (fst (RK4 rhsf dt st)))) = pressure_of b0 r0 (plus u dt (rk4_k3 f dt u)) /\
  pressure_now (s_ctx (fst (fst (ForwardEuler rhsf dt st)))) = pressure_of b0 r0 u /\
  pressure_now (s_ctx (fst (fst (AB2 rhsf dt ts st)))) = pressure_of b0 r0 u.
Proof.
  cbv beta zeta.
  assert (Hf : computes rhsf (f_of b0 r0)).
  { intros b r u. unfold f_of. etransitivity; [apply ComputeRHS_NS_fst|symmetry; apply ComputeRHS_NS_fst]. }
  assert (Ho : forall b r u, pressure_now (snd (rhsf b r u)) = pressure_of b0 r0 u).
  { intros b r u. unfold pressure_of, pressure_now. rewrite !ComputeRHS_NS_P. reflexivity. }
  split; [|split].
  - apply (RK4_ctx rhsf _ Hf pressure_now _ Ho).
  - apply (FE_ctx rhsf pressure_now _ Ho).
  - apply (AB2_ctx rhsf pressure_now _ Ho).
Qed.
(** BS5 (fixed or adaptive): after any positive number of calls starting from a fresh closure
    with tstep = 0, the pressure belongs to the new velocity *)
Theorem C14_BS5 b0 r0 est fuel ad dts dt u0 rhs buf (st' : istate ax3 I (nsbuf ax3 I X)) :
  calls rhsf est fuel (IBS5 ad) (dts ++ [dt]) 0 (init_istate u0 rhs buf) = Some st' ->
  pressure_now (s_ctx st') = pressure_of b0 r0 (s_u0 st').
Proof.
  intros E0. rewrite calls_app in E0.
  assert (Hf : computes rhsf (f_of b0 r0)).
  { intros b r u. unfold f_of. etransitivity; [apply ComputeRHS_NS_fst|symmetry; apply ComputeRHS_NS_fst]. }
  assert (Ho : forall b r u, pressure_now (snd (rhsf b r u)) = pressure_of b0 r0 u).
  { intros b r u. unfold pressure_of, pressure_now. rewrite !ComputeRHS_NS_P. reflexivity. }
  destruct (calls _ _ _ _ dts _ _) as [st1|] eqn:E1; [|discriminate].
  assert (Hr : (0 + length dts <> 0)%nat -> fsal_ready (f_of b0 r0) bs5_s st1).
  { intros Hn. apply (calls_ready rhsf (f_of b0 r0) Hf est fuel ad dts 0 _ st1 ltac:(congruence) E1 Hn). }
  cbn [calls integrate] in E0.
  destruct (adaptiveRK _ _ _ _ _ _ _ _ _ _ _ _) as [[[st2 d] k]|] eqn:E2; [|discriminate].
  injection E0 as <-.
  destruct (loop_ctx rhsf _ Hf bs5_A bs5_b bs5_bhat bs5_s ltac:(unfold bs5_s; auto with arith) est bs5_fsal
    ltac:(unfold bs5_s; auto with arith) fuel ad _ dt facmax_default st1 st2 d k Hr E2) as (cc & rr & Hc).
  rewrite Hc. apply Ho.
Qed.
End C14.

(** C14, refutation: one mode k = (1,0,0), u = (0, s(1-i), 0), nu = 1, Vortex form.
    Every such field decays as s' = -s and has pressure -i s^2. *)
Section C14_ref.
Definition Kx (i : ax3) (_ : unit) : R := match i with x0 => 1 | _ => 0 end.
Definition shear (s : R) : svec ax3 unit := fun i _ => match i with x1 => (RtoC s * (C1 - Ci))%C | _ => C0 end.
Notation rhs1 := (ComputeRHS_NS demoT Kx Vortex None 1 (fun _ _ => C0)).
Definition buf1 : nsbuf ax3 unit unit := mkNsbuf (fun _ _ => 0) (fun _ _ => C0) (fun _ _ => 0) (fun _ _ => 0) (fun _ => C0).
Definition st1 : istate ax3 unit (nsbuf ax3 unit unit) := init_istate (shear 1) (fun _ _ => C0) buf1.

Lemma shear_conv s i k : conv_spec demoT Kx Vortex (shear s) i k = match i with x0 => RtoC (s * s) | _ => C0 end.
Proof.
  unfold conv_spec, ucrosscurl, demoT, crossR, curl_hat, shear, Kx. cbn [bwd fwd].
  destruct i; apply C_eq; unfold RtoC, Re, Cmul, Csub, Cadd, Copp, Ci, C1, C0; cbn [fst snd]; ring.
Qed.
Lemma Kx_norm k : knorm2 F3 Kx k = 1.
Proof. unfold knorm2, Kx. cbn [elems F3 RsumL]. ring. Qed.
Lemma shear_kdot s k : kdot F3 Kx (conv_spec demoT Kx Vortex (shear s)) k = RtoC (s * s).
Proof.
  unfold kdot. cbn [elems F3 CsumL]. rewrite !shear_conv. unfold Kx. rewrite RtoC_0. change (RtoC 1) with C1. ring.
Qed.
Lemma shear_rhs s b r : fst (rhs1 b r (shear s)) = shear (- s).
Proof.
  rewrite ComputeRHS_NS_fst. extensionality i; extensionality k. unfold mask_nyquist, leray.
  rewrite shear_kdot, Kx_norm, shear_conv. destruct (Req_EM_T 1 0) as [E0|_]; [exfalso; lra|].
  rewrite Rmult_1_r. change (RtoC 1) with C1. unfold shear, Kx.
  destruct i; rewrite ?RtoC_0, ?RtoC_opp; [change (RtoC 1) with C1|..]; field; apply C1_neq_C0.
Qed.
Lemma shear_P s b r : P_hat (snd (rhs1 b r (shear s))) tt = RtoC (s * s).
Proof.
  rewrite ComputeRHS_NS_P. unfold mask_nyquist. rewrite shear_kdot, Kx_norm.
  destruct (Req_EM_T 1 0) as [E0|_]; [exfalso; lra|]. change (RtoC 1) with C1. field. apply C1_neq_C0.
Qed.
Lemma shear_plus s c r : plus (shear s) c (shear r) = shear (s + c * r).
Proof. extensionality i; extensionality k. unfold plus, shear. destruct i; rewrite ?RtoC_add, ?RtoC_mul; ring. Qed.
Lemma shear_diff s r b0 r0 : Rabs s <> Rabs r ->
  pressure_of demoT Kx Vortex None 1 (fun _ _ => C0) b0 r0 (shear s) <> pressure_of demoT Kx Vortex None 1 (fun _ _ => C0) b0 r0 (shear r).
Proof.
  intros Hd Heq. apply (f_equal (fun f => f tt)) in Heq. unfold pressure_of, pressure_now, get_pressure_hat in Heq.
  rewrite !shear_P in Heq. apply (f_equal snd) in Heq. unfold Copp, Ci, RtoC, Cmul in Heq. cbn [fst snd] in Heq. apply Hd.
  apply Rsqr_eq_abs_0. unfold Rsqr. nra.
Qed.
Lemma shear_div s : divfree F3 Kx (shear s).
Proof. intros k. unfold kdot, shear, Kx. cbn [elems F3 CsumL]. rewrite RtoC_0. ring. Qed.

Theorem C14_refuted b0 r0 :
  let rhsf := rhs1 in
  let p_of := pressure_of demoT Kx Vortex None 1 (fun _ _ => C0) b0 r0 in
  exists st : istate ax3 unit (nsbuf ax3 unit unit), exists dt, divfree F3 Kx (s_u0 st) /\ 0 < dt /\
    (let st' := fst (fst (ForwardEuler rhsf dt st)) in pressure_now (s_ctx st') <> p_of (s_u0 st')) /\
    (let st' := fst (fst (AB2 rhsf dt 0 st)) in pressure_now (s_ctx st') <> p_of (s_u0 st')) /\
    (let st' := fst (fst (RK4 rhsf dt st)) in pressure_now (s_ctx st') <> p_of (s_u0 st')).
Proof.
  cbv beta zeta. exists st1, (/2).
  destruct (C14_which_field demoT Kx Vortex None 1 (fun _ _ => C0) b0 r0 st1 (/2) 0) as (H4 & HE & HA).
  assert (Hf : computes rhs1 (f_of demoT Kx Vortex None 1 (fun _ _ => C0) b0 r0)).
  { intros b r u. unfold f_of. etransitivity; [apply ComputeRHS_NS_fst|symmetry; apply ComputeRHS_NS_fst]. }
  assert (Hs : forall s, f_of demoT Kx Vortex None 1 (fun _ _ => C0) b0 r0 (shear s) = shear (- s))
    by (intros s; apply shear_rhs).
  split; [apply shear_div|]. split; [lra|]. split; [|split].
  - rewrite HE, (FE_is_euler rhs1 _ Hf). unfold euler. cbn [st1 init_istate s_u0]. rewrite Hs, shear_plus.
    apply shear_diff. rewrite !Rabs_right by lra. lra.
  - rewrite HA, (proj1 (AB2_fields rhs1 _ Hf _ _ _)). cbn [Nat.eqb]. unfold euler. cbn [st1 init_istate s_u0]. rewrite Hs, shear_plus.
    apply shear_diff. rewrite !Rabs_right by lra. lra.
  - rewrite H4, (RK4_is_rk4 rhs1 _ Hf). unfold rk4_k3. unfold rk4_k2. unfold rk4_k1.
    cbn [st1 init_istate s_u0]. rewrite Hs, shear_plus, Hs, shear_plus, Hs, shear_plus.
    replace (rk4 (f_of demoT Kx Vortex None 1 (fun _ _ => C0) b0 r0) (/ 2) (shear 1)) with (shear (233/384)).
    + apply shear_diff. rewrite !Rabs_right by lra. lra.
    + unfold rk4, rk4_k4, rk4_k3, rk4_k2, rk4_k1. rewrite !Hs, !shear_plus, !Hs, !shear_plus, !Hs, !shear_plus, !Hs.
      extensionality i; extensionality k. unfold shear. destruct i; try ring.
      apply C_eq; unfold RtoC, Cmul, Csub, Cadd, Copp, Ci, C1, C0; cbn [fst snd]; field.
Qed.
End C14_ref.

(** C08, refutation of the restart case: AB2 with tstep > 0 at the start takes the stale copy
    of the field for the previous increment, and the mean velocity is halved. *)
Theorem C08_AB2_restart_refuted :
  exists (s0 s : lstate (world ax3 unit (nsbuf ax3 unit unit) unit)) (u0 : svec ax3 unit),
    let K := fun (_ : ax3) (_ : unit) => 0 in
    at_start s0 u0 /\ l_tstep s0 = 1%nat /\
    observed (ComputeRHS_NS demoT K Divergence None 0 (fun _ _ => C0)) est0 upd0 out0 (fun x => x) 1 1 IAB2 s0 s /\
    solution (l_w s) x0 tt = (u0 x0 tt / RtoC 2)%C /\ u0 x0 tt <> C0.
Proof.
  set (K := fun (_ : ax3) (_ : unit) => 0).
  set (u0 := fun (_ : ax3) (_ : unit) => C1).
  set (s0 := mkL 0 (/10) 1 (mkWorld (init_istate u0 (fun _ _ => C0) buf1) tt) false []).
  set (rhs := ComputeRHS_NS demoT K Divergence None 0 (fun _ _ => C0)).
  destruct (step_exists rhs est0 upd0 out0 (fun x => x) 1 0 IAB2 s0) as (s & Hs & _ & _).
  { discriminate. }
  { cbn [s0 l_t l_dt]. pose proof SolveProofs.eps12_pos. lra. }
  exists s0, s, u0. split; [exists (fun _ _ => C0), buf1, tt; reflexivity|]. split; [reflexivity|].
  split; [exists 0%nat, s0; split; [constructor|right; exact Hs]|].
  destruct (stepped_solution rhs est0 upd0 out0 (fun x => x) 1 1 IAB2 s0 s upd0_ro Hs) as (st & d & k & E0 & Es & _).
  split; [|apply C1_neq_C0]. rewrite Es. cbn [integrate] in E0.
  assert (Hf : computes rhs (fun u => fst (rhs buf1 u0 u))).
  { intros b r u. unfold rhs. etransitivity; [apply ComputeRHS_NS_fst|symmetry; apply ComputeRHS_NS_fst]. }
  destruct (AB2_fields rhs _ Hf (/10) 1 (w_st (l_w s0))) as [EA _].
  apply (f_equal (option_map (fun x => fst (fst x)))) in E0. apply some_inj in E0. cbn [fst] in E0.
  change (l_dt s0) with (/10) in E0. change (l_tstep s0) with 1%nat in E0. rewrite E0 in EA. rewrite EA.
  cbn [Nat.eqb]. unfold rhs at 1. rewrite NS_div_mean by (intros i; reflexivity).
  cbn [s0 l_w w_st init_istate s_u0 s_u1]. unfold u0.
  replace 0.5 with (/2) by lra. apply C_eq; unfold Cdiv, Cinv, RtoC, Cmul, Csub, Cadd, Copp, Ci, C1, C0; cbn [fst snd]; field.
Qed.

(** ** The hypotheses of the run theorems are met by concrete runs that take steps *)
Example C01_NS_nonvacuous : exists s,
  observed (ComputeRHS_NS demoT K3 Skewed None (/100) z3) est0 upd0 out0 (fun x => x) 1 1 IRK4 (start u3 nsb) s /\
  l_tstep s = 1%nat /\ divfree F3 K3 u3 /\ u3 x0 (0, 1, 0)%Z = C1 /\
  divfree F3 K3 z3 /\ update_keeps (ctx := nsbuf ax3 I3 I3) (E := unit) upd0 (divfree F3 K3) /\ at_start (start u3 nsb) u3 /\
  divfree F3 K3 (solution (l_w s)).
Proof.
  destruct (start_steps (ComputeRHS_NS demoT K3 Skewed None (/100) z3) IRK4 u3 nsb ltac:(discriminate)) as (s & Hs & Hn & _).
  exists s. split; [exact Hs|]. split; [exact Hn|]. split; [exact u3_div|]. split; [reflexivity|].
  split; [exact z3_div|]. split; [apply upd0_keeps|]. split; [apply start_at|].
  eapply (C01_NS demoT K3 Skewed None (/100) z3) with (u0 := u3) (s0 := start u3 nsb); eauto using u3_div, z3_div, start_at, upd0_keeps.
Qed.
Example C01_NS2D_nonvacuous : exists s,
  observed (ComputeRHS_NS2D demoT K2d None (/100) z2) est0 upd0 out0 (fun x => x) 1 1 (IBS5 false) (start u2 ns2b) s /\
  l_tstep s = 1%nat /\ divfree F2 K2d (solution (l_w s)).
Proof.
  destruct (start_steps (ComputeRHS_NS2D demoT K2d None (/100) z2) (IBS5 false) u2 ns2b ltac:(discriminate)) as (s & Hs & Hn & _).
  exists s. split; [exact Hs|]. split; [exact Hn|].
  eapply (C01_NS2D demoT K2d None (/100) z2) with (u0 := u2) (s0 := start u2 ns2b); eauto using u2_div, z2_div, start_at, upd0_keeps.
Qed.
Example C02_nonvacuous : exists s,
  observed (ComputeRHS_MHD demoT K3 None (/100) (/50)) est0 upd0 out0 (fun x => x) 1 1 IAB2 (start ub3 mhdb) s /\
  l_tstep s = 1%nat /\ divfree F3 K3 (velo (solution (l_w s))) /\ divfree F3 K3 (magn (solution (l_w s))).
Proof.
  destruct (start_steps (ComputeRHS_MHD demoT K3 None (/100) (/50)) IAB2 ub3 mhdb ltac:(discriminate)) as (s & Hs & Hn & _).
  exists s. split; [exact Hs|]. split; [exact Hn|].
  eapply (C02_MHD demoT K3 None (/100) (/50)) with (u0 := ub3) (s0 := start ub3 mhdb); eauto using start_at, upd0_keeps.
  split; exact u3_div.
Qed.
Example C03_nonvacuous : exists s,
  observed (ComputeRHS_VV demoT K3 (K_over_K2_of F3 K3) (K2_of F3 K3) None (/100) z3) est0 upd0 out0 (fun x => x) 1 1
     IForwardEuler (start u3 vvb) s /\ l_tstep s = 1%nat /\ divfree F3 K3 (solution (l_w s)).
Proof.
  destruct (start_steps (ComputeRHS_VV demoT K3 (K_over_K2_of F3 K3) (K2_of F3 K3) None (/100) z3) IForwardEuler u3 vvb ltac:(discriminate)) as (s & Hs & Hn & _).
  exists s. split; [exact Hs|]. split; [exact Hn|].
  eapply (C03_VV_vorticity demoT K3 None (/100) z3) with (w0 := u3) (s0 := start u3 vvb); eauto using u3_div, z3_div, start_at, upd0_keeps.
Qed.
Example C04_nonvacuous : exists s,
  observed (ComputeRHS_Bq demoT K2d None (/100) (/10) 1) est0 upd0 out0 (fun x => x) 1 1 IRK4 (start ur2 bqb) s /\
  l_tstep s = 1%nat /\ ur2 None (1, 0)%Z = C1 /\ divfree F2 K2d (velo2 (solution (l_w s))).
Proof.
  destruct (start_steps (ComputeRHS_Bq demoT K2d None (/100) (/10) 1) IRK4 ur2 bqb ltac:(discriminate)) as (s & Hs & Hn & _).
  exists s. split; [exact Hs|]. split; [exact Hn|]. split; [reflexivity|].
  eapply (C04_Bq2D demoT K2d None (/100) (/10) 1) with (u0 := ur2) (s0 := start ur2 bqb); eauto using start_at, upd0_keeps. exact u2_div.
Qed.
(** C08: a mean velocity 1 stays 1 *)
Example C08_nonvacuous :
  let u := fun (_ : ax3) (_ : I3) => C1 in
  exists s, observed (ComputeRHS_NS demoT K3 Divergence None (/100) z3) est0 upd0 out0 (fun x => x) 1 1 IAB2 (start u nsb) s /\
  l_tstep s = 1%nat /\ is_mean K3 (0, 0, 0)%Z /\ solution (l_w s) x0 (0, 0, 0)%Z = C1.
Proof.
  cbv zeta. set (u := fun (_ : ax3) (_ : I3) => C1).
  destruct (start_steps (ComputeRHS_NS demoT K3 Divergence None (/100) z3) IAB2 u nsb ltac:(discriminate)) as (s & Hs & Hn & _).
  assert (Hm : is_mean K3 (0, 0, 0)%Z) by (intros i; destruct i; reflexivity).
  exists s. split; [exact Hs|]. split; [exact Hn|]. split; [exact Hm|].
  rewrite (C08_NS_divergence demoT K3 None (/100) z3 est0 upd0 out0 (fun x => x) 1 1 IAB2 (start u nsb) s u); auto using start_at, upd0_keeps.
Qed.
(** C09: the mask removes k0 = 8 *)
Example C09_nonvacuous :
  let m := Some (fun k : I3 => match k with (a, _, _) => negb (Z.eqb a 8) end) in
  let u := mask_nyquist m u3 in
  exists s, observed (ComputeRHS_NS demoT K3 Vortex m (/100) z3) est0 upd0 out0 (fun x => x) 1 1 IRK4 (start u nsb) s /\
  l_tstep s = 1%nat /\ masked (D := ax3) m x0 (8, 1, 0)%Z /\ u x0 (1, 1, 0)%Z = C1 /\ solution (l_w s) x0 (8, 1, 0)%Z = C0.
Proof.
  cbv zeta. set (m := Some (fun k : I3 => match k with (a, _, _) => negb (Z.eqb a 8) end)). set (u := mask_nyquist m u3).
  destruct (start_steps (ComputeRHS_NS demoT K3 Vortex m (/100) z3) IRK4 u nsb ltac:(discriminate)) as (s & Hs & Hn & _).
  assert (Hm : masked (D := ax3) m x0 (8, 1, 0)%Z) by reflexivity.
  exists s. split; [exact Hs|]. split; [exact Hn|]. split; [exact Hm|]. split; [reflexivity|].
  refine (C09_NS demoT K3 Vortex m (/100) z3 est0 upd0 out0 (fun x => x) 1 1 IRK4 (start u nsb) s u _ _ _ _ Hs x0 _ Hm);
    auto using start_at, upd0_keeps.
  intros i k H. apply mask_masked, H.
Qed.
(** C10: with the transform pair of shears, the mean of u x curl u vanishes because K = (1,0,0)
    has no mean mode; NS and VV both take a step *)
Example C10_nonvacuous : exists s (s' : lstate (world ax3 unit (vvbuf unit unit) unit)),
  observed (ComputeRHS_NS demoT Kx Vortex None 1 (fun _ _ => C0)) est0 upd0 out0 (fun x => x) 1 1 IRK4 (start (shear 1) buf1) s /\
  l_tstep s' = 1%nat /\ shear 1 x1 tt <> C0 /\
  solution (l_w s') = curl_hat Kx (solution (l_w s)).
Proof.
  destruct (start_steps (ComputeRHS_NS demoT Kx Vortex None 1 (fun _ _ => C0)) IRK4 (shear 1) buf1 ltac:(discriminate)) as (s & Hs & Hn & _).
  assert (Hno : forall k, ~ is_mean Kx k) by (intros k H; specialize (H x0); cbn in H; lra).
  destruct (C10_NS_VV demoT Kx None 1 (fun _ _ => C0) est0 est0 upd0 out0 upd0 out0 (fun x => x) 1 1 IRK4
    (start (shear 1) buf1) (start (curl_hat Kx (shear 1)) (mkVvbuf (fun _ _ => 0) (fun _ _ => C0) (fun _ _ => C0) (fun _ _ => 0) (fun _ _ => 0))) (shear 1) s) as (s' & _ & _ & Hn' & Hc); auto using upd0_ro, out0_nk, start_at, shear_div.
  - discriminate.
  - intros u _ i k H. destruct (Hno k H).
  - split; [|intros i k H; destruct (Hno k H)]. intros k. apply kdot_zero.
  - split; [apply shear_div|intros i k H; destruct (Hno k H)].
  - exists s, s'. split; [exact Hs|]. split; [congruence|]. split; [|exact Hc].
    unfold shear. intros E0. apply (f_equal fst) in E0. unfold RtoC, Cmul, Csub, Cadd, Copp, Ci, C1, C0 in E0; cbn [fst snd] in E0; lra.
Qed.
Example C52_nonvacuous : linear_forward (I := I3) (X := I3) (fwd demoT).
Proof. intros a b f g k. cbn [demoT fwd]. rewrite RtoC_add, !RtoC_mul. reflexivity. Qed.
Example C14_BS5_nonvacuous : exists st', calls (ComputeRHS_NS demoT Kx Vortex None 1 (fun _ _ => C0)) est0 1 (IBS5 false)
  ([/2; /4] ++ [/3]) 0 (init_istate (shear 1) (fun _ _ => C0) buf1) = Some st'.
Proof.
  set (rhs := ComputeRHS_NS _ _ _ _ _ _). cbn [app calls].
  destruct (integrate_fixed_total rhs est0 0 (IBS5 false) (/2) 0 (init_istate (shear 1) (fun _ _ => C0) buf1) ltac:(discriminate)) as [st ->].
  destruct (integrate_fixed_total rhs est0 0 (IBS5 false) (/4) 1 st ltac:(discriminate)) as [st' ->].
  destruct (integrate_fixed_total rhs est0 0 (IBS5 false) (/3) 2 st' ltac:(discriminate)) as [st'' ->].
  eexists. reflexivity.
Qed.

Print Assumptions C01_NS.
Print Assumptions C01_NS2D.
Print Assumptions C02_MHD.
Print Assumptions C02_MHD_magnetic.
Print Assumptions C03_VV_vorticity.
Print Assumptions C03_VV_velocity.
Print Assumptions C04_Bq2D.
Print Assumptions C04_Bq2D_pressure.
Print Assumptions C05_project.
Print Assumptions C08_NS_divergence.
Print Assumptions C08_mean_rhs.
Print Assumptions C08_MHD.
Print Assumptions C08_Bq2D_density.
Print Assumptions C08_AB2_restart_refuted.
Print Assumptions C09_NS.
Print Assumptions C09_NS2D.
Print Assumptions C09_VV.
Print Assumptions C09_MHD.
Print Assumptions C09_Bq2D.
Print Assumptions C10_NS_VV.
Print Assumptions C11_convection.
Print Assumptions C11_NS2D.
Print Assumptions C12_NS.
Print Assumptions C12_NS2D.
Print Assumptions C12_VV.
Print Assumptions C12_MHD.
Print Assumptions C12_Bq2D.
Print Assumptions C13_NS.
Print Assumptions C14_which_field.
Print Assumptions C14_BS5.
Print Assumptions C14_refuted.
Print Assumptions C52_elsasser.
Print Assumptions C54_K_over_K2.
