From Coq Require Import Reals Lra List FunctionalExtensionality.
From Verif Require Import Base.Cplx Base.Sums Spec.Env Base.Fin Spec.Fourier Model.Maths Model.NS Model.MHD
  Proofs.Common Proofs.NSProofs Proofs.VVProofs.
Import ListNotations.
Open Scope R_scope.


Section MHD.
Context {I X : Type} (T : transf I X) (K : ax3 -> I -> R).
Notation vec6 := (svec ax6 I).

Definition zz (ub : vec6) (i j : ax3) : I -> C :=
  fwd T (fun x => (bwd T (ub (inl i)) x + bwd T (ub (inr i)) x) *
                  (bwd T (ub (inl j)) x - bwd T (ub (inr j)) x)).

Lemma ZZ_loop_spec z0 z1 ZZ :
  ZZ_loop T z0 z1 ZZ = (fun i j => fwd T (fun x => z0 i x * z1 j x)).
Proof. extensionality i; extensionality j. destruct i, j; reflexivity. Qed.

Lemma two_nz : RtoC 2 <> C0. Proof. apply RtoC_neq0; lra. Qed.

Definition convM_spec (ub : vec6) : vec6 := fun r k =>
  match r with
  | inl i => (- (Ci * CsumL (elems F3) (fun j => RtoC (K j k) * (zz ub i j k + zz ub j i k))) / RtoC 2)%C
  | inr i => (Ci * CsumL (elems F3) (fun j => RtoC (K j k) * (zz ub j i k - zz ub i j k)) / RtoC 2)%C
  end.
Lemma Conv_MHD_spec rhs ub b : fst (Conv_MHD T K rhs ub b) = convM_spec ub.
Proof.
  unfold Conv_MHD, divergenceConvection, set_Elsasser. rewrite ZZ_loop_spec. cbn [fst].
  extensionality r; extensionality k. destruct r as [i|i]; unfold convM_spec, bwdV;
  cbn [elems F3 CsumL]; fold (zz ub x0 i); fold (zz ub x1 i); fold (zz ub x2 i);
  fold (zz ub i x0); fold (zz ub i x1); fold (zz ub i x2); field; apply two_nz.
Qed.

Lemma apdM_rhs nu eta rhs ub :
  fst (add_pressure_diffusion_MHD K rhs ub nu eta (K2_of F3 K) (K_over_K2_of F3 K)) =
  (fun r k => match r with
   | inl i => (leray F3 K (velo rhs) i k - RtoC (nu * knorm2 F3 K k) * ub (inl i) k)%C
   | inr i => (rhs (inr i) k - RtoC (eta * knorm2 F3 K k) * ub (inr i) k)%C end).
Proof.
  unfold add_pressure_diffusion_MHD. cbn [fst].
  extensionality r; extensionality k.
  pose proof (KoK2_dot F3 K (velo rhs) k) as H. unfold velo in *.
  destruct r as [i|i]; rewrite K2_of_spec.
  - unfold leray. destruct i; cbn [fold_left elems F3]; unfold upd; cbn [eqd F6 eqb6 eqb3];
    cbn [elems F3] in H; rewrite H; destruct (Req_EM_T (knorm2 F3 K k) 0); ring.
  - reflexivity.
Qed.
Lemma apdM_P nu eta rhs ub :
  snd (add_pressure_diffusion_MHD K rhs ub nu eta (K2_of F3 K) (K_over_K2_of F3 K)) =
  (fun k => if Req_EM_T (knorm2 F3 K k) 0 then C0 else (kdot F3 K (velo rhs) k / RtoC (knorm2 F3 K k))%C).
Proof.
  unfold add_pressure_diffusion_MHD. cbn [snd].
  extensionality k. apply (KoK2_dot F3 K (velo rhs) k).
Qed.

Lemma ComputeRHS_MHD_fst m nu eta b rhs ub :
  fst (ComputeRHS_MHD T K m nu eta b rhs ub) =
  (fun r k => match r with
   | inl i => (leray F3 K (velo (mask_nyquist m (convM_spec ub))) i k - RtoC (nu * knorm2 F3 K k) * ub (inl i) k)%C
   | inr i => (mask_nyquist m (convM_spec ub) (inr i) k - RtoC (eta * knorm2 F3 K k) * ub (inr i) k)%C end).
Proof.
  unfold ComputeRHS_MHD. pose proof (Conv_MHD_spec rhs ub b) as H.
  destruct (Conv_MHD T K rhs ub b) as [r b']; cbn [fst] in *; subst r.
  rewrite <- apdM_rhs. destruct (add_pressure_diffusion_MHD _ _ _ _ _ _ _); reflexivity.
Qed.
Lemma ComputeRHS_MHD_P m nu eta b rhs ub :
  P_hat6 (snd (ComputeRHS_MHD T K m nu eta b rhs ub)) =
  (fun k => if Req_EM_T (knorm2 F3 K k) 0 then C0
     else (kdot F3 K (velo (mask_nyquist m (convM_spec ub))) k / RtoC (knorm2 F3 K k))%C).
Proof.
  unfold ComputeRHS_MHD. pose proof (Conv_MHD_spec rhs ub b) as H.
  destruct (Conv_MHD T K rhs ub b) as [r b']; cbn [fst] in *; subst r.
  rewrite <- (apdM_P nu eta (mask_nyquist m (convM_spec ub)) ub).
  destruct (add_pressure_diffusion_MHD _ _ _ _ _ _ _); reflexivity.
Qed.

Lemma kdot_MHD_u m nu eta b rhs ub k :
  kdot F3 K (velo (fst (ComputeRHS_MHD T K m nu eta b rhs ub))) k =
  (- RtoC (nu * knorm2 F3 K k) * kdot F3 K (velo ub) k)%C.
Proof.
  rewrite ComputeRHS_MHD_fst.
  transitivity (kdot F3 K (leray F3 K (velo (mask_nyquist m (convM_spec ub)))) k
     + (- RtoC (nu * knorm2 F3 K k)) * kdot F3 K (velo ub) k)%C.
  - rewrite !kdot3. unfold velo. ring.
  - rewrite kdot_leray. ring.
Qed.
(** The induction part of the convection is divergence free mode by mode *)
Lemma kdot_convM_b ub k : kdot F3 K (magn (convM_spec ub)) k = C0.
Proof. rewrite kdot3. unfold magn, convM_spec. cbn [elems F3 CsumL]. field. apply two_nz. Qed.

Lemma velo_mask m (v : vec6) : velo (mask_nyquist m v) = mask_nyquist m (velo v).
Proof. destruct m; reflexivity. Qed.
Lemma magn_mask m (v : vec6) : magn (mask_nyquist m v) = mask_nyquist m (magn v).
Proof. destruct m; reflexivity. Qed.

Lemma kdot_MHD_b m nu eta b rhs ub k :
  kdot F3 K (magn (fst (ComputeRHS_MHD T K m nu eta b rhs ub))) k =
  (- RtoC (eta * knorm2 F3 K k) * kdot F3 K (magn ub) k)%C.
Proof.
  rewrite ComputeRHS_MHD_fst.
  transitivity (kdot F3 K (magn (mask_nyquist m (convM_spec ub))) k
     + (- RtoC (eta * knorm2 F3 K k)) * kdot F3 K (magn ub) k)%C.
  - rewrite !kdot3. unfold magn. ring.
  - rewrite magn_mask, kdot_mask, kdot_convM_b. destruct m as [m|]; [destruct (m k)|]; ring.
Qed.

(** Elsasser form = u/b form, for a linear forward transform *)
Definition linear_fwd := forall (a b : R) (f g : X -> R) k,
  fwd T (fun x => a * f x + b * g x) k = (RtoC a * fwd T f k + RtoC b * fwd T g k)%C.

Definition ubform (ub : vec6) : vec6 := fun r k =>
  let u := fun i => bwd T (ub (inl i)) in
  let b := fun i => bwd T (ub (inr i)) in
  match r with
  | inl i => (- CsumL (elems F3) (fun j => deriv (K j) (fwd T (fun x => (u i x * u j x - b i x * b j x)%R)) k))%C
  | inr i => CsumL (elems F3) (fun j => deriv (K j) (fwd T (fun x => (u i x * b j x - u j x * b i x)%R)) k)
  end.

Lemma elsasser_ub (Hl : linear_fwd) ub : convM_spec ub = ubform ub.
Proof.
  extensionality r; extensionality k.
  set (u := fun i => bwd T (ub (inl i))). set (b := fun i => bwd T (ub (inr i))).
  assert (E1 : forall i j, (zz ub i j k + zz ub j i k)%C =
     (RtoC 2 * fwd T (fun x => (u i x * u j x - b i x * b j x)%R) k)%C).
  { intros i j. transitivity (RtoC 1 * zz ub i j k + RtoC 1 * zz ub j i k)%C; [change (RtoC 1) with C1; ring|].
    unfold zz. rewrite <- Hl.
    transitivity (RtoC 2 * fwd T (fun x => (u i x * u j x - b i x * b j x)%R) k + RtoC 0 * zz ub i j k)%C;
      [|rewrite RtoC_0; ring]. unfold zz. rewrite <- Hl. f_equal. extensionality x.
    unfold u, b. ring. }
  assert (E2 : forall i j, (zz ub j i k - zz ub i j k)%C =
     (RtoC 2 * fwd T (fun x => (u i x * b j x - u j x * b i x)%R) k)%C).
  { intros i j. transitivity (RtoC 1 * zz ub j i k + RtoC (-(1)) * zz ub i j k)%C;
      [rewrite RtoC_opp; change (RtoC 1) with C1; ring|].
    unfold zz. rewrite <- Hl.
    transitivity (RtoC 2 * fwd T (fun x => (u i x * b j x - u j x * b i x)%R) k + RtoC 0 * zz ub i j k)%C;
      [|rewrite RtoC_0; ring]. unfold zz. rewrite <- Hl. f_equal. extensionality x.
    unfold u, b. ring. }
  destruct r as [i|i]; unfold convM_spec, ubform, deriv; cbn [elems F3 CsumL]; fold u; fold b.
  - rewrite !E1. unfold u, b. field. apply two_nz.
  - rewrite !E2. unfold u, b. field. apply two_nz.
Qed.
End MHD.
