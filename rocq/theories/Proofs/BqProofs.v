From Coq Require Import Reals Lra List FunctionalExtensionality.
From Verif Require Import Base.Cplx Base.Sums Spec.Env Base.Fin Spec.Fourier Model.Maths Model.NS Model.NS2D Model.Bq2D
  Proofs.Common Proofs.NSProofs.
Import ListNotations.
Open Scope R_scope.


Section Bq.
Context {I X : Type} (T : transf I X) (K : ax2 -> I -> R).
Notation vecb := (svec axb I).

Definition convB_spec (ur : vecb) : vecb := fun r =>
  match r with
  | Some i => conv2_spec T K (velo2 ur) i
  | None => fun k => (- CsumL (elems F2) (fun j => deriv (K j)
                 (fwd T (fun x => (bwd T (ur (Some j)) x * bwd T (ur None) x)%R)) k))%C
  end.
Lemma Conv_Bq_spec rhs ur b : fst (Conv_Bq T K rhs ur b) = convB_spec ur.
Proof.
  unfold Conv_Bq. rewrite cross2_2d_vort. cbn [fst].
  extensionality r. destruct r as [[]|]; cbn; try reflexivity.
  extensionality k. unfold deriv, bwdV. cbn. ring.
Qed.

(** buoyancy force -Ri rho e_1 *)
Definition buoy (Ri : R) (ur : vecb) : svec ax2 I := fun i k =>
  match i with a0 => C0 | a1 => (- (RtoC Ri * ur None k))%C end.

Lemma kdot2 (v : svec ax2 I) k : kdot F2 K v k = (RtoC (K a0 k) * v a0 k + RtoC (K a1 k) * v a1 k)%C.
Proof. unfold kdot; simpl; ring. Qed.

Lemma apdB_P rhs ur nu Ri Pr :
  snd (add_pressure_diffusion_Bq K rhs ur (K2_of F2 K) (K_over_K2_of F2 K) nu Ri Pr) =
  (fun k => if Req_EM_T (knorm2 F2 K k) 0 then C0
     else (kdot F2 K (fun i k => velo2 rhs i k + buoy Ri ur i k)%C k / RtoC (knorm2 F2 K k))%C).
Proof.
  unfold add_pressure_diffusion_Bq. cbn [snd]. extensionality k.
  pose proof (KoK2_dot F2 K (velo2 rhs) k) as H. unfold velo2 in H at 1. rewrite H.
  destruct (Req_EM_T (knorm2 F2 K k) 0) as [E|E].
  - rewrite K_over_K2_zero by (apply (knorm2_0 F2), E). rewrite RtoC_0. ring.
  - rewrite K_over_K2_nz by (intros Hx; apply E, knorm2_0, Hx). rewrite RtoC_div by exact E.
    rewrite !kdot2. unfold buoy, Cdiv. ring.
Qed.

Lemma apdB_rhs rhs ur nu Ri Pr :
  fst (add_pressure_diffusion_Bq K rhs ur (K2_of F2 K) (K_over_K2_of F2 K) nu Ri Pr) =
  (fun r k => match r with
   | Some i => (leray F2 K (fun i k => velo2 rhs i k + buoy Ri ur i k)%C i k
                - RtoC (nu * knorm2 F2 K k) * ur (Some i) k)%C
   | None => (rhs None k - RtoC (nu * knorm2 F2 K k) * ur None k / RtoC Pr)%C end).
Proof.
  pose proof (apdB_P rhs ur nu Ri Pr) as H.
  unfold add_pressure_diffusion_Bq in *. cbn [fst snd] in *.
  extensionality r; extensionality k.
  apply (f_equal (fun g => g k)) in H. cbn beta in H. 
  destruct r as [i|].
  - unfold leray. destruct i; cbn [fold_left elems F2] in *; unfold upd; cbn [eqd Fb eqbb eqb2];
    rewrite H, K2_of_spec; unfold buoy, velo2; destruct (Req_EM_T (knorm2 F2 K k) 0); ring.
  - cbn [fold_left elems F2]; unfold upd; cbn [eqd Fb eqbb eqb2]. rewrite K2_of_spec. reflexivity.
Qed.

Lemma ComputeRHS_Bq_fst m nu Ri Pr b rhs ur :
  fst (ComputeRHS_Bq T K m nu Ri Pr b rhs ur) =
  (fun r k => match r with
   | Some i => (leray F2 K (fun i k => velo2 (mask_nyquist m (convB_spec ur)) i k + buoy Ri ur i k)%C i k
                - RtoC (nu * knorm2 F2 K k) * ur (Some i) k)%C
   | None => (mask_nyquist m (convB_spec ur) None k - RtoC (nu * knorm2 F2 K k) * ur None k / RtoC Pr)%C end).
Proof.
  unfold ComputeRHS_Bq. pose proof (Conv_Bq_spec rhs ur b) as H.
  destruct (Conv_Bq T K rhs ur b) as [r b']; cbn [fst] in *; subst r.
  rewrite <- apdB_rhs. destruct (add_pressure_diffusion_Bq _ _ _ _ _ _ _ _); reflexivity.
Qed.
Lemma ComputeRHS_Bq_P m nu Ri Pr b rhs ur :
  P_hatb (snd (ComputeRHS_Bq T K m nu Ri Pr b rhs ur)) =
  (fun k => if Req_EM_T (knorm2 F2 K k) 0 then C0
     else (kdot F2 K (fun i k => velo2 (mask_nyquist m (convB_spec ur)) i k + buoy Ri ur i k)%C k
           / RtoC (knorm2 F2 K k))%C).
Proof.
  unfold ComputeRHS_Bq. pose proof (Conv_Bq_spec rhs ur b) as H.
  destruct (Conv_Bq T K rhs ur b) as [r b']; cbn [fst] in *; subst r.
  rewrite <- (apdB_P _ ur nu Ri Pr). destruct (add_pressure_diffusion_Bq _ _ _ _ _ _ _ _); reflexivity.
Qed.
Lemma kdot_Bq m nu Ri Pr b rhs ur k :
  kdot F2 K (velo2 (fst (ComputeRHS_Bq T K m nu Ri Pr b rhs ur))) k =
  (- RtoC (nu * knorm2 F2 K k) * kdot F2 K (velo2 ur) k)%C.
Proof.
  rewrite ComputeRHS_Bq_fst.
  transitivity (kdot F2 K (leray F2 K (fun i k => velo2 (mask_nyquist m (convB_spec ur)) i k + buoy Ri ur i k)%C) k
     + (- RtoC (nu * knorm2 F2 K k)) * kdot F2 K (velo2 ur) k)%C.
  - rewrite !kdot2. unfold velo2. ring.
  - rewrite kdot_leray. ring.
Qed.
End Bq.
