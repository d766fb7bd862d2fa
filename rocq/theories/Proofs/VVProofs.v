From Coq Require Import Reals Lra List FunctionalExtensionality.
From Verif Require Import Base.Cplx Base.Sums Spec.Env Base.Fin Spec.Fourier Model.Maths Model.NS Model.VV
  Proofs.Common Proofs.NSProofs.
Import ListNotations.
Open Scope R_scope.

Section VV.
Context {I X : Type} (T : transf I X) (K : ax3 -> I -> R).
Notation vec := (svec ax3 I).
Notation Kk := (K_over_K2_of F3 K).

Lemma kdot3 (v : vec) k : kdot F3 K v k =
  (RtoC (K x0 k) * v x0 k + RtoC (K x1 k) * v x1 k + RtoC (K x2 k) * v x2 k)%C.
Proof. unfold kdot; simpl. ring. Qed.

Lemma kdot_curl (v : vec) k : kdot F3 K (curl_hat K v) k = C0.
Proof. rewrite kdot3. unfold curl_hat. ring. Qed.

Lemma knorm2_3 k : knorm2 F3 K k = K x0 k * K x0 k + K x1 k * K x1 k + K x2 k * K x2 k.
Proof. unfold knorm2; simpl; ring. Qed.

Lemma KoK2_colinear i k : Kk i k * where_K2_0 (K2_of F3 K) k = K i k.
Proof. unfold K_over_K2_of. field. apply where_K2_0_nz. Qed.

Lemma velocity_hat_curl w : velocity_hat Kk w = curl_hat Kk w.
Proof. apply cross2_curl. Qed.

Lemma velocity_divfree w : divfree F3 K (velocity_hat Kk w).
Proof.
  intros k. rewrite velocity_hat_curl, kdot3. unfold curl_hat.
  rewrite <- !KoK2_colinear, !RtoC_mul. ring.
Qed.

Lemma velocity_mean w i k : is_mean K k -> velocity_hat Kk w i k = C0.
Proof.
  intros H. rewrite velocity_hat_curl. unfold curl_hat.
  destruct i; rewrite !(K_over_K2_zero F3 K _ k H), RtoC_0; ring.
Qed.

Lemma velocity_of_curl (u : vec) :
  divfree F3 K u -> (forall i k, is_mean K k -> u i k = C0) ->
  velocity_hat Kk (curl_hat K u) = u.
Proof.
  intros Hd Hm. extensionality i; extensionality k.
  destruct (Req_EM_T (knorm2 F3 K k) 0) as [E|E].
  - apply (knorm2_0 F3) in E. rewrite velocity_mean by assumption. symmetry; apply Hm, E.
  - rewrite velocity_hat_curl. pose proof (Hd k) as H. rewrite kdot3 in H.
    assert (Hn : ~ is_mean K k) by (intros Hx; apply E, knorm2_0, Hx).
    unfold curl_hat. rewrite !(K_over_K2_nz F3 K _ k Hn), !RtoC_div by exact E.
    assert (En : RtoC (knorm2 F3 K k) <> C0) by (apply RtoC_neq0, E).
    assert (EK : (RtoC (K x0 k) * RtoC (K x0 k) + RtoC (K x1 k) * RtoC (K x1 k)
                 + RtoC (K x2 k) * RtoC (K x2 k) = RtoC (knorm2 F3 K k))%C)
      by (rewrite knorm2_3, !RtoC_add, !RtoC_mul; reflexivity).
    set (n := RtoC (knorm2 F3 K k)) in *.
    set (p := RtoC (K x0 k)) in *. set (q := RtoC (K x1 k)) in *. set (r := RtoC (K x2 k)) in *.
    pose proof Ci_sq as Hi.
    assert (Hx : forall a b : C, (n * a = n * b)%C -> a = b).
    { intros a b Hab. replace a with (/ n * (n * a))%C by (field; exact En).
      rewrite Hab. field. exact En. }
    destruct i; apply Hx.
    + transitivity (Ci * Ci * (p * (p * u x0 k + q * u x1 k + r * u x2 k) - (p*p+q*q+r*r) * u x0 k))%C.
      * field. exact En.
      * rewrite H, EK, Hi. ring.
    + transitivity (Ci * Ci * (q * (p * u x0 k + q * u x1 k + r * u x2 k) - (p*p+q*q+r*r) * u x1 k))%C.
      * field. exact En.
      * rewrite H, EK, Hi. ring.
    + transitivity (Ci * Ci * (r * (p * u x0 k + q * u x1 k + r * u x2 k) - (p*p+q*q+r*r) * u x2 k))%C.
      * field. exact En.
      * rewrite H, EK, Hi. ring.
Qed.

(** The VV convection term: curl( forward(u x w) ), u = velocity of w *)
Definition convVV_spec (w : vec) : vec :=
  curl_hat K (fun i => fwd T (crossR (fun j => bwd T (velocity_hat Kk w j)) (fun j => bwd T (w j)) i)).

Lemma ConvVV_spec rhs w (b : vvbuf I X) : fst (ConvVV T K Kk rhs w b) = convVV_spec w.
Proof.
  unfold ConvVV, compute_velocity_ud. cbn [vud vs0 vs1 vp0 vp1 fst].
  rewrite cross2_curl, cross1_R. reflexivity.
Qed.

Lemma ComputeRHS_VV_fst m nu S b rhs w :
  fst (ComputeRHS_VV T K Kk (K2_of F3 K) m nu S b rhs w) =
  (fun i k => (mask_nyquist m (convVV_spec w) i k - RtoC (nu * knorm2 F3 K k) * w i k + S i k)%C).
Proof.
  unfold ComputeRHS_VV. pose proof (ConvVV_spec rhs w b) as H.
  destruct (ConvVV T K Kk rhs w b) as [r b']; cbn [fst] in *; subst r.
  unfold add_linear_VV. extensionality i; extensionality k. rewrite K2_of_spec. reflexivity.
Qed.

Lemma kdot_VV m nu S b rhs w k :
  kdot F3 K (fst (ComputeRHS_VV T K Kk (K2_of F3 K) m nu S b rhs w)) k =
  (- RtoC (nu * knorm2 F3 K k) * kdot F3 K w k + kdot F3 K S k)%C.
Proof.
  rewrite ComputeRHS_VV_fst.
  transitivity (kdot F3 K (mask_nyquist m (convVV_spec w)) k
     + (- RtoC (nu * knorm2 F3 K k)) * kdot F3 K w k + kdot F3 K S k)%C.
  - rewrite !kdot3. ring.
  - rewrite kdot_mask. unfold convVV_spec. rewrite kdot_curl.
    destruct m as [m|]; [destruct (m k)|]; ring.
Qed.

Lemma get_divergence_VV_zero U w k : fst (get_divergence_VV K U w) k = C0.
Proof.
  unfold get_divergence_VV. cbn [fst]. unfold get_divergence_hat.
  rewrite cross2_curl. fold (kdot F3 K (curl_hat K w) k). rewrite kdot_curl. ring.
Qed.
End VV.
