(** Characterisation of the NS / NS2D right hand sides. *)
From Coq Require Import Reals Lra List FunctionalExtensionality.
From Verif Require Import Base.Cplx Base.Sums Spec.Env Base.Fin Spec.Fourier Model.Maths Model.NS Model.NS2D
  Proofs.Common.
Import ListNotations.
Open Scope R_scope.

Section NS3.
Context {I X : Type} (T : transf I X) (K : ax3 -> I -> R).
Notation vec := (svec ax3 I).

Lemma cross1_R (c a b : ax3 -> X -> R) : cross1 Rmult Rminus c a b = crossR a b.
Proof. extensionality i; extensionality x; destruct i; reflexivity. Qed.
Lemma cross2_curl {J} (c : ax3 -> J -> C) (k : ax3 -> J -> R) (a : ax3 -> J -> C) :
  cross2 c k a = curl_hat k a.
Proof.
  extensionality i; extensionality j. unfold cross2, RCmul.
  destruct i; unfold cross1, upd; simpl; unfold RCmul; ring.
Qed.

Lemma iK_deriv (Kj : I -> R) f : iK Kj f = deriv Kj f.
Proof. reflexivity. Qed.

Lemma std_spec (rhs u : vec) (b : nsbuf ax3 I X) :
  u_dealias b = bwdV T u ->
  fst (standard_convection T K rhs u b) = ugradu (bwd T) (fwd T) F3 K u /\
  u_dealias (snd (standard_convection T K rhs u b)) = bwdV T u.
Proof.
  intros Hb. split.
  - extensionality i. unfold standard_convection, ugradu.
    destruct b as [ud ws p0 p1 ph]; simpl in Hb; subst ud.
    destruct i; simpl; reflexivity.
  - destruct b; simpl in *; assumption.
Qed.

Lemma div_spec (rhs u : vec) add (b : nsbuf ax3 I X) :
  u_dealias b = bwdV T u ->
  fst (divergence_convection T K rhs add b) =
  (fun i k => ((if add then rhs i k else C0) + divuu (bwd T) (fwd T) F3 K u i k)%C).
Proof.
  intros Hb. destruct b as [ud ws p0 p1 ph]; simpl in Hb; subst ud.
  extensionality i; extensionality k.
  assert (S : forall i j, (fun x => bwdV T u i x * bwdV T u j x) = (fun x => bwdV T u j x * bwdV T u i x))
    by (intros; extensionality x; ring).
  unfold divuu, deriv. cbn [elems F3 CsumL].
  change (bwd T (u x0)) with (bwdV T u x0); change (bwd T (u x1)) with (bwdV T u x1);
  change (bwd T (u x2)) with (bwdV T u x2); change (bwd T (u i)) with (bwdV T u i).
  destruct i, add; cbn -[fwd bwdV Cmul Cadd RtoC];
   rewrite ?(S x1 x0), ?(S x2 x0), ?(S x2 x1); ring.
Qed.

Definition conv_spec (c : conv_kind) (u : vec) : vec :=
  match c with
  | Standard => fun i k => (- ugradu (bwd T) (fwd T) F3 K u i k)%C
  | Divergence => fun i k => (- divuu (bwd T) (fwd T) F3 K u i k)%C
  | Skewed => fun i k => (- (RtoC (/2) * (ugradu (bwd T) (fwd T) F3 K u i k + divuu (bwd T) (fwd T) F3 K u i k)))%C
  | Vortex => ucrosscurl (bwd T) (fwd T) K u
  end.

Lemma Conv_spec c rhs u b : fst (Conv T K c rhs u b) = conv_spec c u.
Proof.
  destruct c; cbn [Conv conv_spec].
  - destruct (std_spec rhs u (set_ud b (bwdV T u)) eq_refl) as [H _].
    destruct (standard_convection T K rhs u (set_ud b (bwdV T u))) as [r b']; cbn [fst] in *; subst r.
    unfold scale. extensionality i; extensionality k. replace (-1) with (- (1)) by ring. rewrite RtoC_opp. change (RtoC 1) with C1. ring.
  - pose proof (div_spec rhs u false (set_ud b (bwdV T u)) eq_refl) as H.
    destruct (divergence_convection T K rhs false (set_ud b (bwdV T u))) as [r b']; cbn [fst] in *; subst r.
    unfold scale. extensionality i; extensionality k. replace (-1) with (- (1)) by ring. rewrite RtoC_opp. change (RtoC 1) with C1. ring.
  - destruct (std_spec rhs u (set_ud b (bwdV T u)) eq_refl) as [H1 H2].
    destruct (standard_convection T K rhs u (set_ud b (bwdV T u))) as [r b']; cbn [fst snd] in *; subst r.
    pose proof (div_spec (ugradu (bwd T) (fwd T) F3 K u) u true b' H2) as H.
    destruct (divergence_convection _ _ _ true b') as [r b'']; cbn [fst] in *; subst r.
    unfold scale. extensionality i; extensionality k.
    replace (-0.5) with (- (/ 2)) by lra. rewrite RtoC_opp. ring.
  - unfold Cross_ud_p0, compute_curl_p0, ucrosscurl. cbn [fst w_p0 w_p1 u_dealias set_s0 set_p0 set_ud w_s0].
    rewrite cross1_R, cross2_curl. reflexivity.
Qed.

Lemma ComputeRHS_NS_fst c m nu S b rhs u :
  fst (ComputeRHS_NS T K c m nu S b rhs u) =
  (fun i k => (leray F3 K (mask_nyquist m (conv_spec c u)) i k
               - RtoC (nu * knorm2 F3 K k) * u i k + S i k)%C).
Proof.
  unfold ComputeRHS_NS. pose proof (Conv_spec c rhs u b) as H.
  destruct (Conv T K c rhs u b) as [r b']. cbn [fst] in H; subst r.
  rewrite <- finish_rhs_fst. destruct (finish_rhs _ _ _ _ _ _ _); reflexivity.
Qed.
Lemma ComputeRHS_NS_P c m nu S b rhs u :
  P_hat (snd (ComputeRHS_NS T K c m nu S b rhs u)) =
  (fun k => if Req_EM_T (knorm2 F3 K k) 0 then C0
            else (kdot F3 K (mask_nyquist m (conv_spec c u)) k / RtoC (knorm2 F3 K k))%C).
Proof.
  unfold ComputeRHS_NS. pose proof (Conv_spec c rhs u b) as H.
  destruct (Conv T K c rhs u b) as [r b']. cbn [fst] in H; subst r.
  rewrite <- (finish_rhs_snd F3 K m nu S (conv_spec c u) u). destruct (finish_rhs _ _ _ _ _ _ _); reflexivity.
Qed.
Lemma kdot_NS c m nu S b rhs u k :
  kdot F3 K (fst (ComputeRHS_NS T K c m nu S b rhs u)) k =
  (- RtoC (nu * knorm2 F3 K k) * kdot F3 K u k + kdot F3 K S k)%C.
Proof.
  unfold ComputeRHS_NS. destruct (Conv T K c rhs u b) as [r b'].
  rewrite <- (kdot_finish F3 K m nu S r u k). destruct (finish_rhs _ _ _ _ _ _ _); reflexivity.
Qed.
End NS3.

Section NS2.
Context {I X : Type} (T : transf I X) (K : ax2 -> I -> R).
Notation vec := (svec ax2 I).

(** scalar vorticity i(k0 u1 - k1 u0) and the convection u x (omega e_z) *)
Definition vort2 (u : vec) : I -> C :=
  fun k => (Ci * (RtoC (K a0 k) * u a1 k - RtoC (K a1 k) * u a0 k))%C.
Definition conv2_spec (u : vec) : vec := fun i =>
  match i with
  | a0 => fwd T (fun x => bwd T (u a1) x * bwd T (vort2 u) x)
  | a1 => fwd T (fun x => - bwd T (u a0) x * bwd T (vort2 u) x)
  end.
Lemma cross2_2d_vort (u : vec) : cross2_2d K u = vort2 u.
Proof. extensionality k. unfold cross2_2d, cross1_2d, vort2, RCmul. ring. Qed.
Lemma Conv2_spec rhs u (b : ns2buf I X) : fst (Conv2 T K rhs u b) = conv2_spec u.
Proof.
  unfold Conv2. rewrite cross2_2d_vort. extensionality i. destruct i; reflexivity.
Qed.
Lemma ComputeRHS_NS2D_fst m nu S b rhs u :
  fst (ComputeRHS_NS2D T K m nu S b rhs u) =
  (fun i k => (leray F2 K (mask_nyquist m (conv2_spec u)) i k
               - RtoC (nu * knorm2 F2 K k) * u i k + S i k)%C).
Proof.
  unfold ComputeRHS_NS2D. pose proof (Conv2_spec rhs u b) as H.
  destruct (Conv2 T K rhs u b) as [r b']. cbn [fst] in H; subst r.
  rewrite <- finish_rhs_fst. destruct (finish_rhs _ _ _ _ _ _ _); reflexivity.
Qed.
Lemma ComputeRHS_NS2D_P m nu S b rhs u :
  P_hat2 (snd (ComputeRHS_NS2D T K m nu S b rhs u)) =
  (fun k => if Req_EM_T (knorm2 F2 K k) 0 then C0
            else (kdot F2 K (mask_nyquist m (conv2_spec u)) k / RtoC (knorm2 F2 K k))%C).
Proof.
  unfold ComputeRHS_NS2D. pose proof (Conv2_spec rhs u b) as H.
  destruct (Conv2 T K rhs u b) as [r b']. cbn [fst] in H; subst r.
  rewrite <- (finish_rhs_snd F2 K m nu S (conv2_spec u) u). destruct (finish_rhs _ _ _ _ _ _ _); reflexivity.
Qed.
Lemma kdot_NS2D m nu S b rhs u k :
  kdot F2 K (fst (ComputeRHS_NS2D T K m nu S b rhs u)) k =
  (- RtoC (nu * knorm2 F2 K k) * kdot F2 K u k + kdot F2 K S k)%C.
Proof.
  unfold ComputeRHS_NS2D. destruct (Conv2 T K rhs u b) as [r b'].
  rewrite <- (kdot_finish F2 K m nu S r u k). destruct (finish_rhs _ _ _ _ _ _ _); reflexivity.
Qed.
End NS2.
