(** Lemmas shared by the spectral solver proofs. *)
From Coq Require Import Reals Lra List FunctionalExtensionality.
From Verif Require Import Base.Cplx Base.Sums Spec.Env Base.Fin Spec.Fourier Model.Maths Model.NS.
Import ListNotations.
Open Scope R_scope.

Section Waves.
Context {D I : Type} (F : fin D) (K : D -> I -> R).

Lemma K2_of_spec k : K2_of F K k = knorm2 F K k.
Proof.
  unfold K2_of, knorm2.
  assert (H : forall l (acc : I -> R),
    fold_left (fun acc i k => acc k + K i k * K i k) l acc k
    = acc k + RsumL l (fun i => K i k * K i k)).
  { induction l as [|a l IH]; intros acc; simpl; [ring|]. rewrite IH. ring. }
  rewrite H. ring.
Qed.

Lemma knorm2_nonneg k : 0 <= knorm2 F K k.
Proof. apply RsumL_nonneg. intros; apply Rle_0_sqr. Qed.

Lemma knorm2_0 k : knorm2 F K k = 0 <-> is_mean K k.
Proof.
  split; intros H.
  - intros i. unfold knorm2 in H.
    assert (G : forall l, (forall j, In j l -> True) -> RsumL l (fun i => K i k * K i k) = 0 ->
       forall j, In j l -> K j k = 0).
    { induction l as [|a l IH]; intros _ Hs j Hj; [destruct Hj|]. simpl in Hs.
      pose proof (Rle_0_sqr (K a k)) as Ha. unfold Rsqr in Ha.
      assert (Hl : 0 <= RsumL l (fun i => K i k * K i k)).
      { apply RsumL_nonneg; intros; apply Rle_0_sqr. }
      destruct Hj as [->|Hj].
      - apply Rsqr_0_uniq. unfold Rsqr. lra.
      - apply IH; auto. lra. }
    apply (G (elems F)); auto. apply elems_all.
  - apply RsumL_0. intros i _. rewrite H. ring.
Qed.

(** The denominator used by the code is |K|^2, or 1 at K = 0: never zero *)
Lemma where_K2_0_nz k : where_K2_0 (K2_of F K) k <> 0.
Proof. unfold where_K2_0. destruct (Req_EM_T _ 0); lra. Qed.

Lemma K_over_K2_zero i k : is_mean K k -> K_over_K2_of F K i k = 0.
Proof. intros H. unfold K_over_K2_of. rewrite (H i). unfold Rdiv. ring. Qed.
Lemma K_over_K2_nz i k : ~ is_mean K k -> K_over_K2_of F K i k = K i k / knorm2 F K k.
Proof.
  intros H. unfold K_over_K2_of, where_K2_0. rewrite K2_of_spec.
  destruct (Req_EM_T (knorm2 F K k) 0) as [E|E]; [|reflexivity].
  exfalso; apply H, knorm2_0, E.
Qed.

Lemma RsumL_CsumL {A} (l : list A) f : RtoC (RsumL l f) = CsumL l (fun i => RtoC (f i)).
Proof. induction l as [|a l IH]; simpl; [reflexivity|]. rewrite RtoC_add, IH. reflexivity. Qed.

(** Sum K_over_K2 . v = (k.v)/|k|^2, or 0 at the mean mode *)
Lemma KoK2_dot (v : svec D I) k :
  CsumL (elems F) (fun i => (v i k * RtoC (K_over_K2_of F K i k))%C) =
  if Req_EM_T (knorm2 F K k) 0 then C0 else (kdot F K v k / RtoC (knorm2 F K k))%C.
Proof.
  destruct (Req_EM_T (knorm2 F K k) 0) as [E|E].
  - apply CsumL_0. intros i _. rewrite K_over_K2_zero by (apply knorm2_0, E).
    rewrite RtoC_0. ring.
  - unfold kdot, Cdiv.
    transitivity (/ RtoC (knorm2 F K k) * CsumL (elems F) (fun i => RtoC (K i k) * v i k))%C; [|ring].
    rewrite <- CsumL_scal. apply CsumL_ext. intros i _.
    rewrite K_over_K2_nz by (intros H; apply E, knorm2_0, H).
    rewrite RtoC_div by exact E. unfold Cdiv. ring.
Qed.

Lemma mean_K i k : knorm2 F K k = 0 -> K i k = 0.
Proof. intros E. apply knorm2_0 in E. apply E. Qed.

Lemma kdot_leray (v : svec D I) k :
  kdot F K (leray F K v) k = C0.
Proof.
  unfold kdot, leray. destruct (Req_EM_T (knorm2 F K k) 0) as [E|E].
  - apply CsumL_0. intros i _. rewrite (mean_K i k E), RtoC_0. ring.
  - transitivity (kdot F K v k - (kdot F K v k / RtoC (knorm2 F K k)) *
       CsumL (elems F) (fun i => RtoC (K i k * K i k)))%C.
    + unfold kdot at 2. rewrite <- CsumL_scal.
      replace (CsumL (elems F) (fun i => RtoC (K i k) * v i k)
        - CsumL (elems F) (fun i => kdot F K v k / RtoC (knorm2 F K k) * RtoC (K i k * K i k)))%C
      with (CsumL (elems F) (fun i => RtoC (K i k) * v i k)
        + (- C1) * CsumL (elems F) (fun i => kdot F K v k / RtoC (knorm2 F K k) * RtoC (K i k * K i k)))%C by ring.
      rewrite <- CsumL_scal, <- CsumL_add. apply CsumL_ext. intros i _. rewrite RtoC_mul. ring.
    + rewrite <- RsumL_CsumL. fold (knorm2 F K k). field. apply RtoC_neq0, E.
Qed.

Lemma kdot_add (u v : svec D I) k :
  kdot F K (fun i k => (u i k + v i k)%C) k = (kdot F K u k + kdot F K v k)%C.
Proof. unfold kdot. rewrite <- CsumL_add. apply CsumL_ext; intros; ring. Qed.
Lemma kdot_scal (c : I -> C) (v : svec D I) k :
  kdot F K (fun i k => (c k * v i k)%C) k = (c k * kdot F K v k)%C.
Proof. unfold kdot. rewrite <- CsumL_scal. apply CsumL_ext; intros; ring. Qed.
Lemma kdot_ext (u v : svec D I) k : (forall i, u i k = v i k) -> kdot F K u k = kdot F K v k.
Proof. intros H. unfold kdot. apply CsumL_ext. intros; rewrite H; reflexivity. Qed.
Lemma kdot_mask m (v : svec D I) k :
  kdot F K (mask_nyquist m v) k =
  match m with None => kdot F K v k | Some m => if m k then kdot F K v k else C0 end.
Proof.
  destruct m as [m|]; simpl; [|reflexivity]. unfold kdot.
  destruct (m k); [reflexivity|]. apply CsumL_0; intros; ring.
Qed.

Lemma leray_divfree (v : svec D I) : divfree F K v -> forall i k, leray F K v i k = v i k.
Proof.
  intros H i k. unfold leray. destruct (Req_EM_T _ 0) as [E|E]; [reflexivity|].
  rewrite H. field. apply RtoC_neq0, E.
Qed.
Lemma leray_mean (v : svec D I) i k : is_mean K k -> leray F K v i k = v i k.
Proof.
  intros H. unfold leray. destruct (Req_EM_T _ 0) as [E|E]; [reflexivity|].
  exfalso. apply E, knorm2_0, H.
Qed.

(** What the pressure/diffusion step computes *)
Lemma apd_rhs nu (rhs u : svec D I) :
  fst (add_pressure_diffusion F K rhs u nu (K2_of F K) (K_over_K2_of F K)) =
  (fun i k => (leray F K rhs i k - RtoC (nu * knorm2 F K k) * u i k)%C).
Proof.
  unfold add_pressure_diffusion; cbn [fst].
  extensionality i; extensionality k.
  rewrite (fold_upd_all F (fun i r => fun k => (r k - CsumL (elems F)
      (fun i0 => rhs i0 k * RtoC (K_over_K2_of F K i0 k)) * RtoC (K i k))%C)).
  rewrite K2_of_spec, KoK2_dot. unfold leray.
  destruct (Req_EM_T (knorm2 F K k) 0); ring.
Qed.
Lemma apd_P nu (rhs u : svec D I) :
  snd (add_pressure_diffusion F K rhs u nu (K2_of F K) (K_over_K2_of F K)) =
  (fun k => if Req_EM_T (knorm2 F K k) 0 then C0 else (kdot F K rhs k / RtoC (knorm2 F K k))%C).
Proof.
  unfold add_pressure_diffusion; cbn [snd]. extensionality k. apply KoK2_dot.
Qed.

Lemma finish_rhs_fst m nu S (rhs u : svec D I) :
  fst (finish_rhs F K m nu S rhs u) =
  (fun i k => (leray F K (mask_nyquist m rhs) i k - RtoC (nu * knorm2 F K k) * u i k + S i k)%C).
Proof.
  unfold finish_rhs.
  pose proof (apd_rhs nu (mask_nyquist m rhs) u) as H.
  destruct (add_pressure_diffusion F K (mask_nyquist m rhs) u nu (K2_of F K) (K_over_K2_of F K)) as [r P].
  cbn [fst] in *. subst r. reflexivity.
Qed.
Lemma finish_rhs_snd m nu S (rhs u : svec D I) :
  snd (finish_rhs F K m nu S rhs u) =
  (fun k => if Req_EM_T (knorm2 F K k) 0 then C0
            else (kdot F K (mask_nyquist m rhs) k / RtoC (knorm2 F K k))%C).
Proof.
  unfold finish_rhs.
  pose proof (apd_P nu (mask_nyquist m rhs) u) as H.
  destruct (add_pressure_diffusion F K (mask_nyquist m rhs) u nu (K2_of F K) (K_over_K2_of F K)) as [r P].
  cbn [fst snd] in *. subst P. reflexivity.
Qed.

Lemma kdot_finish m nu S (rhs u : svec D I) k :
  kdot F K (fst (finish_rhs F K m nu S rhs u)) k =
  (- RtoC (nu * knorm2 F K k) * kdot F K u k + kdot F K S k)%C.
Proof.
  rewrite finish_rhs_fst.
  rewrite (kdot_add (fun i k => leray F K (mask_nyquist m rhs) i k - RtoC (nu * knorm2 F K k) * u i k)%C S).
  replace (kdot F K (fun i k => leray F K (mask_nyquist m rhs) i k - RtoC (nu * knorm2 F K k) * u i k)%C k)
    with (kdot F K (leray F K (mask_nyquist m rhs)) k
          + kdot F K (fun i k => (- RtoC (nu * knorm2 F K k)) * u i k)%C k)%C.
  - rewrite kdot_leray. rewrite (kdot_scal (fun k => - RtoC (nu * knorm2 F K k))%C). ring.
  - rewrite <- kdot_add. apply kdot_ext. intros; ring.
Qed.
End Waves.
