(** Lemmas for C84: one stage and one step of cpp/spectralDNS.cpp. *)
From Coq Require Import Reals ZArith List Lra Lia FunctionalExtensionality.
From Verif Require Import Base.Cplx Base.Sums Base.Fin Spec.Fourier Spec.RungeKutta Spec.CppRK Model.Maths Model.NS Model.Cpp
  Proofs.Common.
Import ListNotations.
Open Scope R_scope.

Section Solver.
Context {I X : Type} (rfftn : pfield X -> sfield I) (irfftn : sfield I -> pfield X * sfield I) (tot : R).
Context (K : ax3 -> I -> R) (kk dealias : I -> R) (nu dt : R).
Notation vec := (svec ax3 I).
Notation pvec := (pvec ax3 X).

Definition scaled (u : sfield I) : pfield X := fun x => fst (irfftn u) x / tot.
Notation vel := (velocity scaled).
Notation G := (rhs_with rfftn scaled K kk dealias nu).
Notation f := (rhs rfftn scaled K kk dealias nu).

Hypothesis Hkk : forall k, kk k = if Req_EM_T (knorm2 F3 K k) 0 then 1 else knorm2 F3 K k.
Hypothesis Hp : forall u, snd (irfftn u) = u.

Lemma ifft_spec (u : vec) : cpp_ifft irfftn tot u = (vel u, u).
Proof. unfold cpp_ifft, velocity, scaled. f_equal. extensionality d. apply Hp. Qed.

Definition used (s : cpp I X) (rk : nat) : pvec := if Nat.ltb 0 rk then vel (cU_hat s) else cU s.
Lemma stage_spec (s : cpp I X) rk :
  let k := G (used s rk) (cU_hat s) in
  cpp_stage rfftn irfftn tot K kk dealias nu dt s rk =
  mkCpp (used s rk)
    (if Nat.ltb rk 3 then plus (cU_hat0 s) (nth rk cpp_b 0 * dt) k else cU_hat s) (cU_hat0 s)
    (plus (cU_hat1 s) (nth rk cpp_a 0 * dt) k).
Proof.
  cbv zeta. unfold cpp_stage.
  replace (if Nat.ltb 0 rk then cpp_ifft irfftn tot (cU_hat s) else (cU s, cU_hat s)) with (used s rk, cU_hat s)
    by (unfold used; rewrite ifft_spec; destruct (Nat.ltb 0 rk); reflexivity).
  rewrite ifft_spec. cbn [fst].
  replace (fun (d : ax3) (k : I) => match d with
     | x0 => (Ci * (RtoC (K x1 k) * cU_hat s x2 k - RtoC (K x2 k) * cU_hat s x1 k))%C
     | x1 => (Ci * (RtoC (K x2 k) * cU_hat s x0 k - RtoC (K x0 k) * cU_hat s x2 k))%C
     | x2 => (Ci * (RtoC (K x0 k) * cU_hat s x1 k - RtoC (K x1 k) * cU_hat s x0 k))%C
     end) with (curl_hat K (cU_hat s)) by (extensionality d; extensionality k; destruct d; reflexivity).
  set (v := used s rk). set (w := vel (curl_hat K (cU_hat s))).
  match goal with |- mkCpp _ (if _ then ?a else _) _ ?b = mkCpp _ (if _ then ?a' else _) _ ?b' =>
    assert (E1 : a = a'); [|assert (E2 : b = b')] end.
  - extensionality d; extensionality k. unfold plus, rhs_with. fold w. unfold leray, kdot. cbn [elems F3 CsumL]. unfold crossR.
    rewrite Hkk. destruct (Req_EM_T (knorm2 F3 K k) 0) as [e|n].
    + assert (Z := proj1 (knorm2_0 F3 K k) e). rewrite (Z x0), (Z x1), (Z x2), (Z d).
      cbv beta iota. rewrite !RtoC_mul, RtoC_0, RtoC_1. field. apply C1_neq_C0.
    + assert (N := RtoC_neq0 _ n). cbv beta iota. rewrite !RtoC_mul. field. exact N.
  - extensionality d; extensionality k. unfold plus, rhs_with. fold w. unfold leray, kdot. cbn [elems F3 CsumL]. unfold crossR.
    rewrite Hkk. destruct (Req_EM_T (knorm2 F3 K k) 0) as [e|n].
    + assert (Z := proj1 (knorm2_0 F3 K k) e). rewrite (Z x0), (Z x1), (Z x2), (Z d).
      cbv beta iota. rewrite !RtoC_mul, RtoC_0, RtoC_1. field. apply C1_neq_C0.
    + assert (N := RtoC_neq0 _ n). cbv beta iota. rewrite !RtoC_mul. field. exact N.
  - rewrite E1, E2. reflexivity.
Qed.

Lemma step_spec (s : cpp I X) :
  cpp_step rfftn irfftn tot K kk dealias nu dt s =
  let '(u', ulast) := rk4_from dt f (G (cU s) (cU_hat s)) (cU_hat s) in
  mkCpp (vel ulast) u' (cU_hat s) u'.
Proof.
  unfold cpp_step. cbn [fold_left]. unfold rk4_from.
  rewrite !stage_spec. unfold used. cbn [Nat.ltb Nat.leb cU cU_hat cU_hat0 cU_hat1 nth cpp_a cpp_b].
  replace (0.5 * dt) with (dt / 2) by lra. replace (1 * dt) with dt by lra.
  fold (f (plus (cU_hat s) (dt / 2) (G (cU s) (cU_hat s)))). set (k1 := G (cU s) (cU_hat s)).
  set (k2 := f (plus (cU_hat s) (dt / 2) k1)).
  fold (f (plus (cU_hat s) (dt / 2) k2)). set (k3 := f (plus (cU_hat s) (dt / 2) k2)).
  fold (f (plus (cU_hat s) dt k3)). set (k4 := f (plus (cU_hat s) dt k3)).
  f_equal; extensionality d; extensionality k; unfold plus;
    replace (1/6*dt) with (dt/6) by lra; replace (1/3*dt) with (dt/6 * 2) by lra;
    rewrite !RtoC_mul; ring.
Qed.
End Solver.
