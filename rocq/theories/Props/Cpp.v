(** C84: the stand-alone C++ program cpp/spectralDNS.cpp, compared with classical Runge-Kutta for the Navier-Stokes
    equations and with the Python script spectralDNS3D_short.py. *)
From Coq Require Import Reals ZArith List Lra Lia FunctionalExtensionality Bool.
From Verif Require Import Base.Cplx Base.Sums Base.Fin Spec.Fourier Spec.RungeKutta Spec.CppRK
  Model.Maths Model.NS Model.Short Model.Cpp Proofs.Common Proofs.NSProofs Proofs.ShortProofs Proofs.CppProofs.
Import ListNotations.
Open Scope R_scope.

(** ** Tables *)
Section Tables.
Open Scope Z_scope.
(** The factors, the mask and the divisor are those of spectralDNS3D_short.py (on one rank), except that the divisor, which
    is 1 for the mean mode, is the only |k|^2 there is. *)
Theorem C84_tables N i j k : N mod 2 = 0 -> 0 < N -> 0 <= i < N -> 0 <= j < N -> 0 <= k <= N / 2 ->
  (forall d, cpp_K N d (i, j, k) = Kshort N N 0 d (i, j, k)) /\
  cpp_dealias N (i, j, k) = (if dealias N N 0 (i, j, k) then 1 else 0) /\
  IZR (cpp_kk N (i, j, k)) =
    (let K := fun d m => IZR (cpp_K N d m) in
     if Req_EM_T (knorm2 F3 K (i, j, k)) 0 then 1%R else knorm2 F3 K (i, j, k)).
Proof.
  intros He HN Hi Hj Hk.
  assert (E2 : N = 2 * (N / 2)) by (pose proof (Z.div_mod N 2); lia).
  assert (Hx : forall a, 0 <= a < N -> cpp_kx N a = kx N a).
  { intros a Ha. unfold cpp_kx. destruct (a <? N / 2) eqn:E.
    - apply Z.ltb_lt in E. rewrite kx_low by lia. reflexivity.
    - apply Z.ltb_ge in E. replace (N - N / 2 <=? a) with true by (symmetry; apply Z.leb_le; lia).
      rewrite kx_high by lia. reflexivity. }
  assert (Hz : cpp_kz N k = kz N k).
  { unfold cpp_kz, kz. destruct (k =? N / 2) eqn:E.
    - apply Z.eqb_eq in E. rewrite kx_high by lia. lia.
    - apply Z.eqb_neq in E. replace (k <? N / 2) with true by (symmetry; apply Z.ltb_lt; lia).
      rewrite kx_low by lia. reflexivity. }
  assert (Hk2 : Z.abs (kx N k) = Z.abs (kz N k)) by (unfold kz; destruct (k =? N / 2); rewrite ?Z.abs_opp; reflexivity).
  assert (Hsq : kx N k * kx N k = kz N k * kz N k) by (unfold kz; destruct (k =? N / 2); ring).
  split; [|split].
  - intros []; unfold cpp_K, Kshort; rewrite ?Z.mul_0_l, ?Z.add_0_l; [apply Hx; lia|apply Hx; lia|exact Hz].
  - unfold cpp_dealias, dealias, Kshort. rewrite !Hx by lia. rewrite Z.mul_0_l, Z.add_0_l.
    assert (B : forall a b, Z.abs a = Z.abs b -> cpp_below N a = if below_kmax N b then 1 else 0).
    { intros a b E. unfold cpp_below, below_kmax, cpp_kmax, kmax_dealias. rewrite E. destruct (Rlt_dec _ _); reflexivity. }
    rewrite (B _ _ (eq_refl _)), (B (kx N j) _ (eq_refl _)), (B (kx N k) _ Hk2).
    destruct (below_kmax N (kx N i)), (below_kmax N (kx N j)), (below_kmax N (kz N k)); reflexivity.
  - cbv zeta. unfold knorm2. cbn [elems F3 RsumL]. unfold cpp_K, cpp_kk. rewrite !Hx by lia. rewrite Hz, Hsq.
    set (m := kx N i * kx N i + kx N j * kx N j + kz N k * kz N k).
    replace (IZR (kx N i) * IZR (kx N i) + (IZR (kx N j) * IZR (kx N j) + (IZR (kz N k) * IZR (kz N k) + 0)))%R
      with (IZR m) by (unfold m; rewrite !plus_IZR, !mult_IZR; ring).
    assert (Hm : 0 <= m) by (unfold m; nia).
    destruct (0 <? m) eqn:E.
    + apply Z.ltb_lt in E. destruct (Req_EM_T (IZR m) 0) as [e|]; [apply eq_IZR_R0 in e; lia|reflexivity].
    + apply Z.ltb_ge in E. assert (m = 0) as -> by lia. destruct (Req_EM_T (IZR 0) 0); [reflexivity|lra].
Qed.
(** The program multiplies the first velocity component with kx[i+local_1_start] and the second with kx[j].  In the
    transposed output of FFTW these are the wavenumbers of the second and of the first direction. *)
Theorem C84_layout N d ijk : cpp_K N d ijk = transposed_layout (cpp_kx N) (cpp_kz N) (swap d) ijk.
Proof. destruct ijk as [[i j] k]. destruct d; reflexivity. Qed.
Example C84_layout_example : cpp_K 8 x0 (1, 3, 2)%Z = 1 /\ transposed_layout (cpp_kx 8) (cpp_kz 8) x0 (1, 3, 2)%Z = 3.
Proof. split; reflexivity. Qed.
End Tables.

(** ** The time step *)
Section Step.
Context {I X : Type} (rfftn : pfield X -> sfield I) (irfftn : sfield I -> pfield X * sfield I) (tot : R).
Context (K : ax3 -> I -> R) (kk mask : I -> R) (nu dt : R).
Notation vec := (svec ax3 I).
Notation step := (cpp_step rfftn irfftn tot K kk mask nu dt).
Notation steps := (cpp_steps rfftn irfftn tot K kk mask nu dt).
Notation bw := (fun u x => fst (irfftn u) x / tot).
Notation vel := (velocity bw).
Notation f := (rhs rfftn bw K kk mask nu).
(** as in C84_tables *)
Hypothesis Hkk : forall k, kk k = if Req_EM_T (knorm2 F3 K k) 0 then 1 else knorm2 F3 K k.
(** the inverse transform leaves its input as it was *)
Hypothesis Hp : forall u, snd (irfftn u) = u.

(** A step is the classical Runge-Kutta step except for its first slope, which is computed with whatever the velocity arrays
    hold; they are left with the velocity of the last stage, not with that of the new U_hat. *)
Theorem C84_step s : let u := cU_hat s in
  let k1 := rhs_with rfftn bw K kk mask nu (cU s) u in
  cU_hat (step s) = fst (rk4_from dt f k1 u) /\ cU (step s) = vel (snd (rk4_from dt f k1 u)).
Proof.
  cbv zeta. rewrite (step_spec rfftn irfftn tot K kk mask nu dt Hkk Hp s). split; reflexivity.
Qed.
(** The first step is a classical Runge-Kutta step when the transforms invert each other on the initial velocity. *)
Theorem C84_first_step U0 a b : (forall d, bw (rfftn (U0 d)) = U0 d) ->
  cU_hat (step (cpp_init rfftn U0 a b)) = rk4 f dt (fun d => rfftn (U0 d)).
Proof.
  intros H. destruct (C84_step (cpp_init rfftn U0 a b)) as [E _]. rewrite E. clear E.
  unfold cpp_init. cbn [cU cU_hat].
  assert (V : U0 = vel (fun d => rfftn (U0 d))) by (extensionality d; symmetry; apply H).
  rewrite V at 1. reflexivity.
Qed.
(** Its right hand side is that of solvers/NS.py (Vortex form) and of spectralDNS3D_short.py, except that the mean mode is
    damped with the rate nu. *)
Theorem C84_rhs (m : I -> bool) b r u d k : (forall k, mask k = if m k then 1 else 0) ->
  f u d k = (fst (ComputeRHS_NS (mkTransf I X bw rfftn) K Vortex (Some m) nu (fun _ _ => C0) b r u) d k
             - (if Req_EM_T (knorm2 F3 K k) 0 then RtoC nu * u d k else C0))%C.
Proof.
  intros Hm. rewrite <- (f_short_NS (mkTransf I X bw rfftn) K m nu u b r). unfold f_short, rhs, rhs_with.
  cbn [bwd fwd].
  replace (fun d k => (RtoC (mask k) * rfftn (crossR (vel u) (vel (curl_hat K u)) d) k)%C)
    with (mask_nyquist (Some m) (ucrosscurl bw rfftn K u)).
  2:{ extensionality d'; extensionality k'. 
      change (rfftn (crossR (vel u) (vel (curl_hat K u)) d') k') with (ucrosscurl bw rfftn K u d' k').
      unfold mask_nyquist. rewrite Hm. destruct (m k'); [rewrite RtoC_1|rewrite RtoC_0]; ring. }
  rewrite Hkk. destruct (Req_EM_T (knorm2 F3 K k) 0) as [e|n].
  - rewrite e. rewrite Rmult_0_r, Rmult_1_r, RtoC_0.
    match goal with |- (?a - _ = ?b - _ - _)%C => change b with a; generalize a; intros end. ring.
  - match goal with |- (?a - _ = ?b - _ - _)%C => change b with a; generalize a; intros end. ring.
Qed.
(** k . U_hat = 0 (with the program's own factors) is preserved. *)
Theorem C84_divfree n s : divfree F3 K (cU_hat s) -> divfree F3 K (cU_hat (steps n s)).
Proof.
  assert (HG : forall v u, divfree F3 K u -> divfree F3 K (rhs_with rfftn bw K kk mask nu v u)).
  { intros v u Hu k. unfold rhs_with.
    pose proof (kdot_leray F3 K (fun d k => (RtoC (mask k) * rfftn (crossR v (vel (curl_hat K u)) d) k)%C) k) as E.
    specialize (Hu k). unfold kdot in *. cbn [elems F3 CsumL] in *.
    match type of E with ?a = _ => match type of Hu with ?b = _ =>
      transitivity (a - RtoC (nu * kk k) * b)%C; [ring|rewrite E, Hu; ring] end end. }
  assert (Hpl : forall u c v, divfree F3 K u -> divfree F3 K v -> divfree F3 K (plus u c v)).
  { intros u c v Hu Hv k. specialize (Hu k). specialize (Hv k). unfold kdot in *. cbn [elems F3 CsumL] in *.
    unfold plus. match type of Hu with ?a = _ => match type of Hv with ?b = _ =>
      transitivity (a + RtoC c * b)%C; [ring|rewrite Hu, Hv; ring] end end. }
  revert s. induction n as [|n IH]; intros s Hs; [exact Hs|]. cbn [cpp_steps]. apply IH.
  destruct (C84_step s) as [-> _]. unfold rk4_from. cbn [fst].
  set (k1 := rhs_with _ _ _ _ _ _ (cU s) (cU_hat s)).
  assert (H1 : divfree F3 K k1) by (apply HG, Hs).
  set (k2 := f (plus (cU_hat s) (dt / 2) k1)). assert (H2 : divfree F3 K k2) by (apply HG, Hpl; assumption).
  set (k3 := f (plus (cU_hat s) (dt / 2) k2)). assert (H3 : divfree F3 K k3) by (apply HG, Hpl; assumption).
  set (k4 := f (plus (cU_hat s) dt k3)). assert (H4 : divfree F3 K k4) by (apply HG, Hpl; assumption).
  replace (fun i k => (cU_hat s i k + RtoC (dt / 6) * (k1 i k + RtoC 2 * k2 i k + RtoC 2 * k3 i k + k4 i k))%C)
    with (plus (plus (plus (plus (cU_hat s) (dt/6) k1) (dt/6*2) k2) (dt/6*2) k3) (dt/6) k4).
  2:{ extensionality i; extensionality k. unfold plus. rewrite RtoC_mul. ring. }
  repeat apply Hpl; assumption.
Qed.
(** The divergence by the true wavenumbers of the layout is then what the two components fail to agree in. *)
Theorem C84_divergence n s k : divfree F3 K (cU_hat s) ->
  kdot F3 (fun d => K (swap d)) (cU_hat (steps n s)) k =
  ((RtoC (K x1 k) - RtoC (K x0 k)) * (cU_hat (steps n s) x0 k - cU_hat (steps n s) x1 k))%C.
Proof.
  intros H. pose proof (C84_divfree n s H k) as E. unfold kdot in *. cbn [elems F3 CsumL swap] in *.
  match type of E with ?a = _ => match goal with |- _ = ?r => transitivity (a + r)%C; [ring|rewrite E; ring] end end.
Qed.

(** ** Uniform flow *)
Definition damping (z : R) : R := 1 - z + z^2/2 - z^3/6 + z^4/24.
Definition last_stage (z : R) : R := 1 - z + z^2/2 - z^3/4.
(** A uniform flow is constant in time.  The program damps it, and the velocity it keeps (and prints the energy of) is not
    that of U_hat. *)
Theorem C84_uniform n s :
  rfftn (fun _ => 0) = (fun _ => C0) -> bw (fun _ => C0) = (fun _ => 0) ->
  (forall d k, knorm2 F3 K k <> 0 -> cU_hat s d k = C0) ->
  (forall d k, cU_hat (steps n s) d k = RtoC (damping (nu * dt) ^ n) * cU_hat s d k)%C /\
  cU (steps (S n) s) = vel (fun d k => RtoC (damping (nu * dt) ^ n * last_stage (nu * dt)) * cU_hat s d k)%C.
Proof.
  intros Hr Hi.
  assert (HG : forall v u, (forall d k, knorm2 F3 K k <> 0 -> u d k = C0) ->
     rhs_with rfftn bw K kk mask nu v u = fun d k => (RtoC (- nu) * u d k)%C).
  { intros v u Hu.
    assert (Zc : forall d, curl_hat K u d = fun _ => C0).
    { intros d. extensionality k. destruct (Req_EM_T (knorm2 F3 K k) 0) as [e|n0].
      - apply knorm2_0 in e. destruct d; unfold curl_hat; rewrite ?(e x0), ?(e x1), ?(e x2), ?RtoC_0; ring.
      - destruct d; unfold curl_hat; rewrite !(Hu _ k n0); ring. }
    assert (Zx : forall d, crossR v (vel (curl_hat K u)) d = fun _ => 0).
    { intros d. extensionality x. destruct d; unfold crossR, velocity; rewrite !Zc;
      rewrite (f_equal (fun g => g x) Hi); ring. }
    extensionality d; extensionality k. unfold rhs_with.
    replace (fun d k => (RtoC (mask k) * rfftn (crossR v (vel (curl_hat K u)) d) k)%C) with (fun (_ : ax3) (_ : I) => C0).
    2:{ extensionality d'; extensionality k'. rewrite Zx, Hr. ring. }
    rewrite (leray_divfree F3 K (fun _ _ => C0)) by (intros k'; unfold kdot; cbn [elems F3 CsumL]; ring).
    rewrite Hkk. destruct (Req_EM_T (knorm2 F3 K k) 0) as [e|n0].
    - rewrite Rmult_1_r, RtoC_opp. ring.
    - rewrite (Hu d k n0). ring. }
  assert (H1 : forall s, (forall d k, knorm2 F3 K k <> 0 -> cU_hat s d k = C0) ->
     cU_hat (step s) = (fun d k => RtoC (damping (nu * dt)) * cU_hat s d k)%C /\
     cU (step s) = vel (fun d k => RtoC (last_stage (nu * dt)) * cU_hat s d k)%C).
  { clear s n. intros s Hs. destruct (C84_step s) as [E1 E2]. rewrite E1, E2. clear E1 E2. unfold rk4_from. cbn [fst snd].
    set (u := cU_hat s) in *. rewrite (HG _ u Hs).
    assert (Hf : forall w, (forall d k, knorm2 F3 K k <> 0 -> w d k = C0) -> f w = fun d k => (RtoC (- nu) * w d k)%C)
      by (intros; apply HG; assumption).
    assert (Hpl : forall c, plus u c (fun d k => (RtoC (- nu) * u d k)%C) = fun d k => (RtoC (1 - c * nu) * u d k)%C).
    { intros. extensionality d; extensionality k. unfold plus. rewrite RtoC_sub, RtoC_mul, RtoC_opp, RtoC_1. ring. }
    assert (Hpl2 : forall c a, plus u c (fun d k => (RtoC (- nu) * (RtoC a * u d k))%C)
       = fun d k => (RtoC (1 - c * nu * a) * u d k)%C).
    { intros. extensionality d; extensionality k. unfold plus. rewrite RtoC_sub, !RtoC_mul, RtoC_opp, RtoC_1. ring. }
    assert (Hsc : forall a d k, knorm2 F3 K k <> 0 -> (RtoC a * u d k)%C = C0) by (intros a d k Hk; rewrite (Hs d k Hk); ring).
    rewrite Hpl. rewrite (Hf (fun d k => RtoC (1 - dt / 2 * nu) * u d k)%C (Hsc _)).
    rewrite Hpl2. rewrite (Hf (fun d k => RtoC (1 - dt / 2 * nu * (1 - dt / 2 * nu)) * u d k)%C (Hsc _)).
    rewrite Hpl2. rewrite (Hf (fun d k => RtoC (1 - dt * nu * (1 - dt / 2 * nu * (1 - dt / 2 * nu))) * u d k)%C (Hsc _)).
    split.
    - extensionality d; extensionality k.
      apply C_eq; unfold RtoC, Cmul, Cadd, damping; cbn [fst snd]; field.
    - f_equal. extensionality d; extensionality k. f_equal. f_equal. unfold last_stage. field. }
  revert s. induction n as [|n IH]; intros s Hs.
  - split; [intros d k; cbn [cpp_steps pow]; rewrite RtoC_1; ring|].
    cbn [cpp_steps pow]. rewrite Rmult_1_l. exact (proj2 (H1 s Hs)).
  - destruct (H1 s Hs) as [E1 _].
    assert (Hs' : forall d k, knorm2 F3 K k <> 0 -> cU_hat (step s) d k = C0) by (intros d k Hk; rewrite E1, (Hs d k Hk); ring).
    destruct (IH (step s) Hs') as [A B]. split.
    + intros d k. change (steps (S n) s) with (steps n (step s)). rewrite A, E1. cbn [pow]. rewrite RtoC_mul. ring.
    + change (steps (S (S n)) s) with (steps (S n) (step s)). rewrite B, E1. f_equal.
      extensionality d; extensionality k. cbn [pow]. rewrite !RtoC_mul. ring.
Qed.
Lemma damping_lt z : 0 < z <= 1 -> 0 < last_stage z < damping z /\ damping z < 1.
Proof. intros H. unfold last_stage, damping. assert (0 < z^2) by nra. assert (0 < z^3) by nra. assert (0 < z^4) by nra.
  assert (z^2 <= z) by nra. assert (z^3 <= z^2) by nra. assert (z^4 <= z^3) by nra. lra. Qed.
(** mean momentum is not conserved *)
Theorem C84_mean_refuted s d k : rfftn (fun _ => 0) = (fun _ => C0) -> bw (fun _ => C0) = (fun _ => 0) ->
  (forall d k, knorm2 F3 K k <> 0 -> cU_hat s d k = C0) -> 0 < nu * dt <= 1 -> cU_hat s d k <> C0 ->
  cU_hat (step s) d k <> cU_hat s d k.
Proof.
  intros H1 H2 H3 Hz Hn E. destruct (C84_uniform 1 s H1 H2 H3) as [A _]. specialize (A d k). cbn [cpp_steps pow] in A.
  rewrite Rmult_1_r in A. rewrite A in E. pose proof (damping_lt _ Hz) as [_ Hl].
  assert (Z : (RtoC (damping (nu * dt) - 1) * cU_hat s d k = C0)%C).
  { rewrite RtoC_sub, RtoC_1. transitivity (RtoC (damping (nu * dt)) * cU_hat s d k - cU_hat s d k)%C; [ring|].
    rewrite E. ring. }
  destruct (Cmul_eq0 _ _ Z) as [Z'|Z']; [|exact (Hn Z')]. apply RtoC_inj in Z'. lra.
Qed.
(** the printed number: the mean over the mesh of half the squared velocity, when tot is the number of points *)
Theorem C84_energy_value pts (s : cpp I X) : tot <> 0 ->
  cpp_energy tot pts s * tot = RsumL pts (fun x => RsumL (elems F3) (fun d => cU s d x ^ 2) / 2).
Proof.
  intros Ht. unfold cpp_energy. replace 0.5 with (/ 2) by lra.
  transitivity (RsumL pts (fun x => cU s x0 x * cU s x0 x + cU s x1 x * cU s x1 x + cU s x2 x * cU s x2 x) / 2); [field; exact Ht|].
  induction pts as [|p l IH]; cbn [RsumL]; [field|]. rewrite <- IH. cbn [RsumL elems F3]. field.
Qed.
(** the energy printed after the first step is not that of the velocity in U_hat, which is damping^2 times the initial one *)
Theorem C84_energy_refuted pts s : rfftn (fun _ => 0) = (fun _ => C0) -> bw (fun _ => C0) = (fun _ => 0) ->
  (forall c u x, bw (fun k => RtoC c * u k)%C x = c * bw u x) ->
  (forall d k, knorm2 F3 K k <> 0 -> cU_hat s d k = C0) -> cU s = vel (cU_hat s) ->
  cpp_energy tot pts (step s) = last_stage (nu * dt) ^ 2 * cpp_energy tot pts s /\
  cpp_energy tot pts (mkCpp (vel (cU_hat (step s))) (cU_hat s) (cU_hat s) (cU_hat s))
    = damping (nu * dt) ^ 2 * cpp_energy tot pts s.
Proof.
  intros H1 H2 Hlin H3 Hs. destruct (C84_uniform 0 s H1 H2 H3) as [_ B]. cbn [cpp_steps pow] in B.
  destruct (C84_uniform 1 s H1 H2 H3) as [A _]. cbn [cpp_steps pow] in A.
  assert (Q : forall c (v w : pvec ax3 X), (forall d x, v d x = c * w d x) ->
     RsumL pts (fun x => v x0 x * v x0 x + v x1 x * v x1 x + v x2 x * v x2 x)
     = c ^ 2 * RsumL pts (fun x => w x0 x * w x0 x + w x1 x * w x1 x + w x2 x * w x2 x)).
  { intros c v w Hv. induction pts as [|p l IH]; cbn [RsumL]; [ring|]. rewrite IH, !Hv. ring. }
  unfold cpp_energy. split.
  - rewrite (Q (last_stage (nu * dt)) (cU (step s)) (cU s)); [ring|]. intros d x. rewrite B, Hs. unfold velocity.
    rewrite Rmult_1_l. apply (Hlin (last_stage (nu * dt)) (cU_hat s d) x).
  - cbn [cU]. rewrite (Q (damping (nu * dt)) (vel (cU_hat (step s))) (cU s)); [ring|]. intros d x. rewrite Hs. unfold velocity.
    replace (cU_hat (step s) d) with (fun k => (RtoC (damping (nu * dt)) * cU_hat s d k)%C).
    2:{ extensionality k. rewrite A, Rmult_1_r. reflexivity. }
    apply (Hlin (damping (nu * dt)) (cU_hat s d) x).
Qed.
End Step.

(** ** Transposed layout *)
Section Swap.
Context {I X : Type} (rfftn : pfield X -> sfield I) (irfftn : sfield I -> pfield X * sfield I) (tot : R).
Context (K : ax3 -> I -> R) (kk mask : I -> R) (nu dt : R).
Definition exchange (s : cpp I X) : cpp I X :=
  mkCpp (fun d => cU s (swap d)) (fun d => cU_hat s (swap d)) (fun d => cU_hat0 s (swap d)) (fun d => cU_hat1 s (swap d)).
Hypothesis Hodd : forall u x, fst (irfftn (fun k => - u k)%C) x = - fst (irfftn u) x.
Lemma exchange_stage s rk : exchange (cpp_stage rfftn irfftn tot K kk mask nu dt s rk) =
  cpp_stage rfftn irfftn tot (fun d => K (swap d)) kk mask nu dt (exchange s) rk.
Proof.
  unfold cpp_stage.
  set (q := if Nat.ltb 0 rk then cpp_ifft irfftn tot (cU_hat s) else (cU s, cU_hat s)).
  assert (Hq : (if Nat.ltb 0 rk then cpp_ifft irfftn tot (cU_hat (exchange s)) else (cU (exchange s), cU_hat (exchange s)))
               = ((fun d => fst q (swap d)), (fun d => snd q (swap d))))
    by (unfold q; destruct (Nat.ltb 0 rk); reflexivity).
  rewrite Hq. clear Hq. destruct q as [U u]. cbn [fst snd swap].
  set (c := fun (d : ax3) (k : I) => match d with
    | x0 => (Ci * (RtoC (K x1 k) * u x2 k - RtoC (K x2 k) * u x1 k))%C
    | x1 => (Ci * (RtoC (K x2 k) * u x0 k - RtoC (K x0 k) * u x2 k))%C
    | x2 => (Ci * (RtoC (K x0 k) * u x1 k - RtoC (K x1 k) * u x0 k))%C end).
  set (c' := fun (d : ax3) (k : I) => match d with
    | x0 => (Ci * (RtoC (K x0 k) * u x2 k - RtoC (K x2 k) * u x0 k))%C
    | x1 => (Ci * (RtoC (K x2 k) * u x1 k - RtoC (K x1 k) * u x2 k))%C
    | x2 => (Ci * (RtoC (K x1 k) * u x0 k - RtoC (K x0 k) * u x1 k))%C end).
  assert (Hc : c' = fun d k => (- c (swap d) k)%C) by (extensionality d; extensionality k; destruct d; cbn; ring).
  assert (Hw : fst (cpp_ifft irfftn tot c') = fun d x => - fst (cpp_ifft irfftn tot c) (swap d) x).
  { rewrite Hc. extensionality d; extensionality x. unfold cpp_ifft. cbn [fst]. rewrite Hodd. unfold Rdiv. ring. }
  rewrite Hw. clear Hw Hc c'. generalize (fst (cpp_ifft irfftn tot c)). intros w. clear c.
  set (t0 := rfftn (fun x => U x1 x * w x2 x - U x2 x * w x1 x)).
  set (t1 := rfftn (fun x => U x2 x * w x0 x - U x0 x * w x2 x)).
  set (t2 := rfftn (fun x => U x0 x * w x1 x - U x1 x * w x0 x)).
  assert (E0 : rfftn (fun x => U x0 x * - w x2 x - U x2 x * - w x0 x) = t1)
    by (unfold t1; f_equal; extensionality x; ring).
  assert (E1 : rfftn (fun x => U x2 x * - w x1 x - U x1 x * - w x2 x) = t0)
    by (unfold t0; f_equal; extensionality x; ring).
  assert (E2 : rfftn (fun x => U x1 x * - w x0 x - U x0 x * - w x1 x) = t2)
    by (unfold t2; f_equal; extensionality x; ring).
  unfold exchange. cbn [cU cU_hat cU_hat0 cU_hat1].
  f_equal.
  - destruct (Nat.ltb rk 3); [|reflexivity]. extensionality d; extensionality k.
    destruct d; cbn [swap]; rewrite ?E0, ?E1, ?E2; fold t0 t1 t2; unfold Cdiv; ring.
  - extensionality d; extensionality k.
    destruct d; cbn [swap]; rewrite ?E0, ?E1, ?E2; fold t0 t1 t2; unfold Cdiv; ring.
Qed.
Lemma exchange_step s : exchange (cpp_step rfftn irfftn tot K kk mask nu dt s) =
  cpp_step rfftn irfftn tot (fun d => K (swap d)) kk mask nu dt (exchange s).
Proof.
  unfold cpp_step. cbn [fold_left].
  set (s0 := mkCpp (cU s) (cU_hat s) (cU_hat s) (cU_hat s)).
  change (mkCpp (cU (exchange s)) (cU_hat (exchange s)) (cU_hat (exchange s)) (cU_hat (exchange s))) with (exchange s0).
  rewrite <- !exchange_stage. match goal with |- exchange (mkCpp (cU ?S) _ _ _) = _ => generalize S end. intros S. reflexivity.
Qed.
(** With the wavenumbers of the other layout the program would do the same to the other velocity component: what it computes
    is the flow (V, U, W), whatever the transforms leave in their input. *)
Theorem C84_swapped n s :
  exchange (cpp_steps rfftn irfftn tot K kk mask nu dt n s) =
  cpp_steps rfftn irfftn tot (fun d => K (swap d)) kk mask nu dt n (exchange s).
Proof.
  assert (E : forall K' m s', cpp_steps rfftn irfftn tot K' kk mask nu dt (S m) s' =
    cpp_steps rfftn irfftn tot K' kk mask nu dt m (cpp_step rfftn irfftn tot K' kk mask nu dt s')) by reflexivity.
  revert s. induction n as [|n IH]; intros s; [reflexivity|]. rewrite !E, IH, exchange_step. reflexivity.
Qed.
End Swap.

(** Why the built-in test case does not show it: the exchanged Taylor-Green vortex is the Taylor-Green vortex moved by a
    quarter period in x and y. *)
Theorem C84_taylor_green d x y z :
  cpp_initial (swap d) x y z = cpp_initial d (x - PI / 2) (y - PI / 2) z.
Proof.
  assert (S : forall t, sin (t - PI / 2) = - cos t) by (intros; rewrite sin_minus, sin_PI2, cos_PI2; ring).
  assert (Co : forall t, cos (t - PI / 2) = sin t) by (intros; rewrite cos_minus, sin_PI2, cos_PI2; ring).
  destruct d; cbn [swap cpp_initial]; rewrite ?S, ?Co; ring.
Qed.

(** ** Two modes on a mesh of four points *)
(** The part of the 4 x 4 x 4 transform that acts on fields of one coordinate: the mean and wavenumber 1 (wavenumber 2 is
    removed by the mask); points 0, pi/2, pi, 3 pi/2; [wv p] = exp(i x_p). *)
Inductive pt := p0 | p1 | p2 | p3.
Definition wv (p : pt) : C := match p with p0 => C1 | p1 => Ci | p2 => (- C1)%C | p3 => (- Ci)%C end.
Definition r4 (f : pt -> R) (k : bool) : C :=
  if k then (RtoC (f p0) * C1 - RtoC (f p1) * Ci - RtoC (f p2) * C1 + RtoC (f p3) * Ci)%C
  else RtoC (f p0 + f p1 + f p2 + f p3).
Definition ir4 (u : bool -> C) : (pt -> R) * (bool -> C) := (fun p => Re (u false) + 2 * Re (u true * wv p)%C, u).
(** they invert each other on such fields, up to the factor 4 *)
Example C84_r4 (u : bool -> C) : Im (u false) = 0 -> r4 (fun p => fst (ir4 u) p / 4) = u.
Proof.
  intros H. extensionality k. destruct k; unfold r4, ir4; cbn [fst];
    apply C_eq; unfold Re, Im, wv, RtoC, Csub, Cadd, Cmul, Copp, C1, Ci in *; cbn [fst snd]; try rewrite H; field.
Qed.

(** direction of the coordinate: [Kdir d] is 1 for wavenumber 1 in direction d *)
Definition Kdir (e : ax3) (d : ax3) (k : bool) : R := if k then (if eqb3 e d then 1 else 0) else 0.
Lemma Kdir_norm e k : knorm2 F3 (Kdir e) k = if k then 1 else 0.
Proof. unfold knorm2, Kdir. cbn [elems F3 RsumL]. destruct k, e; cbn; ring. Qed.
Lemma Kdir_kk e (k : bool) : 1 = if Req_EM_T (knorm2 F3 (Kdir e) k) 0 then 1 else knorm2 F3 (Kdir e) k.
Proof. rewrite Kdir_norm. destruct k, (Req_EM_T _ 0); lra. Qed.

(** a shear wave in z, velocity along x, in a uniform flow along z *)
Definition flow (c : R) (a : C) : svec ax3 bool :=
  fun d k => match d, k with x2, false => RtoC c | x0, true => a | _, _ => C0 end.
Notation bw4 := (fun u x => fst (ir4 u) x / 4).
Lemma flow_divfree c a : divfree F3 (Kdir x2) (flow c a).
Proof. intros k. unfold kdot, Kdir, flow. cbn [elems F3 CsumL eqb3]. destruct k; rewrite ?RtoC_0, ?RtoC_1; ring. Qed.
(** the projection for a wave in direction e: it removes component e *)
Lemma Kdir_leray e (t : svec ax3 bool) d k :
  leray F3 (Kdir e) t d k = if k then (if eqb3 e d then C0 else t d k) else t d k.
Proof.
  unfold leray. rewrite Kdir_norm. destruct k; destruct (Req_EM_T _ 0) as [E|n]; try lra; [|reflexivity].
  unfold kdot, Kdir. cbn [elems F3 CsumL]. destruct e, d; cbn [eqb3]; rewrite ?RtoC_0, ?RtoC_1; unfold Cdiv;
    replace (Cinv C1) with C1 by (apply C_eq; unfold Cinv, C1; cbn [fst snd]; field); ring.
Qed.
Lemma Kdir_rhs e nu v u d k : rhs_with r4 bw4 (Kdir e) (fun _ => 1) (fun _ => 1) nu v u d k =
  ((if k then (if eqb3 e d then C0 else r4 (crossR v (velocity bw4 (curl_hat (Kdir e) u)) d) k)
   else r4 (crossR v (velocity bw4 (curl_hat (Kdir e) u)) d) k) - RtoC nu * u d k)%C.
Proof.
  unfold rhs_with. rewrite Kdir_leray, Rmult_1_r, RtoC_1. destruct k; [destruct (eqb3 e d)|]; ring.
Qed.
Lemma bw4_0 : bw4 (fun _ => C0) = fun _ => 0.
Proof. extensionality x. unfold ir4, Re, Cmul, C0. cbn [fst snd]. field. Qed.
Lemma r4_0 k : r4 (fun _ => 0) k = C0.
Proof. destruct k; unfold r4; apply C_eq; unfold RtoC, Csub, Cadd, Cmul, Copp, C0, C1, Ci; cbn [fst snd]; ring. Qed.
Lemma flow_rhs c' a' c a :
  rhs_with r4 bw4 (Kdir x2) (fun _ => 1) (fun _ => 1) 0 (velocity bw4 (flow c' a')) (flow c a) =
  flow (1/2 * (Im a' * Re a - Re a' * Im a)) (RtoC (c' / 4) * (- Ci * a))%C.
Proof.
  assert (Cx : curl_hat (Kdir x2) (flow c a) x0 = fun _ => C0)
    by (extensionality k; unfold curl_hat, Kdir, flow; destruct k; cbn [eqb3]; rewrite ?RtoC_0, ?RtoC_1; ring).
  assert (Cz : curl_hat (Kdir x2) (flow c a) x2 = fun _ => C0)
    by (extensionality k; unfold curl_hat, Kdir, flow; destruct k; cbn [eqb3]; rewrite ?RtoC_0, ?RtoC_1; ring).
  assert (Cy : curl_hat (Kdir x2) (flow c a) x1 = fun k => if k then (Ci * a)%C else C0)
    by (extensionality k; unfold curl_hat, Kdir, flow; destruct k; cbn [eqb3]; rewrite ?RtoC_0, ?RtoC_1; ring).
  assert (W0 : velocity bw4 (curl_hat (Kdir x2) (flow c a)) x0 = fun _ => 0) by (unfold velocity; rewrite Cx; apply bw4_0).
  assert (W2 : velocity bw4 (curl_hat (Kdir x2) (flow c a)) x2 = fun _ => 0) by (unfold velocity; rewrite Cz; apply bw4_0).
  assert (W1 : velocity bw4 (curl_hat (Kdir x2) (flow c a)) x1 = fun p => Re (Ci * a * wv p)%C / 2)
    by (unfold velocity; rewrite Cy; extensionality p; unfold ir4; cbn [fst]; unfold Re at 1, C0; cbn [fst]; field).
  assert (V0 : velocity bw4 (flow c' a') x0 = fun p => Re (a' * wv p)%C / 2)
    by (unfold velocity, flow, ir4; extensionality p; cbn [fst]; unfold Re at 1, C0; cbn [fst]; field).
  assert (V2 : velocity bw4 (flow c' a') x2 = fun p => c' / 4).
  { unfold velocity, flow, ir4. extensionality p. cbn [fst]. unfold Re, RtoC, Cmul, C0. cbn [fst snd]. field. }
  extensionality d; extensionality k. rewrite Kdir_rhs, RtoC_0.
  set (w := velocity bw4 (curl_hat (Kdir x2) (flow c a))) in *. set (v := velocity bw4 (flow c' a')) in *.
  assert (X1 : crossR v w x1 = fun _ => 0)
    by (extensionality x; unfold crossR; rewrite (f_equal (fun g => g x) W0), (f_equal (fun g => g x) W2); ring).
  assert (X0 : crossR v w x0 = fun p => - (c' / 8) * Re (Ci * a * wv p)%C).
  { extensionality x; unfold crossR.
    rewrite (f_equal (fun g => g x) W1), (f_equal (fun g => g x) W2), (f_equal (fun g => g x) V2). cbv beta. field. }
  assert (X2 : crossR v w x2 = fun p => Re (a' * wv p)%C * Re (Ci * a * wv p)%C / 4).
  { extensionality x; unfold crossR.
    rewrite (f_equal (fun g => g x) W1), (f_equal (fun g => g x) W0), (f_equal (fun g => g x) V0). cbv beta. field. }
  destruct d; cbn [eqb3]; rewrite ?X0, ?X1, ?X2, ?r4_0; clear; unfold flow.
  - destruct a as [a1 a2], k; unfold r4, wv; apply C_eq;
      unfold Re, RtoC, Csub, Cadd, Cmul, Copp, C0, C1, Ci; cbn [fst snd]; field.
  - destruct k; ring.
  - destruct a as [a1 a2], a' as [b1 b2], k; unfold r4, wv; apply C_eq;
      unfold Re, Im, RtoC, Csub, Cadd, Cmul, Copp, C0, C1, Ci; cbn [fst snd]; field.
Qed.
Lemma flow_plus c a h c' a' : plus (flow c a) h (flow c' a') = flow (c + h * c') (a + RtoC h * a')%C.
Proof. extensionality d; extensionality k. unfold plus, flow. destruct d, k; rewrite ?RtoC_add, ?RtoC_mul; ring. Qed.
Lemma flow_f c a : rhs r4 bw4 (Kdir x2) (fun _ => 1) (fun _ => 1) 0 (flow c a) = flow 0 (RtoC (c / 4) * (- Ci * a))%C.
Proof. unfold rhs. rewrite flow_rhs. f_equal. ring. Qed.

(** Viscosity 0, dt = 1, mean velocity 1 (U_hat is not scaled: 4 at the mean).  The uniform part of the flow is constant for
    the Runge-Kutta method; the program changes it in its second step, because the first slope of that step combines the
    vorticity of U_hat with the velocity of the last stage before. *)
Theorem C84_stale_refuted : let s := mkCpp (velocity bw4 (flow 4 C1)) (flow 4 C1) (flow 4 C1) (flow 4 C1) in
  let f := rhs r4 bw4 (Kdir x2) (fun _ => 1) (fun _ => 1) 0 in
  cU_hat (cpp_steps r4 ir4 4 (Kdir x2) (fun _ => 1) (fun _ => 1) 0 1 2 s) x2 false = RtoC (4 + 1/1152) /\
  rk4 f 1 (rk4 f 1 (flow 4 C1)) x2 false = RtoC 4 /\
  cU_hat (cpp_steps r4 ir4 4 (Kdir x2) (fun _ => 1) (fun _ => 1) 0 1 2 s) <> rk4 f 1 (rk4 f 1 (flow 4 C1)).
Proof.
  cbv zeta.
  set (s := mkCpp (velocity bw4 (flow 4 C1)) (flow 4 C1) (flow 4 C1) (flow 4 C1)).
  set (f := rhs r4 bw4 (Kdir x2) (fun _ => 1) (fun _ => 1) 0).
  pose proof (fun s => C84_step r4 ir4 4 (Kdir x2) (fun _ => 1) (fun _ => 1) 0 1 (Kdir_kk x2) (fun u => eq_refl) s) as St.
  cbv zeta in St.
  assert (R4 : forall c a b, rk4_from 1 f (flow c a) (flow 4 b) =
     let a2 := (RtoC ((4 + 1/2 * c) / 4) * (- Ci * (b + RtoC (1/2) * a)))%C in
     let a3 := (- Ci * (b + RtoC (1/2) * a2))%C in
     let a4 := (- Ci * (b + a3))%C in
     (flow (4 + 1/6 * c) (b + RtoC (1/6) * (a + RtoC 2 * a2 + RtoC 2 * a3 + a4))%C, flow 4 (b + a3)%C)).
  { intros c a b. cbv zeta. unfold rk4_from. unfold f. rewrite flow_plus, flow_f, flow_plus, flow_f.
    rewrite !flow_plus, flow_f.
    assert (Q : forall c1 c2 a1 a2 a3 a4 b', c1 = 0 -> c2 = 0 ->
      (fun (i : ax3) (k : bool) => (flow 4 b' i k + RtoC (1 / 6) *
        (flow c a1 i k + RtoC 2 * flow c1 a2 i k + RtoC 2 * flow c2 a3 i k + flow 0 a4 i k))%C) =
      flow (4 + 1/6 * c) (b' + RtoC (1/6) * (a1 + RtoC 2 * a2 + RtoC 2 * a3 + a4))%C).
    { intros c1 c2 a1 a2 a3 a4 b' -> ->. extensionality i; extensionality k.
      destruct i, k; unfold flow; try ring. rewrite !RtoC_add, !RtoC_mul, RtoC_0. ring. }
    rewrite Q by reflexivity.
    replace (4 + 1 / 2 * 0) with 4 by lra. replace (4 + 1 * 0) with 4 by lra. replace (4 / 4) with 1 by field.
    rewrite RtoC_1. replace (1 / 1) with 1 by field.
    f_equal; f_equal; ring. }
  assert (R4' : forall c a b a2 a3 a4, a2 = (RtoC ((4 + 1/2 * c) / 4) * (- Ci * (b + RtoC (1/2) * a)))%C ->
     a3 = (- Ci * (b + RtoC (1/2) * a2))%C -> a4 = (- Ci * (b + a3))%C -> rk4_from 1 f (flow c a) (flow 4 b) =
     (flow (4 + 1/6 * c) (b + RtoC (1/6) * (a + RtoC 2 * a2 + RtoC 2 * a3 + a4))%C, flow 4 (b + a3)%C))
    by (intros c a b a2 a3 a4 -> -> ->; apply R4).
  assert (K1 : flow (1/2 * (Im C1 * Re C1 - Re C1 * Im C1)) (RtoC (4 / 4) * (- Ci * C1))%C = flow 0 (0, -1)).
  { f_equal; [unfold Re, Im, C1; cbn [fst snd]; field|].
    apply C_eq; unfold RtoC, Cmul, Copp, C1, Ci; cbn [fst snd]; field. }
  assert (E0 : rk4_from 1 f (flow 0 (0, -1)) (flow 4 C1) = (flow 4 (13/24, -5/6), flow 4 (1/2, -3/4))).
  { rewrite (R4' 0 (0, -1) C1 (-1/2, -1) (-1/2, -3/4) (-3/4, -1/2));
      try (apply C_eq; unfold RtoC, Cadd, Cmul, Copp, C1, Ci; cbn [fst snd]; field).
    replace (4 + 1 / 6 * 0) with 4 by lra.
    f_equal; f_equal; apply C_eq; unfold RtoC, Cadd, Cmul, C1; cbn [fst snd]; field. }
  assert (E1 : cU_hat (cpp_step r4 ir4 4 (Kdir x2) (fun _ => 1) (fun _ => 1) 0 1 s) = flow 4 (13/24, -5/6)).
  { rewrite (proj1 (St s)). unfold s. cbn [cU cU_hat]. rewrite flow_rhs, K1. exact (f_equal fst E0). }
  assert (E2 : cU (cpp_step r4 ir4 4 (Kdir x2) (fun _ => 1) (fun _ => 1) 0 1 s) = velocity bw4 (flow 4 (1/2, -3/4))).
  { rewrite (proj2 (St s)). unfold s. cbn [cU cU_hat]. rewrite flow_rhs, K1.
    exact (f_equal (fun q => velocity bw4 (snd q)) E0). }
  assert (A : cU_hat (cpp_steps r4 ir4 4 (Kdir x2) (fun _ => 1) (fun _ => 1) 0 1 2 s) x2 false = RtoC (4 + 1/1152)).
  { cbn [cpp_steps]. rewrite (proj1 (St _)). rewrite E1, E2, flow_rhs. fold f. rewrite R4. cbv zeta. cbn [fst].
    unfold flow. f_equal. unfold Re, Im. cbn [fst snd]. field. }
  assert (Rk : forall b, rk4 f 1 (flow 4 b) = fst (rk4_from 1 f (f (flow 4 b)) (flow 4 b))) by reflexivity.
  assert (B : rk4 f 1 (rk4 f 1 (flow 4 C1)) x2 false = RtoC 4).
  { rewrite Rk. unfold f at 2. rewrite flow_f. fold f. rewrite R4. cbv zeta. cbn [fst].
    replace (4 + 1 / 6 * 0) with 4 by lra. rewrite Rk. unfold f at 2. rewrite flow_f. fold f. rewrite R4. cbv zeta.
    cbn [fst]. unfold flow. f_equal. lra. }
  split; [exact A|]. split; [exact B|]. intros E. rewrite E, B in A. apply RtoC_inj in A. lra.
Qed.

(** A shear wave U(y) in a uniform flow V.  In FFTW's layout the program attributes the wave to the wrong direction and sees
    a flow without vorticity: it leaves it unchanged for ever, although it is advected (nu = 0). *)
Definition flow_y (c : R) (a : C) : svec ax3 bool :=
  fun d k => match d, k with x1, false => RtoC c | x0, true => a | _, _ => C0 end.
Theorem C84_swap_refuted n dt : let u := flow_y 4 C1 in let s := mkCpp (velocity bw4 u) u u u in
  let true_K := fun d => Kdir x0 (swap d) in
  divfree F3 true_K u /\
  rhs r4 bw4 true_K (fun _ => 1) (fun _ => 1) 0 u x0 true = (- Ci)%C /\
  cU_hat (cpp_steps r4 ir4 4 (Kdir x0) (fun _ => 1) (fun _ => 1) 0 dt n s) = u.
Proof.
  cbv zeta. split; [|split].
  - intros k. unfold kdot, Kdir, flow_y. cbn [elems F3 CsumL eqb3 swap]. destruct k; rewrite ?RtoC_0, ?RtoC_1; ring.
  - assert (E : (fun d => Kdir x0 (swap d)) = Kdir x1) by (extensionality d; extensionality k; destruct d, k; reflexivity).
    rewrite E. unfold rhs. rewrite Kdir_rhs. cbn [eqb3]. rewrite RtoC_0.
    assert (Cz : curl_hat (Kdir x1) (flow_y 4 C1) x2 = fun k => if k then (- Ci)%C else C0).
    { extensionality k. unfold curl_hat, Kdir, flow_y. destruct k; cbn [eqb3]; rewrite ?RtoC_0, ?RtoC_1; ring. }
    assert (Cy : curl_hat (Kdir x1) (flow_y 4 C1) x1 = fun _ => C0).
    { extensionality k. unfold curl_hat, Kdir, flow_y. destruct k; cbn [eqb3]; rewrite ?RtoC_0, ?RtoC_1; ring. }
    unfold crossR, velocity. rewrite Cy, Cz. unfold flow_y, r4, ir4, wv. cbn [fst].
    apply C_eq; unfold Re, RtoC, Csub, Cadd, Cmul, Copp, C0, C1, Ci; cbn [fst snd]; field.
  - assert (H : forall v, rhs_with r4 bw4 (Kdir x0) (fun _ => 1) (fun _ => 1) 0 v (flow_y 4 C1) = fun _ _ => C0).
    { intros v. extensionality d; extensionality k. rewrite Kdir_rhs.
      assert (Z : forall e, curl_hat (Kdir x0) (flow_y 4 C1) e = fun _ => C0).
      { intros e. extensionality k'. unfold curl_hat, Kdir, flow_y. destruct e, k'; cbn [eqb3]; rewrite ?RtoC_0, ?RtoC_1; ring. }
      assert (Zx : crossR v (velocity bw4 (curl_hat (Kdir x0) (flow_y 4 C1))) d = fun _ => 0).
      { extensionality x. pose proof (f_equal (fun g => g x) bw4_0) as B. cbv beta in B.
        destruct d; unfold crossR, velocity; rewrite !Z, B; ring. }
      rewrite Zx, r4_0, RtoC_0. destruct k; [destruct (eqb3 x0 d)|]; ring. }
    assert (G : forall m s, cU_hat s = flow_y 4 C1 ->
       cU_hat (cpp_steps r4 ir4 4 (Kdir x0) (fun _ => 1) (fun _ => 1) 0 dt m s) = flow_y 4 C1).
    { induction m as [|m IH]; intros s Hs; [exact Hs|]. cbn [cpp_steps]. apply IH.
      destruct (C84_step r4 ir4 4 (Kdir x0) (fun _ => 1) (fun _ => 1) 0 dt (Kdir_kk x0) (fun u => eq_refl) s) as [-> _].
      rewrite Hs, H. unfold rk4_from. cbn [fst].
      assert (Z : forall h, plus (flow_y 4 C1) h (fun _ _ => C0) = flow_y 4 C1)
        by (intros h; extensionality i; extensionality k; unfold plus; ring).
      unfold rhs. rewrite !Z, !H, !Z, !H, !Z, !H. extensionality i; extensionality k. ring. }
    apply G. reflexivity.
Qed.

(** FFTW does not promise that a multidimensional c2r transform keeps its input.  With a transform that leaves zeros the
    first step is no Runge-Kutta step: one uniform mode, nu = dt = 1. *)
Definition ir_zero (u : unit -> C) : (unit -> R) * (unit -> C) := (fun _ => Re (u tt), fun _ => C0).
Lemma zero_stage (s : cpp unit unit) rk v w :
  (if Nat.ltb 0 rk then cpp_ifft ir_zero 1 (cU_hat s) else (cU s, cU_hat s)) = (v, w) ->
  cpp_stage (fun g (_ : unit) => RtoC (g tt)) ir_zero 1 (fun _ _ => 0) (fun _ => 1) (fun _ => 1) 1 1 s rk =
  mkCpp v (if Nat.ltb rk 3 then (fun d k => cU_hat0 s d k - RtoC (nth rk cpp_b 0%R) * w d k)%C else w) (cU_hat0 s)
    (fun d k => cU_hat1 s d k - RtoC (nth rk cpp_a 0%R) * w d k)%C.
Proof.
  intros E. unfold cpp_stage. rewrite E. clear E.
  set (c := fst (cpp_ifft ir_zero 1 _)).
  assert (Hc : forall d x, c d x = 0).
  { intros d x. unfold c, cpp_ifft, ir_zero. cbn [fst]. destruct d; rewrite !RtoC_0;
    unfold Re, Cmul, Csub, Cadd, Copp, C0, Ci; cbn [fst snd]; field. }
  f_equal.
  - destruct (Nat.ltb rk 3); [|reflexivity]. extensionality d; extensionality k. destruct d; rewrite !Hc;
    rewrite !Rmult_0_r, !Rminus_0_r;
    replace (1 * 1 * 1) with 1 by lra; rewrite !RtoC_0, RtoC_1; unfold Cdiv; ring.
  - extensionality d; extensionality k. destruct d; rewrite !Hc;
    rewrite !Rmult_0_r, !Rminus_0_r;
    replace (1 * 1 * 1) with 1 by lra; rewrite !RtoC_0, RtoC_1; unfold Cdiv; ring.
Qed.
Theorem C84_overwritten_refuted : exists s : cpp unit unit,
  let bw := fun u x => fst (ir_zero u) x / 1 in let fw := fun g (_ : unit) => RtoC (g tt) in
  cU s = velocity bw (cU_hat s) /\
  cU_hat (cpp_step fw ir_zero 1 (fun _ _ => 0) (fun _ => 1) (fun _ => 1) 1 1 s) x0 tt = RtoC (5/6) /\
  rk4 (rhs fw bw (fun _ _ => 0) (fun _ => 1) (fun _ => 1) 1) 1 (cU_hat s) x0 tt = RtoC (3/8).
Proof.
  exists (mkCpp (fun _ _ => 1) (fun _ _ => C1) (fun _ _ => C1) (fun _ _ => C1)). cbv zeta. split; [|split].
  - extensionality d; extensionality x. unfold velocity, ir_zero, Re, C1. cbn. field.
  - unfold cpp_step. cbn [fold_left cU cU_hat].
    erewrite (zero_stage _ 0%nat) by reflexivity. erewrite (zero_stage _ 1%nat) by reflexivity.
    erewrite (zero_stage _ 2%nat) by reflexivity. erewrite (zero_stage _ 3%nat) by reflexivity.
    unfold ir_zero. cbn [cU cU_hat cU_hat0 cU_hat1 Nat.ltb Nat.leb nth cpp_a cpp_b snd].
    apply C_eq; unfold RtoC, Csub, Cadd, Cmul, Copp, C0, C1; cbn [fst snd]; field.
  - set (g := rhs (fun g (_ : unit) => RtoC (g tt)) (fun u x => fst (ir_zero u) x / 1) (fun _ _ => 0) (fun _ => 1) (fun _ => 1) 1).
    assert (Hg : forall u, g u = fun d k => (- u d k)%C).
    { intros u. extensionality d; extensionality k. unfold g, rhs, rhs_with, leray.
      assert (E : knorm2 F3 (fun _ _ : _ => 0) k = 0) by (unfold knorm2; cbn [elems F3 RsumL]; ring).
      rewrite E. destruct (Req_EM_T 0 0) as [_|n]; [|lra].
      destruct d; unfold crossR, velocity, curl_hat, ir_zero; cbn [fst];
      apply C_eq; unfold Re, RtoC, Csub, Cadd, Cmul, Copp, Ci; cbn [fst snd]; field. }
    assert (P : forall h c, plus (fun _ _ => C1) h (fun _ _ => RtoC c) = fun (_ : ax3) (_ : unit) => RtoC (1 + h * c)).
    { intros h c. extensionality d; extensionality k. unfold plus. rewrite RtoC_add, RtoC_mul, RtoC_1. reflexivity. }
    assert (Hc : forall c, g (fun _ _ => RtoC c) = fun _ _ => RtoC (- c)).
    { intros c. rewrite Hg. extensionality d; extensionality k. rewrite RtoC_opp. reflexivity. }
    assert (K1 : rk4_k1 g (fun _ _ => C1) = fun _ _ => RtoC (-1)) by (apply (Hc 1)).
    assert (K2 : rk4_k2 g 1 (fun _ _ => C1) = fun _ _ => RtoC (-1/2)).
    { unfold rk4_k2. rewrite K1, P, Hc. extensionality d; extensionality k. f_equal. lra. }
    assert (K3 : rk4_k3 g 1 (fun _ _ => C1) = fun _ _ => RtoC (-3/4)).
    { unfold rk4_k3. rewrite K2, P, Hc. extensionality d; extensionality k. f_equal. lra. }
    assert (K4 : rk4_k4 g 1 (fun _ _ => C1) = fun _ _ => RtoC (-1/4)).
    { unfold rk4_k4. rewrite K3, P, Hc. extensionality d; extensionality k. f_equal. lra. }
    cbn [cU_hat]. unfold rk4. rewrite K1, K2, K3, K4.
    apply C_eq; unfold RtoC, Cadd, Cmul, C1; cbn [fst snd]; field.
Qed.

(** the hypotheses of the section on uniform flow hold for the four point transforms *)
Example C84_uniform_example : let u : svec ax3 bool := fun d k => if k then C0 else C1 in
  let s := mkCpp (velocity bw4 u) u u u in
  cU_hat (cpp_steps r4 ir4 4 (Kdir x2) (fun _ => 1) (fun _ => 1) 1 1 2 s) x1 false = RtoC (9/64).
Proof.
  cbv zeta.
  destruct (C84_uniform r4 ir4 4 (Kdir x2) (fun _ => 1) (fun _ => 1) 1 1 (Kdir_kk x2) (fun u => eq_refl) 2
    (let u : svec ax3 bool := fun _ k => if k then C0 else C1 in mkCpp (velocity bw4 u) u u u)) as [H _].
  - extensionality k. destruct k; unfold r4; apply C_eq; unfold RtoC, Csub, Cadd, Cmul, Copp, C0, C1, Ci; cbn [fst snd]; ring.
  - extensionality x. unfold ir4, Re, Cmul, C0. cbn [fst snd]. field.
  - intros d k. rewrite Kdir_norm. destruct k; [reflexivity|lra].
  - cbv zeta in H. rewrite H. cbn [cU_hat]. unfold damping. apply C_eq; unfold RtoC, Cmul, C1; cbn [fst snd pow]; field.
Qed.

Print Assumptions C84_tables.
Print Assumptions C84_layout.
Print Assumptions C84_step.
Print Assumptions C84_first_step.
Print Assumptions C84_rhs.
Print Assumptions C84_divfree.
Print Assumptions C84_divergence.
Print Assumptions C84_uniform.
Print Assumptions C84_mean_refuted.
Print Assumptions C84_energy_value.
Print Assumptions C84_energy_refuted.
Print Assumptions C84_swapped.
Print Assumptions C84_taylor_green.
Print Assumptions C84_stale_refuted.
Print Assumptions C84_swap_refuted.
Print Assumptions C84_overwritten_refuted.
