(** C50, C64: forcing and initialisation of the isotropic turbulence demo. *)
From Coq Require Import Reals Lra Lia List FunctionalExtensionality.
From Verif Require Import Base.Cplx Base.Sums Base.Fin Spec.Env Spec.Fourier Spec.Energy Model.Maths Model.NS Model.VV Model.Isotropic
  Model.Integrators Model.Integrate Model.Solve Model.Run Proofs.Common Proofs.NSProofs Proofs.VVProofs Proofs.SolveProofs
  Proofs.RunProofs Proofs.PeriodicProofs Proofs.EnergyProofs Props.Demo Props.Periodic.
Import ListNotations.
Open Scope R_scope.

Section Iso.
Context {I X : Type} (ms : list I) (w : I -> R) (K : ax3 -> I -> R) (is0 : I -> bool).
Notation vec := (svec ax3 I).
Notation K2 := (K2_of F3 K).
Notation KoK2 := (K_over_K2_of F3 K).
Notation upd_iso := (update_iso ms w K K2 KoK2 is0).
Notation E2 u := (2 * energy F3 ms w u).

(** the velocity seen by update(): mean mode removed, or reconstructed from the vorticity *)
Definition current (vv : bool) (U W : vec) : vec :=
  if vv then velocity_hat KoK2 W else fun i k => if is0 k then C0 else U i k.
(** the part of the velocity in and outside of the forced band |k| <= kf *)
Definition low (kf : R) (u : vec) : vec := fun i k => if Rle_dec (knorm2 F3 K k) (kf ^ 2) then u i k else C0.
Definition high (kf : R) (u : vec) : vec := fun i k => if Rle_dec (knorm2 F3 K k) (kf ^ 2) then C0 else u i k.

Lemma ef_energy u : energy_fourier ms w u = E2 u.
Proof. unfold energy_fourier, energy. field. Qed.
Lemma low_high kf u : E2 u = E2 (low kf u) + E2 (high kf u).
Proof.
  unfold energy, low, high.
  replace (2 * (RsumL (elems F3) (fun i => RsumL ms (fun k => w k * Cnorm2 (u i k))) / 2))
   with (RsumL (elems F3) (fun i => RsumL ms (fun k => w k * Cnorm2 (u i k)))) by field.
  match goal with |- _ = 2 * (?a / 2) + 2 * (?b / 2) => replace (2 * (a / 2) + 2 * (b / 2)) with (a + b) by field end.
  rewrite <- RsumL_add. apply RsumL_ext. intros i _. rewrite <- RsumL_add. apply RsumL_ext. intros k _.
  destruct (Rle_dec _ _); unfold Cnorm2, C0; simpl; ring.
Qed.
Lemma mask_low kf (u : vec) : (fun i k => (u i k * RtoC (k2_mask K2 kf k))%C) = low kf u.
Proof.
  extensionality i; extensionality k. unfold low, k2_mask. rewrite K2_of_spec.
  destruct (Rle_dec _ _); [rewrite RtoC_1|rewrite RtoC_0]; ring.
Qed.
Lemma scaled_energy kf (u : vec) a :
  E2 (fun i k => (u i k * RtoC (a * k2_mask K2 kf k + (1 - k2_mask K2 kf k)))%C) = a ^ 2 * E2 (low kf u) + E2 (high kf u).
Proof.
  unfold energy, low, high.
  match goal with |- 2 * (?a / 2) = ?s * (2 * (?b / 2)) + 2 * (?d / 2) =>
    replace (2 * (a / 2)) with a by field; replace (s * (2 * (b / 2)) + 2 * (d / 2)) with (s * b + d) by field end.
  rewrite <- RsumL_scal, <- RsumL_add. apply RsumL_ext. intros i _.
  rewrite <- RsumL_scal, <- RsumL_add. apply RsumL_ext. intros k _.
  unfold k2_mask. rewrite K2_of_spec. destruct (Rle_dec _ _); unfold Cnorm2, C0, RtoC; simpl; ring.
Qed.
Lemma cross2_velocity U W : cross2 U KoK2 W = velocity_hat KoK2 W.
Proof. unfold velocity_hat. rewrite !cross2_curl. reflexivity. Qed.

(** C50: if the band has energy and the rest does not exceed the target, update() succeeds, the
    energy is exactly the target, only the band is changed and by one common factor alpha. *)
Theorem C50_energy vv kf target (U W : vec) :
  E2 (low kf (current vv U W)) > 0 -> E2 (high kf (current vv U W)) <= target ->
  exists U' W' alpha, upd_iso vv kf target U W = Some (U', W', target) /\ E2 U' = target /\ 0 <= alpha /\
    (forall i k, knorm2 F3 K k <= kf ^ 2 -> U' i k = (RtoC alpha * current vv U W i k)%C) /\
    (forall i k, knorm2 F3 K k > kf ^ 2 -> U' i k = current vv U W i k) /\
    W' = (if vv then curl_hat K U' else W).
Proof.
  intros Hlow Hhigh. set (Z := current vv U W) in *.
  unfold update_iso.
  replace (if vv then cross2 (zero_mean is0 U) KoK2 W else zero_mean is0 U) with Z.
  2:{ unfold Z, current. destruct vv; [symmetry; apply cross2_velocity|reflexivity]. }
  rewrite mask_low, !ef_energy.
  assert (Eu : E2 Z - E2 (low kf Z) = E2 (high kf Z)) by (rewrite (low_high kf Z); ring). rewrite Eu.
  destruct (Req_EM_T _ 0) as [E|E]; [lra|].
  set (a2 := (target - E2 (high kf Z)) / E2 (low kf Z)).
  assert (Ha : 0 <= a2) by (unfold a2; apply Rmult_le_pos; [lra|left; apply Rinv_0_lt_compat; lra]).
  destruct (Rlt_dec a2 0) as [Hc|_]; [lra|].
  set (U' := fun i k => (Z i k * RtoC (sqrt a2 * k2_mask K2 kf k + (1 - k2_mask K2 kf k)))%C).
  assert (EU : E2 U' = target).
  { unfold U'. rewrite scaled_energy. rewrite pow2_sqrt by auto. unfold a2. field. lra. }
  rewrite EU. replace ((target - target) ^ 2) with 0 by ring. rewrite sqrt_0.
  destruct (Rlt_dec 0 (/ 10000000)) as [_|Hc]; [|lra].
  exists U', (if vv then cross2 W K U' else W), (sqrt a2).
  split; [reflexivity|]. split; [exact EU|]. split; [apply sqrt_pos|]. split; [|split].
  - intros i k Hk. unfold U', k2_mask. rewrite K2_of_spec. destruct (Rle_dec _ _); [|contradiction].
    replace (sqrt a2 * 1 + (1 - 1)) with (sqrt a2) by ring. ring.
  - intros i k Hk. unfold U', k2_mask. rewrite K2_of_spec. destruct (Rle_dec _ _); [lra|].
    replace (sqrt a2 * 0 + (1 - 0)) with 1 by ring. rewrite RtoC_1. ring.
  - destruct vv; [apply cross2_curl|reflexivity].
Qed.
(** a negative square is not silently replaced: update() raises *)
Theorem C50_unreachable_target vv kf target (U W : vec) : (forall k, In k ms -> 0 <= w k) ->
  target < E2 (high kf (current vv U W)) -> upd_iso vv kf target U W = None.
Proof.
  intros Hw Hhigh. set (Z := current vv U W) in *. unfold update_iso.
  replace (if vv then cross2 (zero_mean is0 U) KoK2 W else zero_mean is0 U) with Z.
  2:{ unfold Z, current. destruct vv; [symmetry; apply cross2_velocity|reflexivity]. }
  rewrite mask_low, !ef_energy.
  assert (Eu : E2 Z - E2 (low kf Z) = E2 (high kf Z)) by (rewrite (low_high kf Z); ring). rewrite Eu.
  destruct (Req_EM_T _ 0) as [E|E]; [reflexivity|].
  assert (Hp : 0 <= E2 (low kf Z)).
  { unfold energy. match goal with |- 0 <= 2 * (?a / 2) => enough (0 <= a) by lra end.
    apply RsumL_nonneg. intros. apply RsumL_nonneg. intros k Hk. apply Rmult_le_pos; [auto|apply Cnorm2_nonneg]. }
  destruct (Rlt_dec _ 0) as [Hc|Hc]; [reflexivity|]. exfalso. apply Hc.
  assert (0 < (E2 (high kf Z) - target) / E2 (low kf Z)) by (apply Rdiv_lt_0_compat; lra).
  replace ((target - E2 (high kf Z)) / E2 (low kf Z)) with (- ((E2 (high kf Z) - target) / E2 (low kf Z))) by (field; lra).
  lra.
Qed.
(** no divergence is created; with the VV solver the velocity is always divergence free *)
Theorem C50_divfree vv kf target (U W U' W' : vec) e :
  upd_iso vv kf target U W = Some (U', W', e) -> (vv = false -> divfree F3 K U) ->
  divfree F3 K U' /\ (vv = true -> divfree F3 K W').
Proof.
  intros H Hd. unfold update_iso in H.
  set (Z := if vv then cross2 (zero_mean is0 U) KoK2 W else zero_mean is0 U) in *.
  assert (HZ : divfree F3 K Z).
  { unfold Z. destruct vv.
    - rewrite cross2_velocity. apply velocity_divfree.
    - intros k. specialize (Hd eq_refl k). unfold kdot, zero_mean in *. destruct (is0 k); [apply CsumL_0; intros; ring|exact Hd]. }
  destruct (Req_EM_T _ 0); [discriminate|]. destruct (Rlt_dec _ 0); [discriminate|].
  destruct (Rlt_dec _ (/ 10000000)); [|discriminate]. injection H as <- <- _.
  set (al := sqrt _).
  split.
  - intros k. transitivity (RtoC (al * k2_mask K2 kf k + (1 - k2_mask K2 kf k)) * kdot F3 K Z k)%C.
    + rewrite !kdot3. unfold al. ring.
    + rewrite (HZ k). ring.
  - intros ->. rewrite cross2_curl. intros k. apply kdot_curl.
Qed.

(** as the update function of a run of the NS solver (an exception stops the run, here the
    state is left as it is) *)
Definition iso_upd {ctx E} (kf target : R) (_ : R) (_ : nat) (x : vec * vec * ctx * E) : vec * vec * ctx * E :=
  let '(u, r, c, e) := x in
  match upd_iso false kf target u (fun _ _ => C0) with Some (u', _, _) => (u', r, c, e) | None => x end.
Theorem C50_NS_run {E} (T : transf I X) c mask nu Source est kf target
    (out : R -> nat -> svec ax3 I -> nsbuf ax3 I X * E -> _) rnd Tend fuel g s0 s u0 :
  divfree F3 K u0 -> divfree F3 K Source -> at_start s0 u0 ->
  observed (ComputeRHS_NS T K c mask nu Source) est (iso_upd kf target) out rnd Tend fuel g s0 s ->
  divfree F3 K (solution (l_w s)).
Proof.
  intros H1 H2 H3 H4. refine (proj1 (C01_NS T K c mask nu Source est (iso_upd kf target) out rnd Tend fuel g s0 s u0 H1 H2 _ H3 H4)).
  intros t n u r cc e Hu. unfold iso_upd.
  destruct (upd_iso false kf target u (fun _ _ => C0)) as [[[u' w'] e']|] eqn:Eq; [|exact Hu].
  apply (C50_divfree _ _ _ _ _ _ _ _ Eq). auto.
Qed.

(** C64: initialize() with the NS solver *)
Notation init vv T0 := (initialize_iso ms w K K2 KoK2 is0 vv T0).
Lemma init_proj (v : vec) :
  (fun i k => (v i k - (RtoC (K x0 k) * v x0 k + RtoC (K x1 k) * v x1 k + RtoC (K x2 k) * v x2 k) * RtoC (KoK2 i k))%C)
  = leray F3 K v.
Proof.
  extensionality i; extensionality k. unfold leray. rewrite <- kdot3.
  destruct (Req_EM_T _ 0) as [E|E].
  - rewrite K_over_K2_zero by (apply (knorm2_0 F3), E). rewrite RtoC_0. ring.
  - rewrite K_over_K2_nz by (intros Hx; apply E, (knorm2_0 F3), Hx). rewrite RtoC_div by auto. unfold Cdiv. ring.
Qed.
Theorem C64_initialize vv (T0 : transf I X) mask alpha beta Re_lam nu kd W U' W' target :
  0 < kd -> 0 < nu -> 0 <= Re_lam ->
  init vv T0 mask alpha beta Re_lam nu kd W = Some (U', W', target) ->
  divfree F3 K U' /\ (forall i k, is0 k = true -> U' i k = C0) /\
  energy F3 ms w U' = Re_lam * (nu * kd) ^ 2 / sqrt (20 / 3) /\ target = E2 U' /\
  W' = (if vv then curl_hat K U' else W).
Proof.
  intros Hkd Hnu HR H. unfold initialize_iso in H. cbv zeta in H.
  set (V := fwdV T0 _) in H. rewrite init_proj in H. rewrite ef_energy in H.
  set (P := zero_mean is0 (leray F3 K V)) in *.
  destruct (Req_EM_T _ 0) as [E|E]; [discriminate|]. destruct (Rlt_dec _ 0) as [L|L]; [discriminate|].
  assert (E1 : / 2 * (2 * energy F3 ms w P) = energy F3 ms w P) by field. rewrite E1 in *.
  set (tg := Re_lam * (nu * kd) ^ 2 / sqrt (20 / 3)) in *.
  injection H as HU HW HT. rewrite <- HT, <- HW. rewrite ef_energy. rewrite HU in *.
  split; [|split; [|split; [|split]]].
  - rewrite <- HU. intros k. transitivity (RtoC (sqrt (tg / energy F3 ms w P)) * kdot F3 K P k)%C.
    + rewrite !kdot3. ring.
    + replace (kdot F3 K P k) with C0; [ring|]. symmetry. unfold P, kdot, zero_mean.
      destruct (is0 k); [apply CsumL_0; intros; ring|]. apply kdot_leray.
  - intros i k Hk. rewrite <- HU. unfold P, zero_mean. rewrite Hk. ring.
  - rewrite <- HU. transitivity ((sqrt (tg / energy F3 ms w P)) ^ 2 * energy F3 ms w P).
    + generalize (sqrt (tg / energy F3 ms w P)). intros a. unfold energy.
      match goal with |- ?x / 2 = ?b * (?y / 2) => enough (x = b * y) as -> by field end.
      rewrite <- RsumL_scal. apply RsumL_ext. intros i _. rewrite <- RsumL_scal. apply RsumL_ext. intros k _.
      unfold Cnorm2, RtoC; simpl. ring.
    + rewrite pow2_sqrt by lra. field. auto.
  - reflexivity.
  - destruct vv; [apply cross2_curl|reflexivity].
Qed.

(** With the VV solver W_hat is still zero when initialize() asks for the velocity: the random field is
    overwritten by zero and the division by its energy fails, whatever the phases *)
Theorem C64_VV_refuted (T0 : transf I X) mask alpha beta Re_lam nu kd :
  (bwd T0 (fun _ => C0) = fun _ => 0) -> (fwd T0 (fun _ => 0) = fun _ => C0) ->
  init true T0 mask alpha beta Re_lam nu kd (fun _ _ => C0) = None.
Proof.
  intros Hb Hf. unfold initialize_iso. cbv zeta.
  assert (V0 : velocity_hat KoK2 (fun _ _ => C0) = (fun _ _ => C0)).
  { unfold velocity_hat. rewrite !cross2_curl. extensionality i; extensionality k. unfold curl_hat.
    destruct i; ring. }
  rewrite V0. unfold fwdV, bwdV. rewrite Hb, Hf.
  destruct (Req_EM_T _ 0) as [E|E]; [reflexivity|]. exfalso. apply E.
  match goal with |- / 2 * ?x = 0 => enough (x = 0) as -> by ring end.
  unfold energy_fourier. apply RsumL_0. intros i _. apply RsumL_0. intros k _.
  unfold zero_mean. destruct (is0 k); unfold Cnorm2, C0; simpl; ring.
Qed.
(** The random field itself is not divergence free: the third component has the wrong sign. *)
Theorem C64_rogallo_divergence alpha beta k : K x0 k ^ 2 + K x1 k ^ 2 <> 0 ->
  kdot F3 K (rogallo K K2 alpha beta) k
  = (beta k * RtoC (2 * K x2 k * sqrt (K x0 k ^ 2 + K x1 k ^ 2) / sqrt (knorm2 F3 K k)))%C.
Proof.
  intros H. rewrite kdot3. unfold rogallo, nz. rewrite K2_of_spec.
  pose proof (pow2_ge_0 (K x0 k)). pose proof (pow2_ge_0 (K x1 k)). pose proof (pow2_ge_0 (K x2 k)).
  assert (Ek : knorm2 F3 K k = K x0 k ^ 2 + K x1 k ^ 2 + K x2 k ^ 2).
  { unfold knorm2, RsumL. simpl. ring. }
  assert (Hs : sqrt (K x0 k ^ 2 + K x1 k ^ 2) <> 0).
  { intros E. apply sqrt_eq_0 in E; lra. }
  assert (Hn : sqrt (knorm2 F3 K k) <> 0).
  { intros E. apply sqrt_eq_0 in E; rewrite Ek in *; lra. }
  destruct (Req_EM_T (sqrt (knorm2 F3 K k)) 0); [contradiction|].
  destruct (Req_EM_T (sqrt (K x0 k ^ 2 + K x1 k ^ 2)) 0); [contradiction|].
  assert (Sq : sqrt (K x0 k ^ 2 + K x1 k ^ 2) * sqrt (K x0 k ^ 2 + K x1 k ^ 2) = K x0 k ^ 2 + K x1 k ^ 2) by (apply sqrt_sqrt; lra).
  set (s := sqrt (K x0 k ^ 2 + K x1 k ^ 2)) in *. set (n' := sqrt (knorm2 F3 K k)) in *.
  assert (Hd : forall z r, r <> 0 -> (z / RtoC r = z * RtoC (/ r))%C).
  { intros z r Hr. unfold Cdiv. rewrite RtoC_inv by auto. reflexivity. }
  rewrite !Hd by (auto; apply Rmult_integral_contrapositive_currified; auto).
  apply C_eq; unfold RtoC; simpl.
  - transitivity (fst (beta k) * (K x2 k * (K x0 k ^ 2 + K x1 k ^ 2) / (n' * s) + K x2 k * s / n')); [field; auto|].
    rewrite <- Sq. field. auto.
  - transitivity (snd (beta k) * (K x2 k * (K x0 k ^ 2 + K x1 k ^ 2) / (n' * s) + K x2 k * s / n')); [field; auto|].
    rewrite <- Sq. field. auto.
Qed.
End Iso.

(** The hypotheses can be met: a mean mode, a forced mode and a free mode; the forced mode is doubled. *)
Definition exK (i : ax3) (k : ax3) : R := match i, k with x0, x1 => 1 | x0, x2 => 2 | _, _ => 0 end.
Definition exU (i : ax3) (k : ax3) : C := match i with x1 => C1 | _ => C0 end.
Definition ex0 (k : ax3) : bool := match k with x0 => true | _ => false end.
Example C50_example : exists U' W', update_iso [x0; x1; x2] (fun _ => 1) exK (K2_of F3 exK) (K_over_K2_of F3 exK) ex0
    false 1 5 exU (fun _ _ => C0) = Some (U', W', 5) /\ divfree F3 exK exU /\ U' x1 x0 = C0 /\ U' x1 x2 = C1 /\ U' x1 x1 <> C1.
Proof.
  assert (N0 : knorm2 F3 exK x0 = 0) by (unfold knorm2, RsumL; simpl; ring).
  assert (N1 : knorm2 F3 exK x1 = 1) by (unfold knorm2, RsumL; simpl; ring).
  assert (N2 : knorm2 F3 exK x2 = 4) by (unfold knorm2, RsumL; simpl; ring).
  assert (L : 2 * energy F3 [x0; x1; x2] (fun _ => 1) (low exK 1 (current exK ex0 false exU (fun _ _ => C0))) = 1).
  { unfold energy, RsumL, low; simpl. rewrite N0, N1, N2.
    destruct (Rle_dec 0 _); [|lra]. destruct (Rle_dec 1 _); [|lra]. destruct (Rle_dec 4 _); [lra|].
    unfold Cnorm2, C0, C1; simpl. field. }
  assert (H : 2 * energy F3 [x0; x1; x2] (fun _ => 1) (high exK 1 (current exK ex0 false exU (fun _ _ => C0))) = 1).
  { unfold energy, RsumL, high; simpl. rewrite N0, N1, N2.
    destruct (Rle_dec 0 _); [|lra]. destruct (Rle_dec 1 _); [|lra]. destruct (Rle_dec 4 _); [lra|].
    unfold Cnorm2, C0, C1; simpl. field. }
  destruct (C50_energy [x0; x1; x2] (fun _ => 1) exK ex0 false 1 5 exU (fun _ _ => C0)) as (U' & W' & al & E & E2 & Ha & Hl & Hh & _);
    [lra|lra|].
  exists U', W'. split; [exact E|]. split.
  - intros k. unfold kdot, CsumL. destruct k; simpl; unfold exU, exK; simpl; apply C_eq; simpl; ring.
  - assert (L0 : U' x1 x0 = C0) by (rewrite (Hl x1 x0) by (rewrite N0; lra); simpl; ring).
    assert (L2 : U' x1 x2 = C1) by (rewrite (Hh x1 x2) by (rewrite N2; lra); reflexivity).
    split; [exact L0|]. split; [exact L2|]. intros L1.
    assert (Z : forall i k, i <> x1 -> U' i k = C0).
    { intros i k Hi. destruct (Rle_dec (knorm2 F3 exK k) (1 ^ 2)) as [h|h].
      - rewrite (Hl i k h). destruct i; [|congruence|]; unfold current, exU; destruct (ex0 k); ring.
      - rewrite (Hh i k) by lra. destruct i; [|congruence|]; unfold current, exU; destruct (ex0 k); reflexivity. }
    revert E2. unfold energy, RsumL; simpl. rewrite L0, L1, L2, !(Z x0), !(Z x2) by discriminate.
    unfold Cnorm2, C0, C1; simpl. lra.
Qed.
Example C64_rogallo_example : kdot F3 (fun _ _ => 1) (rogallo (fun _ _ => 1) (K2_of F3 (fun _ _ => 1)) (fun _ => C1) (fun _ => C1)) tt <> C0.
Proof.
  rewrite C64_rogallo_divergence by (simpl; lra). intros E. apply (f_equal fst) in E. revert E. unfold RtoC; simpl.
  assert (0 < sqrt (1 * (1 * 1) + 1 * (1 * 1))) by (apply sqrt_lt_R0; lra).
  assert (0 < sqrt (knorm2 F3 (fun (_ : ax3) (_ : unit) => 1) tt)) by (apply sqrt_lt_R0; unfold knorm2, RsumL; simpl; lra).
  match goal with |- 1 * (?a / ?b) - _ = 0 -> _ => assert (0 < a / b) by (apply Rdiv_lt_0_compat; lra) end. lra.
Qed.

(** initialize() with the NS solver on one mode k = (1, 0, 0) with alpha = 1, beta = 0. *)
Definition idT : transf unit bool := mkTransf unit bool (fun u b => if b then fst (u tt) else snd (u tt)) (fun v _ => (v true, v false)).
Definition oneK (i : ax3) (_ : unit) : R := match i with x0 => 1 | _ => 0 end.
Example C64_example : exists U' W' t, initialize_iso [tt] (fun _ => 1) oneK (K2_of F3 oneK) (K_over_K2_of F3 oneK) (fun _ => false)
  false idT (fun _ => true) (fun _ => C1) (fun _ => C0) 1 1 1 (fun _ _ => C0) = Some (U', W', t).
Proof.
  assert (N : knorm2 F3 oneK tt = 1) by (unfold knorm2, RsumL; simpl; ring).
  unfold initialize_iso. cbv zeta.
  rewrite (init_proj oneK). rewrite ef_energy.
  set (V := fwdV idT _).
  assert (HV : V = fun i _ => match i with x1 => RtoC (-1) | _ => C0 end).
  { assert (Hr : forall i, rogallo oneK (K2_of F3 oneK) (fun _ => C1) (fun _ => C0) i tt = match i with x1 => RtoC (-1) | _ => C0 end).
    { intros i. unfold rogallo, nz. rewrite K2_of_spec, N. unfold oneK. rewrite sqrt_1.
      replace (1 ^ 2 + 0 ^ 2) with 1 by ring. rewrite sqrt_1. destruct (Req_EM_T 1 0); [lra|].
      destruct i; apply C_eq; unfold Cdiv, RtoC; simpl; field. }
    unfold V. extensionality i; extensionality k; destruct k. rewrite <- Hr. unfold fwdV, bwdV, idT, mask_nyquist, masked.
    cbn [fwd bwd]. symmetry. apply surjective_pairing. }
  rewrite HV.
  assert (HL : leray F3 oneK (fun i (_ : unit) => match i with x1 => RtoC (-1) | _ => C0 end) = fun i _ => match i with x1 => RtoC (-1) | _ => C0 end).
  { extensionality i; extensionality k; destruct k. unfold leray. rewrite N. destruct (Req_EM_T 1 0); [lra|].
    rewrite kdot3. unfold oneK. destruct i; apply C_eq; unfold Cdiv, RtoC; simpl; field. }
  rewrite HL.
  set (e := / 2 * _). assert (He : e = / 2) by (unfold e, energy, RsumL, zero_mean, Cnorm2, RtoC; simpl; field).
  destruct (Req_EM_T e 0); [lra|]. destruct (Rlt_dec _ 0) as [h|h]; [|eauto].
  exfalso. revert h. apply Rle_not_lt. rewrite He. apply Rmult_le_pos; [|lra]. apply Rmult_le_pos; [lra|].
  left. apply Rinv_0_lt_compat, sqrt_lt_R0. lra.
Qed.

Print Assumptions C50_energy.
Print Assumptions C50_unreachable_target.
Print Assumptions C50_divfree.
Print Assumptions C50_NS_run.
Print Assumptions C64_initialize.
Print Assumptions C64_VV_refuted.
Print Assumptions C64_rogallo_divergence.
