(** C77: what the accessors get_velocity, get_divergence, get_curl, get_pressure and set_velocity of the periodic
    solvers return, compared with the true derivatives of the field. *)
From Coq Require Import Reals Lra Lia List String FunctionalExtensionality.
From Verif Require Import Base.Cplx Base.Sums Base.Fin Spec.Env Spec.Energy Spec.Fourier Spec.TaylorGreen Spec.Wave Model.Maths Model.NS Model.VV
  Model.Accessors Proofs.Common Proofs.NSProofs Proofs.VVProofs Proofs.WaveProofs.
Import ListNotations.
Open Scope R_scope.

(** there is one, and only one *)
Lemma jacobian_exists {D E I X} (F : fin D) ms w (K : D -> I -> R) (mesh : D -> X -> R) (u : E -> I -> C) x :
  jacobian F ms w K mesh u x (fun i j => trig F ms w K (deriv (K j) (u i)) (fun a => mesh a x)).
Proof. intros i j. apply trig_partial. Qed.
Lemma jacobian_unique {D E I X} (F : fin D) ms w (K : D -> I -> R) (mesh : D -> X -> R) (u : E -> I -> C) x d :
  jacobian F ms w K mesh u x d -> d = fun i j => trig F ms w K (deriv (K j) (u i)) (fun a => mesh a x).
Proof.
  intros H. extensionality i; extensionality j. eapply uniqueness_limite; [apply H|]. apply jacobian_exists.
Qed.

Section Props.
Context {I X : Type} (T : transf I X) (ms : list I) (w : I -> R).

(** NS and (the first three rows of) MHD: for the Jacobian d of the velocity field at a mesh point, get_velocity is
    the field there, get_divergence the trace of d, get_curl the curl, whatever is in the work array. *)
Theorem C77_NS (K : ax3 -> I -> R) mesh wk (U_hat : svec ax3 I) x : samples F3 ms w K mesh (bwd T) ->
  exists d, jacobian F3 ms w K mesh U_hat x d /\
  (forall i, get_velocity_NS T U_hat i x = trig F3 ms w K (U_hat i) (fun a => mesh a x)) /\
  get_divergence_NS T F3 K U_hat x = d x0 x0 + d x1 x1 + d x2 x2 /\
  (forall i, get_curl_NS T K wk U_hat i x = curl_of d i).
Proof.
  intros HT. eexists. split; [apply jacobian_exists|]. split; [intros i; apply HT|]. split.
  - unfold get_divergence_NS. rewrite HT. unfold get_divergence_hat.
    rewrite (trig_div F3 ms w K U_hat). cbn [elems F3 RsumL]. lra.
  - intros i. unfold get_curl_NS. cbv zeta. rewrite cross2_curl. unfold bwdV. rewrite HT. apply trig_curl.
Qed.
Theorem C77_MHD (K : ax3 -> I -> R) mesh (UB_hat : svec ax6 I) x : samples F3 ms w K mesh (bwd T) ->
  exists d, jacobian F3 ms w K mesh (fun i => UB_hat (inl i)) x d /\
  get_divergence_MHD T K UB_hat x = d x0 x0 + d x1 x1 + d x2 x2.
Proof.
  intros HT. destruct (C77_NS K mesh (fun _ _ => C0) (fun i => UB_hat (inl i)) x HT) as (d & Hd & _ & H & _). exists d. auto.
Qed.

(** NS2D: the scalar vorticity d_0 u_1 - d_1 u_0 *)
Theorem C77_NS2D (K : ax2 -> I -> R) mesh (U_hat : svec ax2 I) x : samples F2 ms w K mesh (bwd T) ->
  exists d, jacobian F2 ms w K mesh U_hat x d /\
  (forall i, get_velocity_NS T U_hat i x = trig F2 ms w K (U_hat i) (fun a => mesh a x)) /\
  get_divergence_NS T F2 K U_hat x = d a0 a0 + d a1 a1 /\
  fst (get_curl_NS2D T K U_hat) x = d a1 a0 - d a0 a1 /\
  (forall k, snd (get_curl_NS2D T K U_hat) k = Ci * RtoC (K a0 k) * U_hat a1 k - Ci * RtoC (K a1 k) * U_hat a0 k)%C.
Proof.
  intros HT. eexists. split; [apply jacobian_exists|]. split; [intros i; apply HT|]. split.
  - unfold get_divergence_NS. rewrite HT. unfold get_divergence_hat.
    rewrite (trig_div F2 ms w K U_hat). cbn [elems F2 RsumL]. lra.
  - cbn [get_curl_NS2D fst snd]. split.
    + rewrite HT, <- trig_vort. apply trig_ext. intros k. unfold cross2_2d, cross1_2d, RCmul, vort2d. ring.
    + intros k. unfold cross2_2d, cross1_2d, RCmul. ring.
Qed.

(** Bq2D: the same for the velocity rows; each accessor refreshes the rows it returns and leaves the others. *)
Theorem C77_Bq2D (K : ax2 -> I -> R) mesh Ur (Ur_hat : svec axb I) x : samples F2 ms w K mesh (bwd T) ->
  exists d, jacobian F2 ms w K mesh (fun i => Ur_hat (Some i)) x d /\
  get_divergence_Bq T K Ur_hat x = d a0 a0 + d a1 a1 /\
  fst (get_curl_Bq T K Ur_hat) x = d a1 a0 - d a0 a1 /\
  (forall r, get_Ur T Ur_hat r x = trig F2 ms w K (Ur_hat r) (fun a => mesh a x)) /\
  (let '(rho, Ur') := get_rho T Ur Ur_hat in
     rho x = trig F2 ms w K (Ur_hat None) (fun a => mesh a x) /\ Ur' None = rho /\ forall i, Ur' (Some i) = Ur (Some i)) /\
  (let '(u, Ur') := get_velocity_Bq T Ur Ur_hat in
     (forall i, u i x = trig F2 ms w K (Ur_hat (Some i)) (fun a => mesh a x)) /\
     (forall i, Ur' (Some i) = u i) /\ Ur' None = Ur None).
Proof.
  intros HT. destruct (C77_NS2D K mesh (fun i => Ur_hat (Some i)) x HT) as (d & Hd & _ & H1 & H2 & _). exists d.
  split; [exact Hd|]. split; [exact H1|]. split; [exact H2|]. split; [intros r; apply HT|]. split.
  - cbn. split; [apply HT|]. split; [reflexivity|]. intros [|]; reflexivity.
  - cbn. split; [|split; [reflexivity|reflexivity]]. intros [|]; apply HT.
Qed.

(** The gradient of the pressure get_pressure returns is the term K P_hat that ComputeRHS subtracts. *)
Theorem C77_pressure {D} (F : fin D) (K : D -> I -> R) mesh P x : samples F ms w K mesh (bwd T) ->
  get_pressure_NS T P x = trig F ms w K (get_pressure_hat P) (fun a => mesh a x) /\
  exists d, jacobian F ms w K mesh (fun _ : unit => get_pressure_hat P) x (fun _ => d) /\
    forall i, bwd T (fun k => RtoC (K i k) * P k)%C x = d i.
Proof.
  intros HT. split; [apply HT|]. exists (fun j => trig F ms w K (deriv (K j) (get_pressure_hat P)) (fun a => mesh a x)).
  split; [intros i j; apply trig_partial|]. intros i. rewrite HT. apply trig_ext.
  intros k. unfold deriv, get_pressure_hat.
  transitivity (- (Ci * Ci) * (RtoC (K i k) * P k))%C; [rewrite Ci_sq; ring|ring].
Qed.

(** set_velocity, then get_velocity: the velocity set if the forward transform is undone by the backward one. *)
Theorem C77_set_velocity {D} (U : pvec D X) : (forall i, bwd T (fwd T (U i)) = U i) ->
  get_velocity_NS T (set_velocity_NS T U) = U.
Proof. intros H. extensionality i. apply H. Qed.
End Props.

(** VV: the velocity is recovered from the vorticity W_hat.  Its divergence is zero, and get_divergence returns zero,
    for every W_hat whatsoever, so it detects nothing; it leaves curl W in U_hat.  get_curl is the curl of the
    velocity if W is solenoidal without mean. *)
Section VVProps.
Context {I X : Type} (T : transf I X) (ms : list I) (w : I -> R) (K : ax3 -> I -> R).
Notation KoK2 := (K_over_K2_of F3 K).
Lemma curl_of_velocity (W : svec ax3 I) : divfree F3 K W -> (forall i k, is_mean K k -> W i k = C0) ->
  curl_hat K (velocity_hat KoK2 W) = W.
Proof.
  intros Hd Hm. rewrite <- (velocity_of_curl K W Hd Hm) at 2. rewrite !velocity_hat_curl.
  extensionality i; extensionality k. unfold curl_hat.
  rewrite <- !(KoK2_colinear K), !RtoC_mul. destruct i; ring.
Qed.
Theorem C77_VV mesh (U_hat W_hat : svec ax3 I) x : samples F3 ms w K mesh (bwd T) ->
  exists d, jacobian F3 ms w K mesh (velocity_hat KoK2 W_hat) x d /\
  (forall i, get_velocity_VV T KoK2 W_hat i x = trig F3 ms w K (velocity_hat KoK2 W_hat i) (fun a => mesh a x)) /\
  d x0 x0 + d x1 x1 + d x2 x2 = 0 /\
  fst (get_divergence_VV_p T K U_hat W_hat) x = 0 /\
  snd (get_divergence_VV_p T K U_hat W_hat) = curl_hat K W_hat /\
  (divfree F3 K W_hat -> (forall i k, is_mean K k -> W_hat i k = C0) ->
   forall i, get_curl_VV T W_hat i x = curl_of d i).
Proof.
  intros HT. eexists. split; [apply jacobian_exists|]. split; [intros i; apply HT|]. split; [|split; [|split]].
  - pose proof (trig_div F3 ms w K (velocity_hat KoK2 W_hat) (fun a => mesh a x)) as H. cbn [elems F3 RsumL] in H.
    rewrite (trig_ext F3 ms w K _ (fun _ => C0)), trig_0 in H; [lra|]. intros k. rewrite velocity_divfree. ring.
  - cbn [get_divergence_VV_p get_divergence_VV fst]. rewrite HT, <- (trig_0 F3 ms w K (fun a => mesh a x)).
    apply trig_ext. intros k. rewrite cross2_curl. unfold get_divergence_hat.
    change (CsumL _ _) with (kdot F3 K (curl_hat K W_hat) k). rewrite kdot_curl. ring.
  - cbn [get_divergence_VV_p get_divergence_VV snd]. apply cross2_curl.
  - intros Hd Hm i. unfold get_curl_VV, bwdV. rewrite HT. rewrite <- trig_curl, curl_of_velocity by assumption. reflexivity.
Qed.
(** set_velocity (inherited from NS) does not change what get_velocity returns. *)
Theorem C77_VV_set_refuted (U : pvec ax3 X) (U_hat W_hat : svec ax3 I) :
  get_velocity_VV T KoK2 (snd (set_velocity_VV T U U_hat W_hat)) = get_velocity_VV T KoK2 W_hat.
Proof. reflexivity. Qed.
End VVProps.

(** Without a solenoidal W the curl returned by VV is not that of its velocity: one mode k = (1,0,0), W = k. *)
Theorem C77_VV_curl_refuted : exists (ms : list unit) w (K : ax3 -> unit -> R) (T : transf unit unit) mesh W,
  samples F3 ms w K mesh (bwd T) /\ (forall k, ~ is_mean K k) /\
  forall d, jacobian F3 ms w K mesh (velocity_hat (K_over_K2_of F3 K) W) tt d ->
    get_curl_VV T W x0 tt = 1 /\ curl_of d x0 = 0.
Proof.
  set (K := fun (i : ax3) (_ : unit) => match i with x0 => 1 | _ => 0 end).
  set (W := fun (i : ax3) (_ : unit) => match i with x0 => C1 | _ => C0 end).
  set (mesh := fun (_ : ax3) (_ : unit) => 0).
  exists [tt], (fun _ => 1), K, (mkTransf unit unit (fun a x => trig F3 [tt] (fun _ => 1) K a (fun i => mesh i x)) (fun _ _ => C0)), mesh, W.
  split; [intros a x; reflexivity|]. split; [intros k H; specialize (H x0); cbn in H; lra|].
  intros d Hd. apply jacobian_unique in Hd.
  assert (P : phase F3 K tt (fun a => mesh a tt) = 0) by (unfold phase, mesh; cbn [elems F3 RsumL]; ring).
  split.
  - unfold get_curl_VV, bwdV. cbn [bwd]. unfold trig. cbn [RsumL]. rewrite P. unfold cis, W, Re, Cmul, C1. cbn [fst snd].
    rewrite cos_0, sin_0. ring.
  - rewrite Hd, <- (trig_curl [tt] (fun _ => 1) K), <- (trig_0 F3 [tt] (fun _ => 1) K (fun a => mesh a tt)).
    apply trig_ext. intros k. rewrite velocity_hat_curl. unfold curl_hat, W.
    assert (Z : forall i, i <> x0 -> K_over_K2_of F3 K i k = 0).
    { intros i Hi. unfold K_over_K2_of. destruct i; [congruence| |]; cbn [K]; unfold Rdiv; apply Rmult_0_l. }
    rewrite !(Z x1), !(Z x2) by discriminate. rewrite RtoC_0. ring.
Qed.

(** The hypothesis holds for the real-to-complex transforms on the meshes of NS (any box) and NS2D (side 2 pi). *)
Theorem C77_mesh_3d N M tr k0 : (forall i, k0 i <> 0) -> (forall i, (0 < M i)%nat) ->
  samples F3 (modes3 N) (fun k => tr k * mult2 (M x2) k) (wavenumber N k0) (mesh3 M k0) (irfft3 N M tr).
Proof. apply irfft3_samples. Qed.
Theorem C77_mesh_2d N M tr :
  samples F2 (modes2 N) (fun k => tr k * mult2d M k) (wavenumber2 N) (mesh2 M) (irfft2 N M tr).
Proof.
  intros a x. unfold irfft2, trig. apply RsumL_ext. intros k _. unfold wave2, phase. cbn [elems F2 RsumL].
  replace (wavenumber2 N a0 k * mesh2 M a0 x + (wavenumber2 N a1 k * mesh2 M a1 x + 0))
    with (wavenumber2 N a0 k * mesh2 M a0 x + wavenumber2 N a1 k * mesh2 M a1 x) by ring. reflexivity.
Qed.

(** Which accessors a user can call with the context of which solver; a pressure is held by every context but that
    of VV. *)
Theorem C77_callable (s : solver) (a : accessor) :
  call s a = (match s, a with
  | SVV, GetPressure => TypeError
  | SMHD, GetDivergence => Done
  | SMHD, _ => AttributeError
  | SBq2D, _ => Done
  | _, (GetUr | GetRho) => AttributeError
  | _, _ => Done
  end) /\
  forall key, In key ["P"%string; "P_hat"%string] -> (In key (context_keys s) <-> s <> SVV).
Proof.
  split; [destruct s, a; reflexivity|]. intros key Hk.
  assert (M : In key (context_keys s) <-> existsb (String.eqb key) (context_keys s) = true).
  { rewrite existsb_exists. split.
    - intros H. exists key. split; [exact H|apply String.eqb_refl].
    - intros (x & H & E). apply String.eqb_eq in E. subst. exact H. }
  rewrite M.
  assert (E : existsb (String.eqb key) (context_keys s) = match s with SVV => false | _ => true end).
  { destruct Hk as [<-|[<-|[]]]; destruct s; reflexivity. }
  rewrite E. destruct s; split; congruence.
Qed.
(** The results file can be written with the solver's own update_components, but the one TG.py installs raises a
    TypeError with VV. *)
Theorem C77_results_file s : call_all s (update_components s) = Done.
Proof. destruct s; reflexivity. Qed.
Theorem C77_TG_results_refuted : call_all SNS update_components_TG = Done /\ call_all SVV update_components_TG = TypeError.
Proof. split; reflexivity. Qed.

(** Non-vacuity: one mode k = (1, 2, 0) on the mesh of 4^3 points: velocity (cos, 0, 0), divergence -sin, curl (0, 0, 2 sin)
    of the phase y0 + 2 y1 at the point (pi/2, 0, 0). *)
Example C77_nonvacuous : let N := fun _ : ax3 => 5%nat in let M := fun _ : ax3 => 4%nat in
  let tr := fun k : nat * nat * nat => if (match k with (1, 2, 0) => true | _ => false end)%nat then 1 else 0 in
  let K := wavenumber N (fun _ => 1) in
  let T := mkTransf _ _ (irfft3 N M tr) (rfft3 N M tr) in
  let U := fun (i : ax3) (_ : nat * nat * nat) => match i with x0 => C1 | _ => C0 end in
  get_divergence_NS T F3 K U (1, 0, 0)%nat = -1 /\ get_curl_NS T K (fun _ _ => C1) U x2 (1, 0, 0)%nat = 2.
Proof.
  cbv zeta. set (N := fun _ : ax3 => 5%nat). set (M := fun _ : ax3 => 4%nat).
  set (tr := fun k : nat * nat * nat => _).
  assert (S : forall a x, irfft3 N M tr a x = Re (a (1, 2, 0)%nat * wave3 N M (1, 2, 0)%nat x)%C).
  { intros a x. unfold irfft3, modes3, grid, N. cbn -[wave3 mult2 tr Re Cmul].
    unfold tr. cbn [mult2 Nat.eqb orb Nat.mul Nat.add]. ring. }
  assert (E : wave3 N M (1, 2, 0)%nat (1, 0, 0)%nat = Ci).
  { unfold wave3, freq, N, M. cbn -[cis PI IZR INR]. replace (INR 4) with 4 by (cbn; lra). cbn [INR].
    replace (2 * PI * (1 * 1 / 4 + 2 * 0 / 4 + 0 * 0 / 4)) with (PI / 2) by field.
    unfold cis. rewrite cos_PI2, sin_PI2. reflexivity. }
  split.
  - unfold get_divergence_NS. cbn [bwd]. rewrite S, E. unfold get_divergence_hat, wavenumber, freq, N. cbn -[Re Cmul Cadd RtoC Ci].
    unfold Re, Cmul, Cadd, RtoC, Ci, C1, C0. cbn [fst snd]. ring.
  - unfold get_curl_NS. cbv zeta. rewrite cross2_curl. unfold bwdV. cbn [bwd]. rewrite S, E. unfold curl_hat, wavenumber, freq, N.
    cbn -[Re Cmul Csub RtoC Ci]. unfold Re, Cmul, Csub, Cadd, Copp, RtoC, Ci, C1, C0. cbn [fst snd]. ring.
Qed.

Print Assumptions C77_NS.
Print Assumptions C77_MHD.
Print Assumptions C77_NS2D.
Print Assumptions C77_Bq2D.
Print Assumptions C77_pressure.
Print Assumptions C77_set_velocity.
Print Assumptions C77_VV.
Print Assumptions C77_VV_set_refuted.
Print Assumptions C77_VV_curl_refuted.
Print Assumptions C77_mesh_3d.
Print Assumptions C77_mesh_2d.
Print Assumptions C77_callable.
Print Assumptions C77_results_file.
Print Assumptions C77_TG_results_refuted.
