(** Theorems on the functions that read the fields of the channel solvers: C81, C82. *)
From Coq Require Import Reals List String Bool Arith Lia Lra FunctionalExtensionality.
From Verif Require Import Base.Cplx Base.Sums Base.Fin Model.KMM Model.Coupled Model.Accessors Model.ChannelAccess
  Spec.Chebyshev Spec.Channel Proofs.KMMProofs Proofs.ChebyshevProofs Proofs.PressureProofs Props.Channel Props.ChannelEx.
Import ListNotations.
Open Scope R_scope.

(** ** C81 *)
(** the solvers whose module has the function and whose context has all its arguments *)
Definition coupled (s : chsolver) : bool := match s with SCoupled | SCoupledRK3 => true | _ => false end.
Theorem C81_calls (s : chsolver) (a : chaccessor) :
  ch_call s a = match a with
                | ChCurl => if coupled s then AttributeError else TypeError
                | ChDerivatives => if coupled s then AttributeError else Done
                | _ => Done
                end.
Proof. destruct s, a; reflexivity. Qed.
Print Assumptions C81_calls.
(** the vorticity of a channel solver cannot be had through get_curl *)
Corollary C81_curl_refuted : ~ exists s, ch_call s ChCurl = Done.
Proof. intros (s & H). rewrite C81_calls in H. destruct s; discriminate. Qed.
Print Assumptions C81_curl_refuted.
Theorem C81_pressure_calls (s : chsolver) :
  ch_pressure s = Done <-> s = SKMM \/ s = SKMMr \/ s = SKMM_RB.
Proof. destruct s; split; intros H; try reflexivity; try discriminate; auto;
  repeat (destruct H as [H | H]; try discriminate); discriminate. Qed.
Print Assumptions C81_pressure_calls.
(** what is missing in the Runge-Kutta solvers: U_hat0 and U0, the first of them read first, and nothing else *)
Theorem C81_pressure_missing (s : chsolver) (x : string) : s = SKMMRK3 \/ s = SKMMRK3_RB ->
  In x ["FCT"; "FST"; "U_hat"; "U_hat0"; "U"; "U0"; "nu"]%string ->
  (~ In x (ch_keys s) <-> x = "U_hat0"%string \/ x = "U0"%string).
Proof.
  intros Hs Hx. assert (D : In x (ch_keys s) <-> existsb (String.eqb x) (ch_keys s) = true).
  { rewrite existsb_exists. split; [intros H; exists x; split; [exact H|apply String.eqb_refl]|].
    intros (y & H & E). apply String.eqb_eq in E. subst y. exact H. }
  rewrite D. destruct Hs as [-> | ->]; simpl in Hx; repeat (destruct Hx as [<- | Hx]); try contradiction; vm_compute; split;
    try (intros H; exfalso; apply H; reflexivity); try (intros [H|H]; discriminate); auto; try (intros _ H; discriminate).
Qed.
Print Assumptions C81_pressure_missing.

Section Callback.
Context (cn c1 c2 : ax3) (K1 K2 Kx1 Kx2 : nat -> R) (root : bool) (mt : mats) (sv : solvers).
Context (nu dt : R) (mask : option (nat -> nat -> R)) (conv : vfld -> fld -> vfld) (Sk : vfld).
Notation integrate' := (integrate cn c1 c2 K1 K2 Kx1 Kx2 root mt sv nu dt mask conv Sk).
Notation integrate_rk' := (integrate_rk cn c1 c2 K1 K2 Kx1 Kx2 root mt sv nu dt mask conv Sk).

(** get_convection returns the convection of the velocity and vorticity in the context, without the mask *)
Theorem C81_convection_value s : fst (get_convection conv s) = conv (U_hat s) (g s).
Proof. reflexivity. Qed.

(** one pass of the loop whose update callback calls get_convection *)
Definition step_observed (s : kst) : kst := end_of_tstep (snd (get_convection conv (integrate' s))).

Lemma forcing_used (s : kst) : H_hat0 (integrate' s) = extrap mask (conv (U_hat s) (g s)) (H_hat1 s).
Proof. unfold integrate, ComputeRHS, solve_linear. cbv zeta. simpl. apply extrap_eq. Qed.

(** the step after an observed step is forced by the convection of the last field alone (forward Euler), not by the
    Adams-Bashforth extrapolation of kmm_history *)
Theorem C81_callback_euler (s : kst) :
  let s' := step_observed s in
  let N := conv (U_hat s') (g s') in
  forall c j k i, H_hat0 (integrate' s') c j k i = (match mask with None => 1 | Some m => RtoC (m j k) end * N c j k i)%C.
Proof.
  intros s' N c j k i. rewrite forcing_used. change (H_hat1 s') with N. fold N. unfold extrap.
  generalize (N c j k i). intros z. destruct mask as [m|]; apply C_eq; unfold RtoC, Cmul, Csub, Cadd, Copp, C1; cbn [fst snd]; field.
Qed.

(** velocity and vorticity of the step itself are those of the unobserved step *)
Theorem C81_callback_fields (s : kst) :
  let o := step_observed s in
  let q := step cn c1 c2 K1 K2 Kx1 Kx2 root mt sv nu dt mask conv Sk s in
  U_hat o = U_hat q /\ g o = g q /\ U_hat0 o = U_hat0 q.
Proof. intros o q. repeat split. Qed.

(** the forcing of the next step is that of the unobserved run exactly where the convection did not change during the
    observed step *)
Theorem C81_callback_changes (s : kst) c j k i : mask = None ->
  let o := step_observed s in
  let q := step cn c1 c2 K1 K2 Kx1 Kx2 root mt sv nu dt mask conv Sk s in
  H_hat0 (integrate' o) c j k i = H_hat0 (integrate' q) c j k i <->
  conv (U_hat q) (g q) c j k i = conv (U_hat s) (g s) c j k i.
Proof.
  intros Hm o q. rewrite !forcing_used. unfold extrap. rewrite Hm.
  change (H_hat1 o) with (conv (U_hat q) (g q)). change (H_hat1 q) with (conv (U_hat s) (g s)).
  change (U_hat o) with (U_hat q). change (g o) with (g q).
  generalize (conv (U_hat q) (g q) c j k i), (conv (U_hat s) (g s) c j k i). intros (a, b) (a', b').
  unfold Cmul, Csub, Cadd, Copp, RtoC, C1; cbn [fst snd]. split; intros E; inversion E; f_equal; lra.
Qed.

(** KMMRK3: the call does not change what integrate computes *)
Theorem C81_callback_rk3 (s : rst) : integrate_rk' (snd (get_convection_rk conv s)) = integrate_rk' s.
Proof. reflexivity. Qed.
(** the Runge-Kutta variant returns the convection and leaves it in H_hat, other entries unchanged *)
Theorem C81_convection_rk_value (s : rst) : let H := conv (r_U s) (r_g s) in
  fst (get_convection_rk conv s) = H /\ r_H (snd (get_convection_rk conv s)) = H /\
  r_U (snd (get_convection_rk conv s)) = r_U s /\ r_g (snd (get_convection_rk conv s)) = r_g s.
Proof. repeat split. Qed.
End Callback.
Print Assumptions C81_convection_rk_value.
Print Assumptions C81_convection_value.
Print Assumptions C81_callback_euler.
Print Assumptions C81_callback_fields.
Print Assumptions C81_callback_changes.
Print Assumptions C81_callback_rk3.

Section CallbackC.
Context (K1 K2 : nat -> R) (root : bool) (bl : blocks) (nu0 dt0 nu : R) (mask : option (nat -> nat -> R)).
Context (conv : vfld -> vfld) (Sk : vfld) (Msolve : R -> R -> vq -> vq).
Notation c_integrate' := (c_integrate K1 K2 root bl nu0 dt0 nu mask conv Sk Msolve).
Theorem C81_callback_coupled (s : cst) :
  let s' := c_end_of_tstep (snd (get_convection_c conv (c_integrate' s))) in
  let q := c_step K1 K2 root bl nu0 dt0 nu mask conv Sk Msolve s in
  let N := conv (fst (cUP s')) in
  cUP s' = cUP q /\
  forall c j k i,
    cH0 (c_integrate' s') c j k i = (match mask with None => 1 | Some m => RtoC (m j k) end * N c j k i)%C /\
    cH0 (c_integrate' q) c j k i
    = (match mask with None => 1 | Some m => RtoC (m j k) end * (RtoC (3/2) * N c j k i - RtoC (1/2) * conv (fst (cUP s)) c j k i))%C.
Proof.
  intros s' q N. split; [reflexivity|]. intros c j k i.
  assert (F : forall t, cH0 (c_integrate' t) = extrap mask (conv (fst (cUP t))) (cH1 t)).
  { intros t. unfold c_integrate, cComputeRHS. cbv zeta. simpl. apply extrap_eq. }
  rewrite !F. change (cH1 s') with N. change (cH1 q) with (conv (fst (cUP s))). change (conv (fst (cUP q))) with N. fold N.
  unfold extrap. generalize (N c j k i). intros z. split; [|reflexivity].
  destruct mask as [m|]; apply C_eq; unfold RtoC, Cmul, Csub, Cadd, Copp, C1; cbn [fst snd]; field.
Qed.
End CallbackC.
Print Assumptions C81_callback_coupled.

(** a run of two steps in which calling get_convection after the first step changes the velocity of the second *)
Definition Uobs : vfld := fun c j k i => match c with x2 => if ((j =? 0) && (k =? 0) && (i =? 0))%nat then C1 else C0 | _ => C0 end.
Definition s_obs : kst := mkK Uobs (fun _ _ _ => C0) (fun _ _ _ _ => C0) (fun _ _ _ _ => C0) (fun _ _ _ _ => C0) Uobs.
Notation integrate_ex := (integrate x0 x1 x2 INR INR INR INR true mt0 sv0 nu0 1 None conv0 Sk0).
Lemma mean_ex s : U_hat0 s = U_hat s ->
  U_hat (integrate_ex s) x2 0%nat 0%nat 0%nat
  = ((RtoC 4 * (RtoC (3/2) * (Ci * U_hat s x2 0%nat 0%nat 0%nat) - RtoC (1/2) * H_hat1 s x2 0%nat 0%nat 0%nat)
      + RtoC 3 * U_hat s x2 0%nat 0%nat 0%nat) * RtoC (1/5))%C.
Proof.
  intros E. unfold integrate, ComputeRHS, solve_linear. cbv zeta. cbn [U_hat fst snd].
  rewrite set00_other by discriminate. rewrite set00_c. cbn [Nat.eqb andb]. cbn [H_hat0 U_hat0]. rewrite E.
  unfold mean_solve, HelmholtzSolverU0. cbn [Helmholtz sv0 ADD0 BDD0 mt0]. unfold dsolve. cbn [Nat.ltb Nat.leb n3].
  rewrite !diag_dg by (unfold n3; lia). unfold cadd, rsc, csub, mask_vfld, assembleAB, dg. cbn [Nat.ltb Nat.leb n3].
  unfold csub, rsc, conv0, dA, dB, nu0. cbn [INR].
  generalize (U_hat s x2 0%nat 0%nat 0%nat), (H_hat1 s x2 0%nat 0%nat 0%nat). intros u h.
  apply C_eq; unfold RtoC, Ci, Cmul, Csub, Cadd, Copp, C1; cbn [fst snd]; field.
Qed.
Example C81_callback_example :
  let o := step_observed x0 x1 x2 INR INR INR INR true mt0 sv0 nu0 1 None conv0 Sk0 s_obs in
  let q := step x0 x1 x2 INR INR INR INR true mt0 sv0 nu0 1 None conv0 Sk0 s_obs in
  U_hat (integrate_ex o) x2 0%nat 0%nat 0%nat <> U_hat (integrate_ex q) x2 0%nat 0%nat 0%nat.
Proof.
  intros o q.
  assert (E1 : U_hat q x2 0%nat 0%nat 0%nat = (3/5, 6/5)).
  { change (U_hat q) with (U_hat (integrate_ex s_obs)). rewrite mean_ex by reflexivity. cbn [U_hat H_hat1 s_obs]. unfold Uobs. cbn [Nat.eqb andb].
    apply C_eq; unfold RtoC, Ci, Cmul, Csub, Cadd, Copp, C0, C1; cbn [fst snd]; field. }
  rewrite !mean_ex by reflexivity.
  change (H_hat1 o) with (conv0 (U_hat q) (g q)). change (H_hat1 q) with (conv0 (U_hat s_obs) (g s_obs)).
  change (U_hat o) with (U_hat q). unfold conv0. rewrite E1. cbn [U_hat s_obs]. unfold Uobs. cbn [Nat.eqb andb].
  unfold RtoC, Ci, Cmul, Csub, Cadd, Copp, C0, C1; cbn [fst snd]. intros E. inversion E. lra.
Qed.

(** ** C82: KMM.get_pressure *)
(** the system has exactly one solution *)
Theorem C82_solvable N nu dt ksq u u0 h : (2 <= N)%nat ->
  (exists p, is_pressure N nu dt ksq u u0 h p) /\
  (forall p q, is_pressure N nu dt ksq u u0 h p -> is_pressure N nu dt ksq u u0 h q -> forall j, (j < N)%nat -> p j = q j).
Proof.
  intros HN. split.
  - eexists. apply backsub_solves, HN.
  - intros p q Hp Hq j Hj. rewrite (CT_unique N _ p HN Hp j Hj), (CT_unique N _ q HN Hq j Hj). reflexivity.
Qed.
Print Assumptions C82_solvable.

(** the wall normal momentum balance: nu (m'' - ksq m) + H - (u - u0)/dt, with m2 the second derivative of m *)
Definition residual (nu dt ksq : R) (m m2 H u u0 : C) : C :=
  (RtoC nu * (m2 - RtoC ksq * m) + H - RtoC (1 / dt) * (u - u0))%C.
Definition mean_col (u u0 : col) : col := fun i => (RtoC (1/2) * (u i + u0 i))%C.

Lemma rhs_inner N nu dt ksq u u0 h :
  pressure_rhs N nu dt ksq u u0 h
  = inner_T (cadd (rsc nu (lap_ST N ksq (mean_col u u0))) (ST_to_T N (csub h (rsc (1 / dt) (csub u u0))))).
Proof.
  unfold pressure_rhs. cbv zeta. replace (rsc 0.5 (cadd u u0)) with (mean_col u u0).
  - extensionality i. unfold inner_T, cadd. ring.
  - extensionality i. unfold mean_col, rsc, cadd. replace 0.5 with (1/2) by lra. reflexivity.
Qed.
Lemma cheb_add N a b x : cheb N (cadd a b) x = (cheb N a x + cheb N b x)%C.
Proof. unfold cheb. rewrite <- Csum_add. apply Csum_ext. intros k _. unfold cadd. ring. Qed.
Lemma cheb_rsc N r a x : cheb N (rsc r a) x = (RtoC r * cheb N a x)%C.
Proof. unfold cheb. rewrite <- Csum_scal. apply Csum_ext. intros k _. unfold rsc. ring. Qed.
Lemma RtoC_m1 : RtoC (-1) = (- C1)%C.
Proof. apply C_eq; unfold RtoC, Copp, C1; cbn [fst snd]; ring. Qed.
Lemma cheb_sub N a b x : cheb N (csub a b) x = (cheb N a x - cheb N b x)%C.
Proof.
  replace (csub a b) with (cadd a (rsc (- 1) b)).
  - rewrite cheb_add, cheb_rsc, RtoC_m1. ring.
  - extensionality i. unfold csub, cadd, rsc. rewrite RtoC_m1. ring.
Qed.
Lemma dirichlet_lin N r a b x : dirichlet N (csub a (rsc r b)) x = (dirichlet N a x - RtoC r * dirichlet N b x)%C.
Proof.
  unfold dirichlet. replace (RtoC r * _)%C with (Csum (N - 2) (fun k => (RtoC r * (b k * RtoC (T k x - T (k + 2) x)))%C)).
  - rewrite <- Csum_sub. apply Csum_ext. intros k _. unfold csub, rsc. ring.
  - rewrite Csum_scal. reflexivity.
Qed.
Lemma csub_rsc1 (a b : col) : csub a b = csub a (rsc 1 b).
Proof. extensionality i. unfold csub, rsc. rewrite RtoC_1. ring. Qed.

(** the derivative of the pressure is the balance of the fields with the Dirichlet coefficients u, u0, h, up to a
    multiple of T_{N-1}; the mean of the coefficients is fixed by the same number *)
Theorem C82_gradient N nu dt ksq u u0 h p m1 m2 : (3 <= N)%nat -> is_pressure N nu dt ksq u u0 h p ->
  let m := dirichlet N (mean_col u u0) in
  let c := (RtoC (nu * ksq) * mean_col u u0 (N - 3)%nat - h (N - 3)%nat + RtoC (1 / dt) * (u (N - 3)%nat - u0 (N - 3)%nat))%C in
  (forall x, Cderiv m x (m1 x)) -> (forall x, Cderiv m1 x (m2 x)) ->
  (forall x, Cderiv (cheb N p) x
     (residual nu dt ksq (m x) (m2 x) (dirichlet N h x) (dirichlet N u x) (dirichlet N u0 x) - c * RtoC (T (N - 1) x))%C) /\
  p 0%nat = (RtoC (PI / 2) * c)%C.
Proof.
  intros HN Hp m c H1 H2. unfold is_pressure in Hp. rewrite rhs_inner in Hp. set (b := cadd _ _) in Hp.
  destruct (CT_derivative N b p ltac:(lia) Hp) as (D & P0).
  set (M := ST_to_T N (mean_col u u0)).
  assert (Em : forall x, m x = cheb N M x) by (intros; apply ST_cheb; lia).
  assert (Fm : m = cheb N M) by (extensionality x; apply Em).
  assert (E1 : forall x, m1 x = cheb N (D_T N M) x).
  { intros x. apply (Cderiv_unique m x); [apply H1|]. rewrite Fm. apply D_T_deriv. }
  assert (F1 : m1 = cheb N (D_T N M)) by (extensionality x; apply E1).
  assert (E2 : forall x, m2 x = cheb N (D_T N (D_T N M)) x).
  { intros x. apply (Cderiv_unique m1 x); [apply H2|]. rewrite F1. apply D_T_deriv. }
  assert (Hc : b (N - 1)%nat = c).
  { unfold b, cadd, rsc at 1, lap_ST, csub at 1. rewrite D_T_last. unfold rsc at 1, ST_to_T.
    destruct (Nat.ltb_spec (N - 1) (N - 2)); [lia|]. destruct (Nat.leb_spec 2 (N - 1)); [|lia].
    replace (N - 1 - 2)%nat with (N - 3)%nat by lia. unfold c, csub, rsc. rewrite RtoC_mul. ring. }
  split; [|rewrite P0, Hc; reflexivity]. intros x.
  match goal with |- Cderiv _ _ ?z => replace z with (cheb N (D_T N p) x); [apply D_T_deriv|] end.
  transitivity (cheb N b x - c * RtoC (T (N - 1) x))%C.
  - unfold cheb. destruct N as [|n]; [lia|]. replace (S n - 1)%nat with n in * by lia. cbn [Csum].
    assert (L := D_T_last (S n) p). replace (S n - 1)%nat with n in L by lia. rewrite L, Hc.
    rewrite (Csum_ext n (fun k => (D_T (S n) p k * RtoC (T k x))%C) (fun k => (b k * RtoC (T k x))%C)).
    + ring.
    + intros k Hk. rewrite D by lia. reflexivity.
  - f_equal. unfold b, lap_ST. rewrite cheb_add, cheb_rsc, cheb_sub, cheb_rsc. fold M. rewrite <- (ST_cheb N (csub h _)) by lia.
    rewrite (csub_rsc1 u u0), !dirichlet_lin. rewrite <- Em, <- E2. unfold residual. rewrite RtoC_1. ring.
Qed.
Print Assumptions C82_gradient.

(** a pressure q whose derivative is that balance is returned without its T_0 coefficient *)
Theorem C82_exact N nu dt ksq u u0 h p m1 m2 b : (3 <= N)%nat -> is_pressure N nu dt ksq u u0 h p ->
  let m := dirichlet N (mean_col u u0) in
  (forall x, Cderiv m x (m1 x)) -> (forall x, Cderiv m1 x (m2 x)) ->
  (forall x, Cderiv (cheb N b) x (residual nu dt ksq (m x) (m2 x) (dirichlet N h x) (dirichlet N u x) (dirichlet N u0 x))) ->
  p 0%nat = C0 /\ forall j, (1 <= j < N)%nat -> p j = b j.
Proof.
  intros HN Hp m H1 H2 Hb. destruct (C82_gradient N nu dt ksq u u0 h p m1 m2 HN Hp H1 H2) as (D & P0).
  set (c := (_ - _ + _)%C) in D, P0. fold m in D.
  assert (E : forall x, cheb N (D_T N (csub b p)) x = cheb N (fun i => if (i =? N - 1)%nat then c else C0) x).
  { intros x.
    assert (X : cheb N (D_T N (csub b p)) x = (cheb N (D_T N b) x - cheb N (D_T N p) x)%C).
    { rewrite <- cheb_sub. apply cheb_ext. intros i _. unfold D_T, csub.
      replace (Csum N (fun q => if (i <? q)%nat && Nat.odd (q - i) then RtoC (INR q) * (b q - p q) else C0))%C
        with (Csum N (fun q => if (i <? q)%nat && Nat.odd (q - i) then RtoC (INR q) * b q else C0)%C
              - Csum N (fun q => if (i <? q)%nat && Nat.odd (q - i) then RtoC (INR q) * p q else C0)%C)%C; [ring|].
      rewrite <- Csum_sub. apply Csum_ext. intros q _. destruct (_ && _); ring. }
    rewrite X, (Cderiv_unique _ _ _ _ (D_T_deriv N b x) (Hb x)), (Cderiv_unique _ _ _ _ (D_T_deriv N p x) (D x)).
    unfold cheb at 1. rewrite (Csum_ext N _ (fun i => if (i =? N - 1)%nat then (c * RtoC (T i x))%C else C0)).
    - rewrite (Csum_delta N (N - 1) (fun i => (c * RtoC (T i x))%C)). destruct (Nat.ltb_spec (N - 1) N); [ring|lia].
    - intros i _. destruct (i =? N - 1)%nat; ring. }
  pose proof (cheb_inj N _ _ E) as I.
  assert (Hc : c = C0).
  { pose proof (I (N - 1)%nat ltac:(lia)) as L. rewrite D_T_last, Nat.eqb_refl in L. symmetry. exact L. }
  split; [rewrite P0, Hc; ring|]. intros j Hj.
  assert (Z : csub b p j = C0).
  { apply (D_T_zero N (csub b p)); [|exact Hj]. intros i Hi. rewrite (I i Hi), Hc. destruct (i =? N - 1)%nat; reflexivity. }
  unfold csub in Z. replace (p j) with (b j - (b j - p j))%C by ring. rewrite Z. ring.
Qed.
Print Assumptions C82_exact.

(** a concrete state with N = 8, nu = dt = ksq = 1: u is the first basis function, u0 and the convection vanish *)
Definition delta (k : nat) : col := fun i => if (i =? k)%nat then C1 else C0.
Lemma Cderiv_real (f : R -> R) (F : R -> C) x l z : (forall y, F y = RtoC (f y)) -> z = RtoC l -> derivable_pt_lim f x l -> Cderiv F x z.
Proof.
  intros E -> D. assert (F = fun y => RtoC (f y)) as -> by (extensionality y; apply E). unfold Cderiv, RtoC. cbn [fst snd].
  split; [exact D|apply derivable_pt_lim_const].
Qed.
Ltac dpoly := match goal with |- derivable_pt_lim ?f ?x ?l =>
  let pr := fresh in assert (pr : derivable_pt f x) by reg; apply (derive_pt_eq_1 f x l pr); reg; unfold id, fct_cte; field end.
Ltac cx := apply C_eq; unfold T, TT, delta, mean_col, RtoC, Ci, Cmul, Csub, Cadd, Copp, C0, C1; cbn -[Rmult Rplus Ropp Rinv IZR INR];
  unfold Cmul, Csub, Cadd, Copp, C0, C1, INR; cbn [fst snd]; field.
Lemma mean_ex8 x : dirichlet 8 (mean_col (delta 0) czero) x = RtoC (1 - x * x).
Proof. unfold dirichlet, czero. cx. Qed.
Example C82_gradient_example p : is_pressure 8 1 1 1 (delta 0) czero czero p -> Cderiv (cheb 8 p) 0 (RtoC (- 5)).
Proof.
  intros Hp.
  destruct (C82_gradient 8 1 1 1 (delta 0) czero czero p (fun x => RtoC (- 2 * x)) (fun x => RtoC (- 2)) ltac:(lia) Hp) as (D & _).
  - intros x. apply (Cderiv_real (fun y => 1 - y * y) _ x (- 2 * x)); [apply mean_ex8|reflexivity|dpoly].
  - intros x. apply (Cderiv_real (fun y => - 2 * y) _ x (- 2)); [reflexivity|reflexivity|dpoly].
  - specialize (D 0). match type of D with Cderiv _ _ ?z => replace (RtoC (- 5)) with z; [exact D|] end.
    rewrite mean_ex8. unfold residual, dirichlet, czero. cx.
Qed.

(** the coefficients of the wall normal velocity belong to the biharmonic basis (KMM.py:27, 33, 66) *)
Definition biharmonic (N : nat) (v : nat -> C) (x : R) : C :=
  Csum (N - 4) (fun k => (v k * RtoC (T k x - 2 * (INR k + 2) / (INR k + 3) * T (k + 2) x + (INR k + 1) / (INR k + 3) * T (k + 4) x))%C).
Lemma biharmonic_bc N v : biharmonic N v 1 = C0 /\ biharmonic N v (- 1) = C0.
Proof.
  assert (P : forall k, T k 1 = 1 /\ T (S k) 1 = 1).
  { induction k as [|k (IH1 & IH2)]; [split; [apply T_0|apply T_1]|]. split; [exact IH2|]. rewrite T_SS, IH1, IH2. ring. }
  assert (M : forall k, T k (-1) = (-1) ^ k /\ T (S k) (-1) = (-1) ^ (S k)).
  { induction k as [|k (IH1 & IH2)]; [rewrite T_0, T_1; simpl; lra|]. split; [exact IH2|]. rewrite T_SS, IH1, IH2. simpl. ring. }
  split; apply Csum_0; intros k _; pose proof (pos_INR k).
  - rewrite !(proj1 (P _)). replace (1 - _ + _) with 0 by (field; lra). rewrite RtoC_0. ring.
  - replace (- (1)) with (-1) by lra. rewrite !(proj1 (M _)), !pow_add. replace ((-1) ^ k - _ + _) with 0 by (simpl; field; lra). rewrite RtoC_0. ring.
Qed.
Lemma bih_ex8 v x : (forall i, v i = (v 0%nat * delta 0 i)%C) -> biharmonic 8 v x = (v 0%nat * RtoC (8/3 * ((1 - x * x) * (1 - x * x))))%C.
Proof.
  intros E. unfold biharmonic. cbn [Nat.sub Csum]. rewrite (E 1%nat), (E 2%nat), (E 3%nat). set (z := v 0%nat). cx.
Qed.
(** so the returned pressure does not balance the wall normal momentum of the velocity itself *)
Theorem C82_balance_refuted :
  ~ (forall N nu dt ksq u u0 h p m1 m2, (8 <= N)%nat -> 0 < nu -> 0 < dt ->
       (forall i, (N - 4 <= i)%nat -> u i = C0 /\ u0 i = C0) -> h (N - 3)%nat = C0 ->
       is_pressure N nu dt ksq u u0 h p ->
       let m := biharmonic N (mean_col u u0) in
       (forall x, Cderiv m x (m1 x)) -> (forall x, Cderiv m1 x (m2 x)) ->
       forall x, Cderiv (cheb N p) x (residual nu dt ksq (m x) (m2 x) (dirichlet N h x) (biharmonic N u x) (biharmonic N u0 x))).
Proof.
  intros H. destruct (C82_solvable 8 1 1 1 (delta 0) czero czero ltac:(lia)) as ((p & Hp) & _).
  assert (Em : forall x, biharmonic 8 (mean_col (delta 0) czero) x = RtoC (4/3 * ((1 - x * x) * (1 - x * x)))).
  { intros x. rewrite bih_ex8.
    - unfold czero. cx.
    - intros i. unfold mean_col, delta, czero. destruct i; cbn [Nat.eqb]; cx. }
  assert (Hu : forall i, (8 - 4 <= i)%nat -> delta 0 i = C0 /\ czero i = C0).
  { intros i Hi. unfold delta, czero. destruct (Nat.eqb_spec i 0); [lia|auto]. }
  pose proof (H 8%nat 1 1 1 (delta 0) czero czero p (fun x => RtoC (- (16/3) * (x * (1 - x * x)))) (fun x => RtoC (- (16/3) * (1 - 3 * (x * x))))
    ltac:(lia) ltac:(lra) ltac:(lra) Hu eq_refl Hp) as X. cbv zeta in X.
  assert (D := X ltac:(intros x; apply (Cderiv_real (fun y => 4/3 * ((1 - y * y) * (1 - y * y))) _ x (- (16/3) * (x * (1 - x * x)))); [apply Em|reflexivity|dpoly])
    ltac:(intros x; apply (Cderiv_real (fun y => - (16/3) * (y * (1 - y * y))) _ x (- (16/3) * (1 - 3 * (x * x)))); [reflexivity|reflexivity|dpoly]) 0).
  pose proof (Cderiv_unique _ _ _ _ D (C82_gradient_example p Hp)) as E. apply (f_equal fst) in E. rewrite Em in E.
  rewrite bih_ex8 in E by (intros i; unfold delta; destruct i; cbn [Nat.eqb]; cx).
  unfold residual, dirichlet, biharmonic, czero, delta in E.
  rewrite Csum_0 in E by (intros; ring). rewrite (Csum_0 (8 - 4)) in E by (intros; ring).
  unfold RtoC, Cmul, Csub, Cadd, Copp, C0, C1 in E. cbn [fst snd Nat.eqb] in E. lra.
Qed.
Print Assumptions C82_balance_refuted.

(** the T_0 coefficient of every Fourier mode is lost: with no velocity and convection (q', ik q), q = (1 - x^2)^2, the
    returned pressure does not balance the tangential component of a mode with k <> 0 *)
Definition q_col : col := fun i => match i with 0 => RtoC (3/8) | 2 => RtoC (- (1/2)) | 4 => RtoC (1/8) | _ => C0 end%nat.
Lemma q_ex8 x : cheb 8 q_col x = RtoC ((1 - x * x) * (1 - x * x)).
Proof. unfold cheb, q_col. cx. Qed.
Theorem C82_gauge_refuted :
  ~ (forall N nu dt ksq h p b, (8 <= N)%nat -> 0 < nu -> 0 < dt -> is_pressure N nu dt ksq czero czero h p ->
       (forall x, Cderiv (cheb N b) x (dirichlet N h x)) ->
       forall k x, (Ci * RtoC k * cheb N p x = Ci * RtoC k * cheb N b x)%C).
Proof.
  intros H. set (h := fun i => (- delta 1 i)%C).
  destruct (C82_solvable 8 1 1 1 czero czero h ltac:(lia)) as ((p & Hp) & _).
  assert (Hq : forall x, Cderiv (cheb 8 q_col) x (dirichlet 8 h x)).
  { intros x. apply (Cderiv_real (fun y => (1 - y * y) * (1 - y * y)) _ x (- 4 * (x * (1 - x * x)))); [apply q_ex8| |dpoly].
    unfold dirichlet, h. cx. }
  assert (Z : forall x, dirichlet 8 (mean_col czero czero) x = C0).
  { intros x. unfold dirichlet. apply Csum_0. intros i _. unfold mean_col, czero. ring. }
  assert (Z0 : forall x, dirichlet 8 czero x = C0).
  { intros x. unfold dirichlet. apply Csum_0. intros i _. unfold czero. ring. }
  destruct (C82_exact 8 1 1 1 czero czero h p (fun _ => C0) (fun _ => C0) q_col ltac:(lia) Hp) as (P0 & PJ).
  - intros x. apply (Cderiv_real (fun _ => 0) _ x 0); [apply Z|reflexivity|apply derivable_pt_lim_const].
  - intros x. apply (Cderiv_real (fun _ => 0) _ x 0); [reflexivity|reflexivity|apply derivable_pt_lim_const].
  - intros x. match goal with |- Cderiv _ _ ?z => replace z with (dirichlet 8 h x); [apply Hq|] end.
    rewrite Z, !Z0. unfold residual. ring.
  - specialize (H 8%nat 1 1 1 h p q_col ltac:(lia) ltac:(lra) ltac:(lra) Hp Hq 1 0). revert H.
    unfold cheb. cbn [Csum]. rewrite P0, !PJ by lia. unfold q_col, T, TT. intros E. apply (f_equal snd) in E.
    unfold RtoC, Ci, Cmul, Cadd, C0, C1 in E. cbn -[Rmult Rplus Ropp Rinv IZR Rdiv] in E. lra.
Qed.
Print Assumptions C82_gauge_refuted.

(** the modified pressure of the rotational form minus the kinetic energy of the velocity at the half step *)
Theorem C82_static p (U U0 : ax3 -> R) :
  let m i := (U i + U0 i) / 2 in
  pressure_value true p U U0 + (m x0 * m x0 + m x1 * m x1 + m x2 * m x2) / 2 = p /\ pressure_value false p U U0 = p.
Proof.
  intros m. unfold pressure_value, m. replace 0.5 with (1/2) by lra. unfold RsumL. cbn [elems F3 map fold_right].
  split; field.
Qed.
Print Assumptions C82_static.
