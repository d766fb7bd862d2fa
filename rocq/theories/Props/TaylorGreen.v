(** The two-dimensional Taylor-Green demo of the NS2D solver (demo/TG2D.py). *)
From Coq Require Import Reals Lra Lia Arith ZArith List.
From Verif Require Import Base.Cplx Base.Sums Base.Fin Spec.Fourier Spec.Energy Spec.TaylorGreen Spec.Env Spec.RungeKutta
  Model.Maths Model.NS Model.NS2D Model.TG2D Model.Integrators Model.Integrate Model.Solve Model.Run
  Proofs.SolveProofs Proofs.RunProofs Proofs.TaylorGreenProofs Proofs.TaylorGreenRun Props.Loop Props.Demo.
Import ListNotations.
Open Scope R_scope.

(** The transform pair on the mesh M with truncation tr, and the conditions under which it resolves the
    vortex: at least 3 stored modes, 5 points of the dealiased mesh, and the modes (1,1), (-1,1) kept. *)
Definition resolves (N M : ax2 -> nat) (tr : nat * nat -> R) : Prop :=
  (forall i, (3 <= N i)%nat /\ (N i <= M i)%nat /\ (5 <= M i)%nat) /\
  tr (1, 1)%nat = 1 /\ tr (N a0 - 1, 1)%nat = 1.
Definition fourier2 (N M : ax2 -> nat) (tr : nat * nat -> R) : transf (nat * nat) (nat * nat) :=
  mkTransf _ _ (irfft2 N M tr) (rfft2 N M tr).
(** without padding and truncation *)
Definition plain (k : nat * nat) : R := 1.

Section TG.
Context {E : Type} (N M : ax2 -> nat) (tr : nat * nat -> R) (mask : option (nat * nat -> bool)) (nu : R).
Notation V2 := (svec ax2 (nat * nat)).
Notation B2 := (ns2buf (nat * nat) (nat * nat)).
Notation rhs := (ComputeRHS_NS2D (fourier2 N M tr) (wavenumber2 N) mask nu (fun _ _ => C0)).
Context (est : V2 -> V2 -> V2 -> R) (upd : R -> nat -> V2 * V2 * B2 * E -> V2 * V2 * B2 * E)
        (out : R -> nat -> V2 -> B2 * E -> B2 * E * bool).

(** ** C74 *)
(** initialize() stores exactly the four modes of the vortex *)
Theorem C74_initial U : (3 <= N a0)%nat -> (3 <= N a1)%nat ->
  tg_modes N 1 (tg_init (fourier2 N N plain) (mesh2 N) U).
Proof. intros H0 H1. apply tg_init_modes; assumption. Qed.
(** get_velocity of an array with these modes is the vortex of that amplitude *)
Theorem C74_velocity c v : resolves N M tr -> tg_modes N c v ->
  forall i x, bwdV (fourier2 N M tr) v i x = taylor_green c (mesh2 M a0 x) (mesh2 M a1 x) i.
Proof.
  intros (H & Hp & Hn) Hv i x. destruct (H a0) as (A1 & A2 & A3). destruct (H a1) as (B1 & B2 & B3).
  apply (tg_bwd N M tr A1 B1 A2 B2 c v i x Hp Hn Hv).
Qed.
(** the nonlinear term is a pressure gradient: the computed right hand side is -2 nu u *)
Theorem C74_rhs c b r v : resolves N M tr -> tg_modes N c v -> tg_modes N (- 2 * nu * c) (fst (rhs b r v)).
Proof.
  intros (H & Hp & Hn) Hv. destruct (H a0) as (A1 & A2 & A3). destruct (H a1) as (B1 & B2 & B3).
  apply (tg_rhs N M tr A1 B1 A2 B2 c nu mask b r v A3 B3 Hp Hn Hv).
Qed.
(** the flow stays a multiple of the vortex, with every integrator and in any arithmetic of t and dt *)
Theorem C74_shape rnd T fuel g s0 s U :
  resolves N M tr -> update_keeps upd (fun v => exists a, tg_modes N a v) ->
  at_start s0 (tg_init (fourier2 N N plain) (mesh2 N) U) ->
  observed rhs est upd out rnd T fuel g s0 s ->
  exists a, tg_modes N a (solution (l_w s)).
Proof.
  intros Hr Hu Hs0 Ho. destruct Hr as (H & Hp & Hn) eqn:Er. destruct (H a0) as (A1 & A2 & A3). destruct (H a1) as (B1 & B2 & B3).
  refine (run_inv_start rhs est upd out (fun v => exists a, tg_modes N a v) (tg_subspace N) _ Hu rnd T fuel g s0 s _ Hs0 _ Ho).
  - intros b r u [a Ha]. exists (- 2 * nu * a). apply C74_rhs; assumption.
  - exists 1. apply C74_initial; assumption.
Qed.
(** solve() with RK4: the error printed by regression_test *)
Theorem C74_regression T fuel fl s0 s' U dx L :
  resolves N M tr -> update_readonly upd -> 0 <= T -> 0 <= nu ->
  at_start s0 (tg_init (fourier2 N N plain) (mesh2 N) U) ->
  l_t s0 = 0 -> l_tstep s0 = 0%nat -> 0 < l_dt s0 -> 2 * nu * (l_dt s0 + eps12) <= / 2 ->
  (forall i, 0 < L i) -> (forall i, dx i = L i / INR (N i)) ->
  run_solve rhs est upd out (fun x => x) T (S fuel) IRK4 fl s0 = Some (Returned s') ->
  Rabs (tg_error (fourier2 N N plain) (mesh2 N) (points2 N) dx L nu (l_t s') (solution (l_w s')))
  <= ((T + eps12) / l_dt s0 + 1) * ((2 * nu * (l_dt s0 + eps12)) ^ 5 / 30).
Proof.
  intros (H & Hp & Hn) Hu HT Hnu (r0 & c0 & e0 & Hw) Ht Hts Hdt Hh HL Hdx Hrun.
  destruct (H a0) as (A1 & A2 & A3). destruct (H a1) as (B1 & B2 & B3).
  refine (error_bound N M tr mask nu A1 B1 A2 B2 A3 B3 Hp Hn est upd out Hu T fuel HT Hnu s0 Ht Hts Hdt _ Hh dx L fl s' HL Hdx Hrun).
  rewrite Hw. cbn. apply C74_initial; assumption.
Qed.
End TG.

(** the demo with its own parameters: nu = 0.01, dt = 0.05, T = 10, 64 x 64 modes, ntol = 7, with any dealiasing *)
Theorem C74_demo {E} (M : ax2 -> nat) tr mask est
    (upd : R -> nat -> _ -> svec ax2 (nat * nat) * svec ax2 (nat * nat) * ns2buf (nat * nat) (nat * nat) * E)
    (out : R -> nat -> svec ax2 (nat * nat) -> ns2buf (nat * nat) (nat * nat) * E -> _) fuel s0 U :
  let N := fun _ : ax2 => 64%nat in let L := fun _ : ax2 => 2 * PI in let dx := fun i : ax2 => L i / INR (N i) in
  let rhs := ComputeRHS_NS2D (fourier2 N M tr) (wavenumber2 N) mask (/ 100) (fun _ _ => C0) in
  (forall i, (64 <= M i)%nat) -> tr (1, 1)%nat = 1 -> tr (63, 1)%nat = 1 ->
  update_readonly upd -> never_killed out ->
  at_start s0 (tg_init (fourier2 N N plain) (mesh2 N) U) -> l_t s0 = 0 -> l_tstep s0 = 0%nat -> l_dt s0 = / 20 ->
  exists fl s', run_solve rhs est upd out (fun x => x) 10 (S fuel) IRK4 fl s0 = Some (Returned s') /\
    rounds_to_zero 7 (tg_error (fourier2 N N plain) (mesh2 N) (points2 N) dx L (/ 100) (l_t s') (solution (l_w s'))).
Proof.
  cbv zeta. intros HM H1 H2 Hu Hk Hs Ht Hts Hdt. pose proof eps12_pos as He.
  assert (He2 : eps12 <= / 1000) by (unfold eps12; apply Rinv_le_contravar; lra).
  edestruct (C15_fixed (ComputeRHS_NS2D (fourier2 (fun _ => 64%nat) M tr) (wavenumber2 (fun _ => 64%nat)) mask (/ 100) (fun _ _ => C0))
     est upd out 10 fuel IRK4 s0) as (fl & s' & Hrun & _); [discriminate|exact Hk|lra|lra|].
  exists fl, s'. split; [exact Hrun|]. unfold rounds_to_zero.
  eapply Rle_trans.
  - apply (C74_regression (fun _ => 64%nat) M tr mask (/ 100) est upd out 10 fuel fl s0 s' U); auto; try lra.
    + split; [|auto]. intros i. specialize (HM i). lia.
    + intros _. pose proof PI_RGT_0. lra.
  - rewrite Hdt.
    assert (H5 : (2 * / 100 * (/ 20 + eps12)) ^ 5 <= (2 / 1000) ^ 5) by (apply pow_incr; lra).
    assert (H0 : 0 <= (2 * / 100 * (/ 20 + eps12)) ^ 5) by (apply pow_le; lra).
    apply Rle_trans with (300 * ((2 / 1000) ^ 5 / 30)); [|lra].
    apply Rmult_le_compat; lra.
Qed.
(** the initial field of the 64 x 64 demo is not zero *)
Example C74_nonvacuous : let N := fun _ : ax2 => 64%nat in
  tg_init (fourier2 N N plain) (mesh2 N) (fun _ _ => 0) a0 (1, 1)%nat = (0, - (1) / 4) /\
  resolves N (fun _ => 96%nat) plain /\
  exists s : lstate (world ax2 (nat * nat) (ns2buf (nat * nat) (nat * nat)) unit),
    at_start s (tg_init (fourier2 N N plain) (mesh2 N) (fun _ _ => 0)) /\ l_t s = 0 /\ l_dt s = / 20.
Proof.
  cbv zeta. split; [|split].
  - rewrite (C74_initial (fun _ => 64%nat) (fun _ _ => 0)) by (try apply in_prod; try apply in_seq; cbn; lia). reflexivity.
  - split; [intros i; lia|split; reflexivity].
  - exists (mkL 0 (/ 20) 0 (mkWorld (init_istate (tg_init (fourier2 (fun _ => 64%nat) (fun _ => 64%nat) plain) (mesh2 (fun _ => 64%nat)) (fun _ _ => 0))
      (fun _ _ => C0) (mkNs2buf (fun _ _ => 0) (fun _ => 0) (fun _ => C0) (fun _ => C0))) tt) false []).
    split; [do 3 eexists; reflexivity|split; reflexivity].
Qed.
Print Assumptions C74_initial.
Print Assumptions C74_velocity.
Print Assumptions C74_rhs.
Print Assumptions C74_shape.
Print Assumptions C74_regression.
Print Assumptions C74_demo.
