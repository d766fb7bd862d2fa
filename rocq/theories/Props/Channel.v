(** Theorems on the channel solvers: C42, C43, C44, C53. *)
From Coq Require Import Reals List Bool Arith Lia Lra FunctionalExtensionality.
From Verif Require Import Base.Cplx Base.Sums Base.Fin Model.KMM Spec.Channel Proofs.KMMProofs.
Open Scope R_scope.

Section Channel.
Context (cn c1 c2 : ax3).
Hypothesis Hn1 : cn <> c1.
Hypothesis Hn2 : cn <> c2.
Hypothesis H12 : c1 <> c2.
Context (K1 K2 Kx1 Kx2 : nat -> R) (root : bool) (mt : mats) (sv : solvers).
Context (nu dt : R) (mask : option (nat -> nat -> R)) (conv : vfld -> fld -> vfld) (Sk : vfld).
(** nd, nb: numbers of Dirichlet (N-2) and biharmonic (N-4) basis functions *)
Context (nd nb n1 n2 : nat).

Notation integrate' := (integrate cn c1 c2 K1 K2 Kx1 Kx2 root mt sv nu dt mask conv Sk).
Notation step' := (step cn c1 c2 K1 K2 Kx1 Kx2 root mt sv nu dt mask conv Sk).
Notation stage' := (stage cn c1 c2 K1 K2 Kx1 Kx2 root mt sv nu dt mask conv Sk).
Notation integrate_rk' := (integrate_rk cn c1 c2 K1 K2 Kx1 Kx2 root mt sv nu dt mask conv Sk).
Notation ksq j k := (K1 j * K1 j + K2 k * K2 k).

(** ** C42 *)

(** the common end of the two solve_linear functions *)
Lemma vw_spec (U : vfld) f gh j k : KMM.Ksq K1 K2 j k <> 0 ->
  let u := compute_vw c1 c2 K1 K2 U f gh in
  (forall i, (Ci * RtoC (K1 j) * u c1 j k i + Ci * RtoC (K2 k) * u c2 j k i = f j k i)%C) /\
  normal_vorticity (K1 j) (K2 k) (u c1 j k) (u c2 j k) (gh j k) /\ u cn = U cn.
Proof.
  intros Hk u. unfold u, compute_vw.
  assert (E1 : forall (f1 f2 : fld), upd F3 (upd F3 U c1 f1) c2 f2 c1 = f1).
  { intros. rewrite upd_other by congruence. apply upd_same. }
  assert (E2 : forall (f1 f2 : fld), upd F3 (upd F3 U c1 f1) c2 f2 c2 = f2) by (intros; apply upd_same).
  assert (E3 : forall (f1 f2 : fld), upd F3 (upd F3 U c1 f1) c2 f2 cn = U cn).
  { intros. rewrite !upd_other by congruence. reflexivity. }
  rewrite E1, E2, E3. repeat split.
  - intros i. unfold csc, csub, cadd, rsc, KoK1, KoK2. rewrite (where1_neq _ Hk).
    apply recon_div, Hk.
  - intros i. unfold csc, csub, cadd, rsc, KoK1, KoK2. rewrite (where1_neq _ Hk).
    apply recon_vort, Hk.
Qed.

Lemma set00_c (u : vfld) c x j k : set00 u c x c j k = if (j =? 0) && (k =? 0) then x else u c j k.
Proof. unfold set00. rewrite upd_same. reflexivity. Qed.
Lemma set00_other (u : vfld) c c' x : c' <> c -> set00 u c x c' = u c'.
Proof. intros H. unfold set00. rewrite upd_other by exact H. reflexivity. Qed.

Lemma mean3_cn (u : vfld) m0 m1 j k :
  set00 (set00 (set00 u c1 m0) c2 m1) cn czero cn j k
  = if (j =? 0) && (k =? 0) then czero else u cn j k.
Proof. rewrite set00_c, !set00_other by congruence. reflexivity. Qed.
Lemma mean3_c1 (u : vfld) m0 m1 j k :
  set00 (set00 (set00 u c1 m0) c2 m1) cn czero c1 j k
  = if (j =? 0) && (k =? 0) then m0 else u c1 j k.
Proof. rewrite !set00_other by congruence. apply set00_c. Qed.
Lemma mean3_c2 (u : vfld) m0 m1 j k :
  set00 (set00 (set00 u c1 m0) c2 m1) cn czero c2 j k
  = if (j =? 0) && (k =? 0) then m1 else u c2 j k.
Proof. rewrite set00_other by congruence. rewrite set00_c, set00_other by congruence. reflexivity. Qed.

Lemma at00 j k : (j =? 0) && (k =? 0) = true <-> j = 0%nat /\ k = 0%nat.
Proof. rewrite andb_true_iff, !Nat.eqb_eq. reflexivity. Qed.

(** What solve_linear guarantees about u = (wall normal, v, w) and g. *)
Definition good_field (u : vfld) (gh : fld) : Prop :=
  forall j k, (j < n1)%nat -> (k < n2)%nat ->
    continuity nd (BDD mt) (CDB mt) (K1 j) (K2 k) (u cn j k) (u c1 j k) (u c2 j k) /\
    (~ (K1 j = 0 /\ K2 k = 0) ->
       normal_vorticity (K1 j) (K2 k) (u c1 j k) (u c2 j k) (gh j k)) /\
    (K1 j = 0 /\ K2 k = 0 -> forall i, u cn j k i = C0).

Lemma vw_good (U : vfld) (f gh : fld) m0 m1 :
  zero_mode_on_root n1 n2 root K1 K2 ->
  linear (BDD mt) -> linear (CDB mt) -> solves nd (BDD mt) (TDMA sv (BDD mt)) ->
  (forall j k d, is_dx nd (BDD mt) (CDB mt) (U cn j k) d -> forall i, f j k i = (- d i)%C) ->
  let u := compute_vw c1 c2 K1 K2 U f gh in
  good_field (if root then set00 (set00 (set00 u c1 m0) c2 m1) cn czero else u) gh.
Proof.
  intros Hz HB HD HT Hf u j k Hj Hk.
  destruct (Req_dec (KMM.Ksq K1 K2 j k) 0) as [E | E].
  - (* zero mode *)
    apply sumsq_0 in E. pose proof (proj1 (Hz j k Hj Hk) E) as (Hr & -> & ->).
    rewrite Hr. rewrite mean3_cn, mean3_c1, mean3_c2. simpl.
    destruct E as (E1 & E2). rewrite E1, E2. repeat split.
    + intros d Hd i.
      rewrite (dx_zero nd (BDD mt) (CDB mt) (TDMA sv (BDD mt)) HB HD HT d Hd i).
      rewrite RtoC_0. ring.
    + intros H. exfalso. apply H. split; reflexivity.
  - assert (Hnz : ~ (K1 j = 0 /\ K2 k = 0)).
    { intros (A & B). apply E. unfold KMM.Ksq. rewrite A, B. ring. }
    destruct (vw_spec U f gh j k E) as (S1 & S2 & S3). fold u in S1, S2, S3.
    assert (X : forall c, c = cn \/ c = c1 \/ c = c2 ->
              (if root then set00 (set00 (set00 u c1 m0) c2 m1) cn czero else u) c j k = u c j k).
    { intros c Hc. destruct root eqn:R; [|reflexivity].
      assert (Hb : (j =? 0) && (k =? 0) = false).
      { destruct ((j =? 0) && (k =? 0)) eqn:Eb; [|reflexivity].
        apply at00 in Eb. exfalso. apply Hnz, (proj2 (Hz j k Hj Hk)). auto. }
      destruct Hc as [-> | [-> | ->]].
      - rewrite mean3_cn, Hb. reflexivity.
      - rewrite mean3_c1, Hb. reflexivity.
      - rewrite mean3_c2, Hb. reflexivity. }
    rewrite !X by auto. split; [|split].
    + intros d Hd i. rewrite S3 in Hd. pose proof (S1 i) as S. rewrite (Hf j k d Hd i) in S.
      replace (d i + Ci * RtoC (K1 j) * u c1 j k i + Ci * RtoC (K2 k) * u c2 j k i)%C
        with (d i + (Ci * RtoC (K1 j) * u c1 j k i + Ci * RtoC (K2 k) * u c2 j k i))%C by ring.
      rewrite S. ring.
    + intros _. exact S2.
    + intros H. contradiction.
Qed.

(** C42 for KMM and KMMr: every call of integrate() leaves a velocity that satisfies
    continuity in all modes, reproduces g in all modes but (0,0), and has zero wall
    normal velocity in mode (0,0), whatever the state before. *)
Theorem kmm_continuity (s : kst) :
  zero_mode_on_root n1 n2 root K1 K2 ->
  linear (BDD mt) -> linear (CDB mt) -> solves nd (BDD mt) (TDMA sv (BDD mt)) ->
  good_field (U_hat (integrate' s)) (g (integrate' s)).
Proof.
  intros Hz HB HD HT. unfold integrate, ComputeRHS, solve_linear. cbv zeta. simpl.
  apply vw_good; try assumption. intros j k d Hd i. apply (tdma_neg nd _ _ _ HB HD HT _ _ Hd i).
Qed.

(** C42 for every stage of KMMRK3, hence for a whole step *)
Theorem kmmrk3_stage_continuity (rk : nat) (s : rst) :
  zero_mode_on_root n1 n2 root K1 K2 ->
  linear (BDD mt) -> linear (CDB mt) -> solves nd (BDD mt) (TDMA sv (BDD mt)) ->
  good_field (r_U (stage' rk s)) (r_g (stage' rk s)).
Proof.
  intros Hz HB HD HT. unfold stage, ComputeRHS_rk, solve_linear_rk. cbv zeta. simpl.
  assert (W : forall (m0 m1 : col) (f gh : fld) (U : vfld),
     (forall j k d, is_dx nd (BDD mt) (CDB mt) (U cn j k) d -> forall i, f j k i = (- d i)%C) ->
     let u := compute_vw c1 c2 K1 K2 U f gh in
     good_field (if root then set00 (set00 (set00 u c1 m0) c2 m1) cn czero else u) gh)
    by (intros; apply vw_good; assumption).
  destruct root.
  - simpl. apply W. intros j k d Hd i. apply (tdma_neg' nd _ _ _ HB HD HT _ _ Hd i).
  - simpl. refine (W czero czero _ _ _ _). intros j k d Hd i. apply (tdma_neg' nd _ _ _ HB HD HT _ _ Hd i).
Qed.
Theorem kmmrk3_continuity (s : rst) :
  zero_mode_on_root n1 n2 root K1 K2 ->
  linear (BDD mt) -> linear (CDB mt) -> solves nd (BDD mt) (TDMA sv (BDD mt)) ->
  good_field (r_U (integrate_rk' s)) (r_g (integrate_rk' s)).
Proof. intros. unfold integrate_rk. apply kmmrk3_stage_continuity; assumption. Qed.

(** get_divergence of such a field vanishes at every mesh point *)
Definition bwd_linear {X : Type} (bwd : fld -> X -> R) : Prop :=
  (forall a b x, bwd (fun j k i => (a j k i + b j k i)%C) x = bwd a x + bwd b x) /\
  (forall a x, (forall j k i, (j < n1)%nat -> (k < n2)%nat -> a j k i = C0) -> bwd a x = 0).

Theorem kmm_divergence_free {X : Type} (bwd : fld -> X -> R) (u : vfld) (gh : fld) :
  bwd_linear bwd -> solves nd (BDD mt) (TDMA sv (BDD mt)) ->
  good_field u gh ->
  forall x, get_divergence cn c1 c2 K1 K2 mt sv bwd u x = 0.
Proof.
  intros (Ha & Hz) HT Hu x. unfold get_divergence. cbv zeta.
  rewrite <- Ha, <- Ha. apply Hz. intros j k i Hj Hk.
  destruct (Hu j k Hj Hk) as (Hc & _). unfold csc.
  apply (Hc (TDMASolverD mt sv (CDB mt (u cn j k)))).
  destruct HT as (T1 & T2 & _). split; [apply T2 | apply T1].
Qed.

(** ** C43 *)

(** The convection used in a step: masked Adams-Bashforth extrapolation. *)
Definition extrap (Nnow Nold : vfld) : vfld := fun c j k i =>
  (match mask with None => 1 | Some m => RtoC (m j k) end
   * (RtoC (3/2) * Nnow c j k i - RtoC (1/2) * Nold c j k i))%C.

Lemma extrap_eq H H1 : mask_vfld mask (assembleAB H H1) = extrap H H1.
Proof.
  unfold extrap, mask_vfld, assembleAB. destruct mask; extensionality c; extensionality j;
  extensionality k; extensionality i; unfold rsc, csub; [reflexivity|ring].
Qed.

Lemma hv_spec (H : vfld) j k :
  hv_of cn c1 c2 K1 K2 Kx1 Kx2 mt H j k
  = rhs_u (Kx1 j) (Kx2 k) (ksq j k) (BBD mt) (CBD mt) (H cn j k) (H c1 j k) (H c2 j k).
Proof.
  extensionality i. unfold hv_of, rhs_u, rsc, csc, csub, KMM.Ksq. rewrite RtoC_opp. ring.
Qed.
Lemma hg_spec (H : vfld) j k :
  hg_of c1 c2 Kx1 Kx2 mt H j k
  = rhs_g (Kx1 j) (Kx2 k) (BDD mt) (H c1 j k) (H c2 j k).
Proof. extensionality i. unfold hg_of, rhs_g, csc, csub. ring. Qed.

(** Solver hypotheses of KMM: each object solves the system it was built for. *)
Definition kmm_solvers_ok : Prop :=
  (forall j k, solves nd (comb2 (- 1) (ADD mt) (ksq j k + 2 / nu / dt) (BDD mt))
                 (Helmholtz sv (ADD mt) (BDD mt) (- 1) (ksq j k + 2 / nu / dt))) /\
  (forall j k, solves nb (comb3 (- (nu * dt / 2)) (SBB mt) (1 + nu * dt * ksq j k) (ABB mt)
                            (- (ksq j k + nu * dt / 2 * (ksq j k * ksq j k))) (BBB mt))
                 (Biharmonic sv (SBB mt) (ABB mt) (BBB mt) (- (nu * dt / 2)) (1 + nu * dt * ksq j k)
                    (- (ksq j k + nu * dt / 2 * (ksq j k * ksq j k))))) /\
  solves nd (comb2 (- 1) (ADD0 mt) (2 / nu / dt) (BDD0 mt))
         (Helmholtz sv (ADD0 mt) (BDD0 mt) (- 1) (2 / nu / dt)).

(** mean flow mode of this rank *)
Definition mean_mode (j k : nat) : Prop := root = true /\ j = 0%nat /\ k = 0%nat.

Lemma visc0 A B u i : visc nu 0 A B u i = (RtoC nu * A u i)%C.
Proof. unfold visc, comb2. rewrite Rmult_0_r, Ropp_0, RtoC_0. ring. Qed.

(** One call of integrate() is Crank-Nicolson for the linear terms, with the extrapolated
    convection as forcing, for u (all modes but the mean mode), g and the mean velocities. *)
Theorem kmm_crank_nicolson (s : kst) :
  nu <> 0 -> dt <> 0 -> kmm_solvers_ok -> linear (BDD0 mt) ->
  let s' := integrate' s in
  let N := extrap (conv (U_hat s) (g s)) (H_hat1 s) in
  (forall j k, ~ mean_mode j k ->
     crank_nicolson nb (lap (ksq j k) (ABB mt) (BBB mt)) (bih nu (ksq j k) (SBB mt) (ABB mt) (BBB mt)) dt
       (rhs_u (Kx1 j) (Kx2 k) (ksq j k) (BBD mt) (CBD mt) (N cn j k) (N c1 j k) (N c2 j k))
       (U_hat s cn j k) (U_hat s' cn j k)) /\
  (forall j k,
     crank_nicolson nd (BDD mt) (visc nu (ksq j k) (ADD mt) (BDD mt)) dt
       (rhs_g (Kx1 j) (Kx2 k) (BDD mt) (N c1 j k) (N c2 j k))
       (g s j k) (g s' j k)) /\
  (root = true ->
     crank_nicolson nd (BDD0 mt) (visc nu 0 (ADD0 mt) (BDD0 mt)) dt
       (fun i => (BDD0 mt (N c1 0%nat 0%nat) i - Sk c1 0%nat 0%nat i)%C)
       (U_hat0 s c1 0%nat 0%nat) (U_hat s' c1 0%nat 0%nat) /\
     crank_nicolson nd (BDD0 mt) (visc nu 0 (ADD0 mt) (BDD0 mt)) dt
       (BDD0 mt (N c2 0%nat 0%nat))
       (U_hat0 s c2 0%nat 0%nat) (U_hat s' c2 0%nat 0%nat)).
Proof.
  intros Hnu Hdt (HG & HU & H0) HB0 s' N.
  assert (EN : mask_vfld mask (assembleAB (conv (U_hat s) (g s)) (H_hat1 s)) = N) by apply extrap_eq.
  unfold s', integrate, ComputeRHS, solve_linear. cbv zeta. simpl. rewrite EN. split; [|split].
  - intros j k Hm. set (v := compute_vw _ _ _ _ _ _ _).
    assert (Ev : v cn j k = BiharmonicSolverU K1 K2 mt sv nu dt j k
       (cadd (rsc dt (hv_of cn c1 c2 K1 K2 Kx1 Kx2 mt N j k)) (AC K1 K2 mt nu dt j k (U_hat s cn j k)))).
    { unfold v, compute_vw. rewrite !upd_other by congruence. rewrite upd_same. reflexivity. }
    assert (Eu : (if root then set00 (set00 (set00 v c1 (mean_solve mt sv nu dt (N c1 0%nat 0%nat) (U_hat0 s c1 0%nat 0%nat) (Some (Sk c1 0%nat 0%nat))))
                          c2 (mean_solve mt sv nu dt (N c2 0%nat 0%nat) (U_hat0 s c2 0%nat 0%nat) None)) cn czero else v) cn j k = v cn j k).
    { destruct root eqn:R; [|reflexivity]. rewrite mean3_cn.
      destruct ((j =? 0) && (k =? 0)) eqn:Eb; [|reflexivity].
      apply at00 in Eb. exfalso. apply Hm. split; [exact R | exact Eb]. }
    rewrite Eu, Ev. rewrite hv_spec. apply bih_cn; [exact Hdt | apply HU].
  - intros j k. rewrite hg_spec. apply helm_cn; [exact Hnu | exact Hdt | apply HG].
  - intros R. rewrite R. rewrite mean3_c1, mean3_c2. simpl.
    assert (H0' : solves nd (comb2 (- 1) (ADD0 mt) (0 + 2 / nu / dt) (BDD0 mt))
         (Helmholtz sv (ADD0 mt) (BDD0 mt) (- 1) (2 / nu / dt))) by (rewrite Rplus_0_l; exact H0).
    split.
    + pose proof (helm_cn nd _ _ _ nu 0 dt
        (fun i => (BDD0 mt (N c1 0%nat 0%nat) i - Sk c1 0%nat 0%nat i)%C) (U_hat0 s c1 0%nat 0%nat) Hnu Hdt H0') as E.
      unfold mean_solve, HelmholtzSolverU0.
      match goal with |- crank_nicolson _ _ _ _ _ _ (?S ?w) =>
        match type of E with crank_nicolson _ _ _ _ _ _ (_ ?w') => replace w with w' end end; [exact E|].
      extensionality i. rewrite (lin_rsc _ _ _ HB0). unfold cadd, csub, rsc, HelmholtzCoeff, cadd, rsc.
      replace (- (0 - 2 / nu / dt)) with (2 / nu / dt) by ring. rewrite RtoC_1. ring.
    + pose proof (helm_cn nd _ _ _ nu 0 dt
        (BDD0 mt (N c2 0%nat 0%nat)) (U_hat0 s c2 0%nat 0%nat) Hnu Hdt H0') as E.
      unfold mean_solve, HelmholtzSolverU0.
      match goal with |- crank_nicolson _ _ _ _ _ _ (?S ?w) =>
        match type of E with crank_nicolson _ _ _ _ _ _ (_ ?w') => replace w with w' end end; [exact E|].
      extensionality i. rewrite !(lin_rsc _ _ _ HB0). unfold cadd, csub, rsc, HelmholtzCoeff, cadd, rsc.
      replace (- (0 - 2 / nu / dt)) with (2 / nu / dt) by ring. rewrite RtoC_1. ring.
Qed.

(** ** C53: history rotation *)
Notation run n s := (Nat.iter n step' s).

(** When step n+1 is computed, U_hat0 holds the field of step n and H_hat1 the (unmasked)
    convection of step n-1; when update() and the checkpoint writer run, U_hat0 still holds
    the field of the previous step and H_hat0 the extrapolated convection used in the step. *)
Theorem kmm_history (s0 : kst) (n : nat) :
  let s := run (S n) s0 in
  let p := run n s0 in
  U_hat0 s = U_hat s /\
  H_hat1 s = conv (U_hat p) (g p) /\
  U_hat0 (integrate' s) = U_hat s /\
  H_hat0 (integrate' s) = extrap (conv (U_hat s) (g s)) (conv (U_hat p) (g p)).
Proof.
  intros s p.
  assert (E : s = step' p) by reflexivity.
  assert (H1 : U_hat0 s = U_hat s) by (rewrite E; reflexivity).
  assert (H2 : H_hat1 s = conv (U_hat p) (g p)) by (rewrite E; reflexivity).
  split; [exact H1 | split; [exact H2 | split]].
  - exact H1.
  - rewrite <- H2. clearbody s. unfold integrate, ComputeRHS, solve_linear. cbv zeta. simpl.
    apply extrap_eq.
Qed.

(** C43 along a whole run: from the second step on, every step is second order
    Adams-Bashforth / Crank-Nicolson in terms of the fields of the run alone. *)
Theorem kmm_run_ab2_cn (s0 : kst) (n : nat) :
  nu <> 0 -> dt <> 0 -> kmm_solvers_ok -> linear (BDD0 mt) ->
  let U m := U_hat (run m s0) in
  let om m := g (run m s0) in
  let N := extrap (conv (U (S n)) (om (S n))) (conv (U n) (om n)) in
  (forall j k, ~ mean_mode j k ->
     crank_nicolson nb (lap (ksq j k) (ABB mt) (BBB mt)) (bih nu (ksq j k) (SBB mt) (ABB mt) (BBB mt)) dt
       (rhs_u (Kx1 j) (Kx2 k) (ksq j k) (BBD mt) (CBD mt) (N cn j k) (N c1 j k) (N c2 j k))
       (U (S n) cn j k) (U (S (S n)) cn j k)) /\
  (forall j k,
     crank_nicolson nd (BDD mt) (visc nu (ksq j k) (ADD mt) (BDD mt)) dt
       (rhs_g (Kx1 j) (Kx2 k) (BDD mt) (N c1 j k) (N c2 j k))
       (om (S n) j k) (om (S (S n)) j k)) /\
  (root = true ->
     crank_nicolson nd (BDD0 mt) (visc nu 0 (ADD0 mt) (BDD0 mt)) dt
       (fun i => (BDD0 mt (N c1 0%nat 0%nat) i - Sk c1 0%nat 0%nat i)%C)
       (U (S n) c1 0%nat 0%nat) (U (S (S n)) c1 0%nat 0%nat) /\
     crank_nicolson nd (BDD0 mt) (visc nu 0 (ADD0 mt) (BDD0 mt)) dt
       (BDD0 mt (N c2 0%nat 0%nat))
       (U (S n) c2 0%nat 0%nat) (U (S (S n)) c2 0%nat 0%nat)).
Proof.
  intros Hnu Hdt Hs HB U om N.
  pose proof (kmm_crank_nicolson (run (S n) s0) Hnu Hdt Hs HB) as T.
  destruct (kmm_history s0 n) as (E1 & E2 & _ & _).
  cbv zeta in T. rewrite E1, E2 in T. exact T.
Qed.

(** ** C43 for KMMRK3 *)
Notation theta rk := (rk_a rk + rk_b rk).
Definition rk_solvers_ok : Prop :=
  forall rk, (rk < 3)%nat ->
  (forall j k, solves nd (comb2 (- 1) (ADD mt) (ksq j k + 2 / nu / theta rk / dt) (BDD mt))
                 (Helmholtz sv (ADD mt) (BDD mt) (- 1) (ksq j k + 2 / nu / theta rk / dt))) /\
  (forall j k, solves nb (comb3 (- (nu * theta rk * dt / 2)) (SBB mt) (1 + nu * theta rk * dt * ksq j k) (ABB mt)
                            (- (ksq j k + nu * theta rk * dt / 2 * (ksq j k * ksq j k))) (BBB mt))
                 (Biharmonic sv (SBB mt) (ABB mt) (BBB mt) (- (nu * theta rk * dt / 2)) (1 + nu * theta rk * dt * ksq j k)
                    (- (ksq j k + nu * theta rk * dt / 2 * (ksq j k * ksq j k))))) /\
  solves nd (comb2 (- 1) (ADD0 mt) (2 / nu / theta rk / dt) (BDD0 mt))
         (Helmholtz sv (ADD0 mt) (BDD0 mt) (- 1) (2 / nu / theta rk / dt)).

(** masked convection at a state *)
Definition Nrk (s : rst) : vfld := fun c j k i =>
  (match mask with None => 1 | Some m => RtoC (m j k) end * conv (r_U s) (r_g s) c j k i)%C.
Lemma Nrk_eq s : mask_vfld mask (conv (r_U s) (r_g s)) = Nrk s.
Proof.
  unfold Nrk, mask_vfld. destruct mask; extensionality c; extensionality j;
  extensionality k; extensionality i; unfold rsc; [reflexivity|ring].
Qed.
Definition Fu (s : rst) j k : column :=
  rhs_u (Kx1 j) (Kx2 k) (ksq j k) (BBD mt) (CBD mt) (Nrk s cn j k) (Nrk s c1 j k) (Nrk s c2 j k).
Definition Fg (s : rst) j k : column :=
  rhs_g (Kx1 j) (Kx2 k) (BDD mt) (Nrk s c1 j k) (Nrk s c2 j k).
Definition Fm1 (s : rst) : column :=
  fun i => (BDD0 mt (Nrk s c1 0%nat 0%nat) i - Sk c1 0%nat 0%nat i)%C.
Definition Fm2 (s : rst) : column := BDD0 mt (Nrk s c2 0%nat 0%nat).

Lemma theta_pos rk : (rk < 3)%nat -> 0 < theta rk.
Proof. intros H. destruct rk as [|[|[|rk]]]; [..|lia]; unfold rk_a, rk_b; lra. Qed.

(** One stage, in terms of the previous-stage arrays it reads *)
Lemma stage_spec rk (s : rst) : (rk < 3)%nat -> nu <> 0 -> dt <> 0 -> rk_solvers_ok ->
  let s' := stage' rk s in
  let a := rk_a rk in let b := rk_b rk in
  (forall j k, ~ mean_mode j k -> forall i, (i < nb)%nat ->
     (lap (ksq j k) (ABB mt) (BBB mt) (r_U s' cn j k) i
      = lap (ksq j k) (ABB mt) (BBB mt) (r_U s cn j k) i
        + RtoC dt * (RtoC a * Fu s j k i + RtoC b * r_hv0 s j k i
           + RtoC (theta rk / 2) * (bih nu (ksq j k) (SBB mt) (ABB mt) (BBB mt) (r_U s cn j k) i
                                   + bih nu (ksq j k) (SBB mt) (ABB mt) (BBB mt) (r_U s' cn j k) i)))%C) /\
  (forall j k i, (i < nd)%nat ->
     (BDD mt (r_g s' j k) i = BDD mt (r_g s j k) i
        + RtoC dt * (RtoC a * Fg s j k i + RtoC b * r_hg0 s j k i
           + RtoC (theta rk / 2) * (visc nu (ksq j k) (ADD mt) (BDD mt) (r_g s j k) i
                                   + visc nu (ksq j k) (ADD mt) (BDD mt) (r_g s' j k) i)))%C) /\
  (root = true -> forall i, (i < nd)%nat ->
     (BDD0 mt (r_U s' c1 0%nat 0%nat) i = BDD0 mt (r_U s c1 0%nat 0%nat) i
        + RtoC dt * (RtoC a * Fm1 s i + RtoC b * fst (r_h1 s) i
           + RtoC (theta rk / 2) * (visc nu 0 (ADD0 mt) (BDD0 mt) (r_U s c1 0%nat 0%nat) i
                                   + visc nu 0 (ADD0 mt) (BDD0 mt) (r_U s' c1 0%nat 0%nat) i)))%C /\
     (BDD0 mt (r_U s' c2 0%nat 0%nat) i = BDD0 mt (r_U s c2 0%nat 0%nat) i
        + RtoC dt * (RtoC a * Fm2 s i + RtoC b * snd (r_h1 s) i
           + RtoC (theta rk / 2) * (visc nu 0 (ADD0 mt) (BDD0 mt) (r_U s c2 0%nat 0%nat) i
                                   + visc nu 0 (ADD0 mt) (BDD0 mt) (r_U s' c2 0%nat 0%nat) i)))%C) /\
  (forall j k, r_hv0 s' j k = Fu s j k) /\ (forall j k, r_hg0 s' j k = Fg s j k) /\
  (root = true -> r_h1 s' = (Fm1 s, Fm2 s)).
Proof.
  intros Hrk Hnu Hdt Hs s' a b.
  destruct (Hs rk Hrk) as (HG & HU & H0).
  pose proof (theta_pos rk Hrk) as Hth. assert (Ht : theta rk <> 0) by lra.
  assert (Htau : theta rk * dt <> 0) by (apply Rmult_integral_contrapositive_currified; assumption).
  assert (Ediv : 2 / nu / theta rk / dt = 2 / nu / (theta rk * dt)) by (field; auto).
  assert (Ediv' : 2 / nu / dt / theta rk = 2 / nu / (theta rk * dt)) by (field; auto).
  split; [|split; [|split]].
  - intros j k Hm.
    assert (Es : r_U s' cn j k = BiharmonicSolverU_rk K1 K2 mt sv nu dt rk j k
        (cadd (rsc dt (cadd (rsc a (Fu s j k)) (rsc b (r_hv0 s j k))))
              (AC_rk K1 K2 mt nu dt rk j k (r_U s cn j k)))).
    { unfold s', stage, ComputeRHS_rk, solve_linear_rk. cbv zeta. simpl.
      rewrite Nrk_eq.
      set (v := compute_vw _ _ _ _ _ _ _).
      assert (Ev : v cn j k = BiharmonicSolverU_rk K1 K2 mt sv nu dt rk j k
        (cadd (rsc dt (cadd (rsc a (Fu s j k)) (rsc b (r_hv0 s j k))))
              (AC_rk K1 K2 mt nu dt rk j k (r_U s cn j k)))).
      { unfold v, compute_vw. rewrite !upd_other by congruence. rewrite upd_same.
        rewrite hv_spec. reflexivity. }
      destruct root eqn:R; simpl.
      - rewrite mean3_cn. destruct ((j =? 0) && (k =? 0)) eqn:Eb; [|exact Ev].
        apply at00 in Eb. exfalso. apply Hm. split; [exact R | exact Eb].
      - exact Ev. }
    rewrite Es. apply cn_substep; [exact Hdt | exact Ht |].
    assert (HU' := HU j k).
    replace (nu * theta rk * dt) with (nu * (theta rk * dt)) in HU' by ring.
    pose proof (bih_cn nb (SBB mt) (ABB mt) (BBB mt) _ nu (ksq j k) (theta rk * dt)
       (fun i => (RtoC (/ theta rk) * (RtoC a * Fu s j k i + RtoC b * r_hv0 s j k i))%C)
       (r_U s cn j k) Htau HU') as E.
    match goal with |- crank_nicolson _ _ _ _ _ _ ?w =>
        match type of E with crank_nicolson _ _ _ _ _ _ ?w' => replace w with w' end end; [exact E|].
    unfold BiharmonicSolverU_rk, AC_rk, KMM.K4, KMM.Ksq.
    replace (nu * theta rk * dt) with (nu * (theta rk * dt)) by ring.
    f_equal. extensionality i. unfold cadd at 1 3. f_equal. unfold rsc, cadd.
    ceq; field; auto.
  - intros j k.
    assert (Es : r_g s' j k = HelmholtzSolverG_rk K1 K2 mt sv nu dt rk j k
        (cadd (rsc (2 / nu / theta rk) (cadd (rsc a (Fg s j k)) (rsc b (r_hg0 s j k))))
              (AB_rk K1 K2 mt nu dt rk j k (r_g s j k)))).
    { unfold s', stage, ComputeRHS_rk, solve_linear_rk. cbv zeta. simpl.
      rewrite Nrk_eq. destruct root; simpl; rewrite hg_spec; reflexivity. }
    rewrite Es. apply cn_substep; [exact Hdt | exact Ht |].
    assert (HG' := HG j k). rewrite Ediv in HG'.
    pose proof (helm_cn nd (ADD mt) (BDD mt) _ nu (ksq j k) (theta rk * dt)
       (fun i => (RtoC (/ theta rk) * (RtoC a * Fg s j k i + RtoC b * r_hg0 s j k i))%C)
       (r_g s j k) Hnu Htau HG') as E.
    match goal with |- crank_nicolson _ _ _ _ _ _ ?w =>
        match type of E with crank_nicolson _ _ _ _ _ _ ?w' => replace w with w' end end; [exact E|].
    unfold HelmholtzSolverG_rk, AB_rk, KMM.Ksq. rewrite Ediv, Ediv'.
    f_equal. extensionality i. unfold cadd at 1 3. f_equal. unfold rsc, cadd.
    ceq; field; auto.
  - intros R i Hi.
    assert (Em : forall (h1 h0 u0 : column), 
       forall i, (i < nd)%nat ->
       (BDD0 mt (mean_solve_rk mt sv nu dt rk h1 h0 u0) i = BDD0 mt u0 i
        + RtoC dt * (RtoC a * h1 i + RtoC b * h0 i
           + RtoC (theta rk / 2) * (visc nu 0 (ADD0 mt) (BDD0 mt) u0 i
                + visc nu 0 (ADD0 mt) (BDD0 mt) (mean_solve_rk mt sv nu dt rk h1 h0 u0) i)))%C).
    { intros h1 h0 u0. apply cn_substep; [exact Hdt | exact Ht |].
      assert (H0' : solves nd (comb2 (- 1) (ADD0 mt) (0 + 2 / nu / (theta rk * dt)) (BDD0 mt))
         (Helmholtz sv (ADD0 mt) (BDD0 mt) (- 1) (2 / nu / theta rk / dt)))
        by (rewrite Rplus_0_l, <- Ediv; exact H0).
      pose proof (helm_cn nd (ADD0 mt) (BDD0 mt) _ nu 0 (theta rk * dt)
       (fun i => (RtoC (/ theta rk) * (RtoC a * h1 i + RtoC b * h0 i))%C) u0 Hnu Htau H0') as E.
      match goal with |- crank_nicolson _ _ _ _ _ _ ?w =>
        match type of E with crank_nicolson _ _ _ _ _ _ ?w' => replace w with w' end end; [exact E|].
      unfold mean_solve_rk, HelmholtzSolverU0_rk. cbv zeta. f_equal. extensionality l.
      unfold cadd, rsc, HelmholtzCoeff, cadd, rsc. rewrite Ediv. fold a b.
      ceq; field; auto. }
    unfold s', stage, ComputeRHS_rk, solve_linear_rk. cbv zeta. simpl.
    rewrite Nrk_eq, R. simpl. rewrite mean3_c1, mean3_c2. simpl.
    rewrite !upd_other by congruence. split; apply (Em _ _ _ i Hi).
  - unfold s', stage, ComputeRHS_rk, solve_linear_rk. cbv zeta. simpl. rewrite Nrk_eq.
    split; [|split].
    + intros j k. destruct root; simpl; apply hv_spec.
    + intros j k. destruct root; simpl; apply hg_spec.
    + intros R. rewrite R. reflexivity.
Qed.

(** The stage values of one KMMRK3 step. *)
Definition stages (s : rst) (m : nat) : rst :=
  match m with
  | O => s | S O => stage' 0 s | S (S O) => stage' 1 (stage' 0 s) | _ => integrate_rk' s
  end.

(** One step of KMMRK3 is the three-stage additive Runge-Kutta method (rk3_ae, rk3_ai) for
    u (all modes but the mean mode), g and the mean velocities, whatever the arrays left by
    the previous step contain. *)
Theorem kmmrk3_additive_rk (s : rst) :
  nu <> 0 -> dt <> 0 -> rk_solvers_ok ->
  stages s 0 = s /\ stages s 3 = integrate_rk' s /\
  forall m, (m <= 3)%nat ->
  (forall j k, ~ mean_mode j k ->
     ark_stage nb (lap (ksq j k) (ABB mt) (BBB mt)) (bih nu (ksq j k) (SBB mt) (ABB mt) (BBB mt)) dt
       rk3_ae rk3_ai 3 (fun l => Fu (stages s l) j k) (fun l => r_U (stages s l) cn j k) m) /\
  (forall j k,
     ark_stage nd (BDD mt) (visc nu (ksq j k) (ADD mt) (BDD mt)) dt
       rk3_ae rk3_ai 3 (fun l => Fg (stages s l) j k) (fun l => r_g (stages s l) j k) m) /\
  (root = true ->
     ark_stage nd (BDD0 mt) (visc nu 0 (ADD0 mt) (BDD0 mt)) dt
       rk3_ae rk3_ai 3 (fun l => Fm1 (stages s l)) (fun l => r_U (stages s l) c1 0%nat 0%nat) m /\
     ark_stage nd (BDD0 mt) (visc nu 0 (ADD0 mt) (BDD0 mt)) dt
       rk3_ae rk3_ai 3 (fun l => Fm2 (stages s l)) (fun l => r_U (stages s l) c2 0%nat 0%nat) m).
Proof.
  intros Hnu Hdt Hs. split; [reflexivity | split; [reflexivity|]].
  (* generic: three substeps give the tableau *)
  assert (G : forall (n : nat) (E L : column -> column) (X N : nat -> column) (P : nat -> column),
     (forall i, (i < n)%nat -> (E (X 1%nat) i = E (X 0%nat) i + RtoC dt * (RtoC (rk_a 0) * N 0%nat i + RtoC (rk_b 0) * P 0%nat i
         + RtoC (theta 0 / 2) * (L (X 0%nat) i + L (X 1%nat) i)))%C) ->
     (forall i, (i < n)%nat -> (E (X 2%nat) i = E (X 1%nat) i + RtoC dt * (RtoC (rk_a 1) * N 1%nat i + RtoC (rk_b 1) * N 0%nat i
         + RtoC (theta 1 / 2) * (L (X 1%nat) i + L (X 2%nat) i)))%C) ->
     (forall i, (i < n)%nat -> (E (X 3%nat) i = E (X 2%nat) i + RtoC dt * (RtoC (rk_a 2) * N 2%nat i + RtoC (rk_b 2) * N 1%nat i
         + RtoC (theta 2 / 2) * (L (X 2%nat) i + L (X 3%nat) i)))%C) ->
     forall m, (m <= 3)%nat -> ark_stage n E L dt rk3_ae rk3_ai 3 N X m).
  { intros n E L X N P G1 G2 G3 m Hm i Hi.
    specialize (G1 i Hi). specialize (G2 i Hi). specialize (G3 i Hi).
    csplit G1. csplit G2. csplit G3.
    destruct m as [|[|[|[|m]]]]; [..|lia];
    unfold rk3_ae, rk3_ai, rk_a, rk_b in *; cbn [Csum nth];
    rewrite ?G3, ?G2, ?G1; unfold rk_a, rk_b; ceq; simpl; field. }
  pose proof (stage_spec 0 (stages s 0) ltac:(lia) Hnu Hdt Hs) as (A1 & A2 & A3 & A4 & A5 & A6).
  pose proof (stage_spec 1 (stages s 1) ltac:(lia) Hnu Hdt Hs) as (B1 & B2 & B3 & B4 & B5 & B6).
  pose proof (stage_spec 2 (stages s 2) ltac:(lia) Hnu Hdt Hs) as (D1 & D2 & D3 & _ & _ & _).
  intros m Hm. split; [|split].
  - intros j k Hmm. apply (G nb _ _ _ _ (fun _ => r_hv0 s j k)); [| | |exact Hm].
    + apply (A1 j k Hmm).
    + intros i Hi. specialize (B1 j k Hmm i Hi). rewrite (A4 j k : r_hv0 (stages s 1) j k = _) in B1. exact B1.
    + intros i Hi. specialize (D1 j k Hmm i Hi). rewrite (B4 j k : r_hv0 (stages s 2) j k = _) in D1. exact D1.
  - intros j k. apply (G nd _ _ _ _ (fun _ => r_hg0 s j k)); [| | |exact Hm].
    + apply (A2 j k).
    + intros i Hi. specialize (B2 j k i Hi). rewrite (A5 j k : r_hg0 (stages s 1) j k = _) in B2. exact B2.
    + intros i Hi. specialize (D2 j k i Hi). rewrite (B5 j k : r_hg0 (stages s 2) j k = _) in D2. exact D2.
  - intros R. split.
    + apply (G nd _ _ _ _ (fun _ => fst (r_h1 s))); [| | |exact Hm]; intros i Hi.
      * apply (A3 R i Hi).
      * destruct (B3 R i Hi) as (E & _). rewrite (A6 R : r_h1 (stages s 1) = _) in E. exact E.
      * destruct (D3 R i Hi) as (E & _). rewrite (B6 R : r_h1 (stages s 2) = _) in E. exact E.
    + apply (G nd _ _ _ _ (fun _ => snd (r_h1 s))); [| | |exact Hm]; intros i Hi.
      * apply (A3 R i Hi).
      * destruct (B3 R i Hi) as (_ & E). rewrite (A6 R : r_h1 (stages s 1) = _) in E. exact E.
      * destruct (D3 R i Hi) as (_ & E). rewrite (B6 R : r_h1 (stages s 2) = _) in E. exact E.
Qed.
End Channel.

(** The tableau: rows sum to the abscissae on both sides (so explicit and implicit parts see
    the same stage times and the weights sum to one step), order 3 for the explicit part and
    order 2 for the implicit part. *)
Theorem rk3_order_conditions :
  consistent_rows 3 rk3_c rk3_ae /\ consistent_rows 3 rk3_c rk3_ai /\
  order3 3 rk3_c rk3_ae /\ order2 3 rk3_c rk3_ai.
Proof.
  split; [apply rk3_rows_e | split; [apply rk3_rows_i | split; [apply rk3_order3 | apply rk3_order2]]].
Qed.
(** The Adams-Bashforth extrapolation is exact for convection terms linear in time:
    from the values at t - dt and t it gives the value at t + dt/2. *)
Theorem ab2_exact_for_linear (A B : vfld) (t dt : R) :
  let N tau := fun c j k i => (A c j k i + RtoC tau * B c j k i)%C in
  assembleAB (N t) (N (t - dt)) = N (t + dt / 2).
Proof.
  intros N. extensionality c; extensionality j; extensionality k; extensionality i.
  unfold assembleAB, N, csub, rsc. ceq; field.
Qed.
