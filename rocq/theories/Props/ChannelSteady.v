(** Theorems on the channel solvers: C44 (steady states). *)
From Coq Require Import Reals List Bool Arith Lia Lra FunctionalExtensionality.
From Verif Require Import Base.Cplx Base.Sums Base.Fin Model.KMM Spec.Channel Proofs.KMMProofs Props.Channel.
Open Scope R_scope.

Section Steady.
Context (cn c1 c2 : ax3).
Hypothesis Hn1 : cn <> c1.
Hypothesis Hn2 : cn <> c2.
Hypothesis H12 : c1 <> c2.
Context (K1 K2 Kx1 Kx2 : nat -> R) (root : bool) (mt : mats) (sv : solvers).
Context (nu dt : R) (mask : option (nat -> nat -> R)) (conv : vfld -> fld -> vfld) (Sk : vfld).
Context (nd nb : nat).
Hypothesis Hnu : nu <> 0.
Hypothesis Hdt : dt <> 0.
Hypothesis HADD : linear (ADD mt).
Hypothesis HBDD : linear (BDD mt).
Hypothesis HCDB : linear (CDB mt).
Hypothesis HBBD : linear (BBD mt).
Hypothesis HCBD : linear (CBD mt).
Hypothesis HSBB : linear (SBB mt).
Hypothesis HABB : linear (ABB mt).
Hypothesis HBBB : linear (BBB mt).
Hypothesis HBDD0 : linear (BDD0 mt).
Hypothesis HT : solves nd (BDD mt) (TDMA sv (BDD mt)).
(** mode (0,0) of rank 0 has zero wavenumbers *)
Hypothesis HK : root = true -> K1 0%nat = 0 /\ K2 0%nat = 0 /\ Kx1 0%nat = 0 /\ Kx2 0%nat = 0.

Notation integrate' := (integrate cn c1 c2 K1 K2 Kx1 Kx2 root mt sv nu dt mask conv Sk).
Notation step' := (step cn c1 c2 K1 K2 Kx1 Kx2 root mt sv nu dt mask conv Sk).
Notation stage' := (stage cn c1 c2 K1 K2 Kx1 Kx2 root mt sv nu dt mask conv Sk).
Notation integrate_rk' := (integrate_rk cn c1 c2 K1 K2 Kx1 Kx2 root mt sv nu dt mask conv Sk).

(** An array that vanishes outside mode (0,0) of rank 0 *)
Definition mean_only (F : fld) : Prop :=
  forall j k, ~ (root = true /\ j = 0%nat /\ k = 0%nat) -> forall i, F j k i = C0.

(** A parallel flow: no wall normal velocity, no wall normal vorticity, wall-parallel
    velocities and convection in the mean mode only. *)
Definition parallel (U : vfld) (gh : fld) : Prop :=
  (forall j k i, U cn j k i = C0) /\ (forall j k i, gh j k i = C0) /\
  mean_only (U c1) /\ mean_only (U c2) /\
  supp nd (U c1 0%nat 0%nat) /\ supp nd (U c2 0%nat 0%nat) /\
  (forall c, mean_only (conv U gh c)).

(** masked convection *)
Definition mconv (U : vfld) (gh : fld) : vfld := fun c j k i =>
  (match mask with None => 1 | Some m => RtoC (m j k) end * conv U gh c j k i)%C.

(** The discrete steady momentum balance of the two mean velocities, row by row:
    nu (phi_i, u'') + (phi_i, N) - (pressure gradient)_i = 0. *)
Definition balanced (U : vfld) (gh : fld) : Prop :=
  root = true -> forall i, (i < nd)%nat ->
    (RtoC nu * ADD0 mt (U c1 0%nat 0%nat) i + BDD0 mt (mconv U gh c1 0%nat 0%nat) i
       - Sk c1 0%nat 0%nat i = 0)%C /\
    (RtoC nu * ADD0 mt (U c2 0%nat 0%nat) i + BDD0 mt (mconv U gh c2 0%nat 0%nat) i = 0)%C.

Lemma fun0 (F : column) : (forall i, F i = C0) -> F = czero.
Proof. intros H. extensionality i. apply H. Qed.

Lemma solve_zero n M S : linear M -> solves n M S ->
  forall b, (forall i, b i = C0) -> S b = czero.
Proof.
  intros HM (_ & _ & H3) b Hb. extensionality i. apply (H3 b czero).
  - intros l _. reflexivity.
  - intros l _. rewrite (lin_0 M HM). apply Hb.
Qed.
Lemma comb2_lin a A b B : linear A -> linear B -> linear (comb2 a A b B).
Proof. intros HA HB x y u v i. unfold comb2. rewrite HA, HB. ring. Qed.
Lemma comb3_lin a A b B c D : linear A -> linear B -> linear D -> linear (comb3 a A b B c D).
Proof. intros HA HB HD x y u v i. unfold comb3. rewrite (comb2_lin a A b B HA HB), HD. ring. Qed.

Lemma mean_dec j k : {root = true /\ j = 0%nat /\ k = 0%nat} + {~ (root = true /\ j = 0%nat /\ k = 0%nat)}.
Proof.
  destruct root; [|right; intros (H & _); discriminate].
  destruct (Nat.eq_dec j 0), (Nat.eq_dec k 0); [left; auto | right; tauto ..].
Qed.

(** the forcing of u and g vanishes for a mean-only convection *)
Lemma hv_zero (N : vfld) : (forall c, mean_only (N c)) ->
  forall j k i, hv_of cn c1 c2 K1 K2 Kx1 Kx2 mt N j k i = C0.
Proof.
  intros HN j k i. unfold hv_of, csub, rsc, csc.
  destruct (mean_dec j k) as [(R & -> & ->) | H].
  - destruct (HK R) as (E1 & E2 & E3 & E4). unfold KMM.Ksq. rewrite E1, E2, E3, E4.
    replace (- (0 * 0 + 0 * 0)) with 0 by ring. rewrite RtoC_0. ring.
  - rewrite (fun0 _ (HN cn j k H)), (fun0 _ (HN c1 j k H)), (fun0 _ (HN c2 j k H)).
    rewrite (lin_0 _ HBBD), (lin_0 _ HCBD). ring.
Qed.
Lemma hg_zero (N : vfld) : (forall c, mean_only (N c)) ->
  forall j k i, hg_of c1 c2 Kx1 Kx2 mt N j k i = C0.
Proof.
  intros HN j k i. unfold hg_of, csub, csc.
  destruct (mean_dec j k) as [(R & -> & ->) | H].
  - destruct (HK R) as (E1 & E2 & E3 & E4). rewrite E3, E4, RtoC_0. ring.
  - rewrite (fun0 _ (HN c1 j k H)), (fun0 _ (HN c2 j k H)).
    rewrite (lin_0 _ HBDD). ring.
Qed.

(** v, w from f = g = 0 *)
Lemma vw_zero (U : vfld) (f gh : fld) c j k i :
  (forall j k i, f j k i = C0) -> (forall j k i, gh j k i = C0) -> c = c1 \/ c = c2 ->
  compute_vw c1 c2 K1 K2 U f gh c j k i = C0.
Proof.
  intros Hf Hg [-> | ->]; unfold compute_vw.
  - rewrite upd_other by congruence. rewrite upd_same. unfold csc, csub, rsc. rewrite Hf, Hg. ring.
  - rewrite upd_same. unfold csc, cadd, rsc. rewrite Hf, Hg. ring.
Qed.

Lemma tdma_zero u : (forall i, u i = C0) -> TDMASolverD mt sv (CDB mt (rsc (- 1) u)) = czero.
Proof.
  intros Hu. unfold TDMASolverD. apply (solve_zero nd _ _ HBDD HT).
  intros i. rewrite (fun0 (rsc (- 1) u)). apply (lin_0 _ HCDB).
  intros l. unfold rsc. rewrite Hu. ring.
Qed.
Lemma tdma_zero' u : (forall i, u i = C0) -> TDMASolverD mt sv (csub czero (CDB mt u)) = czero.
Proof.
  intros Hu. unfold TDMASolverD. apply (solve_zero nd _ _ HBDD HT).
  intros i. unfold csub. rewrite (fun0 u Hu), (lin_0 _ HCDB). unfold czero. ring.
Qed.

(** ** KMM, KMMr *)
Section Kmm.
Hypothesis Hs : kmm_solvers_ok K1 K2 mt sv nu dt nd nb.

Lemma kmm_steady_1 (s : kst) :
  parallel (U_hat s) (g s) -> balanced (U_hat s) (g s) ->
  U_hat0 s = U_hat s -> H_hat1 s = conv (U_hat s) (g s) ->
  (forall c, c = cn \/ c = c1 \/ c = c2 -> U_hat (integrate' s) c = U_hat s c) /\
  g (integrate' s) = g s /\ H_hat (integrate' s) = conv (U_hat s) (g s).
Proof.
  intros (P1 & P2 & P3 & P4 & P5 & P6 & P7) Hbal E0 E1.
  destruct Hs as (HG & HU & H0).
  set (N := mask_vfld mask (assembleAB (conv (U_hat s) (g s)) (H_hat1 s))).
  assert (EN : N = mconv (U_hat s) (g s)).
  { unfold N. rewrite extrap_eq, E1. unfold extrap, mconv.
    extensionality c; extensionality j; extensionality k; extensionality i.
    f_equal. ceq; field. }
  assert (MN : forall c, mean_only (N c)).
  { intros c j k H i. rewrite EN. unfold mconv. rewrite (P7 c j k H i). ring. }
  assert (EU : forall j k, BiharmonicSolverU K1 K2 mt sv nu dt j k
     (cadd (rsc dt (hv_of cn c1 c2 K1 K2 Kx1 Kx2 mt N j k)) (AC K1 K2 mt nu dt j k (U_hat s cn j k))) = czero).
  { intros j k. refine (solve_zero nb _ _ _ (HU j k) _ _); [apply comb3_lin; assumption|].
    intros i. unfold cadd at 1, rsc at 1. rewrite (hv_zero N MN).
    unfold AC, BiharmonicCoeff, cadd, rsc. rewrite (fun0 _ (P1 j k)).
    rewrite (lin_0 _ HSBB), (lin_0 _ HABB), (lin_0 _ HBBB). ring. }
  assert (EG : forall j k, HelmholtzSolverG K1 K2 mt sv nu dt j k
     (cadd (rsc (2 / nu) (hg_of c1 c2 Kx1 Kx2 mt N j k)) (AB K1 K2 mt nu dt j k (g s j k))) = czero).
  { intros j k. refine (solve_zero nd _ _ _ (HG j k) _ _); [apply comb2_lin; assumption|].
    intros i. unfold cadd at 1, rsc at 1. rewrite (hg_zero N MN).
    unfold AB, HelmholtzCoeff, cadd, rsc. rewrite (fun0 _ (P2 j k)).
    rewrite (lin_0 _ HADD), (lin_0 _ HBDD). ring. }
  unfold integrate, ComputeRHS, solve_linear. cbv zeta. simpl. fold N.
  set (v := compute_vw _ _ _ _ _ _ _).
  assert (Vn : forall j k, v cn j k = czero).
  { intros j k. unfold v, compute_vw. rewrite !upd_other by congruence. rewrite upd_same. apply EU. }
  assert (Vc : forall c j k, c = c1 \/ c = c2 -> v c j k = czero).
  { intros c j k Hc. extensionality i. unfold v. apply vw_zero; [| |exact Hc].
    - intros j' k' i'. rewrite upd_same. rewrite EU. rewrite tdma_zero; reflexivity.
    - intros j' k' i'. rewrite EG. reflexivity. }
  (* mean columns *)
  assert (EM : forall (h u0 : column) src, supp nd u0 ->
      (forall i, (i < nd)%nat -> (RtoC nu * ADD0 mt u0 i + BDD0 mt h i
          - match src with Some sk => sk i | None => C0 end = 0)%C) ->
      mean_solve mt sv nu dt h u0 src = u0).
  { intros h u0 src Hsup Hb. extensionality i. unfold mean_solve, HelmholtzSolverU0. cbv zeta.
    destruct H0 as (_ & _ & H3). apply (H3 _ u0 Hsup).
    intros l Hl. specialize (Hb l Hl).
    destruct src as [sk|]; unfold comb2, cadd, csub, rsc.
    - rewrite !(lin_scal _ HBDD0). csplit Hb.
      ceq; [by_mult Hbr (2 / nu) | by_mult Hbi (2 / nu)]; simpl; field; auto.
    - rewrite !(lin_scal _ HBDD0). csplit Hb.
      ceq; [by_mult Hbr (2 / nu) | by_mult Hbi (2 / nu)]; simpl; field; auto. }
  split; [|split].
  - intros c Hc. destruct root eqn:R.
    + rewrite E0.
      assert (M1 : mean_solve mt sv nu dt (N c1 0%nat 0%nat) (U_hat s c1 0%nat 0%nat) (Some (Sk c1 0%nat 0%nat))
                   = U_hat s c1 0%nat 0%nat).
      { apply EM; [exact P5|]. intros i Hi. rewrite EN. apply (Hbal R i Hi). }
      assert (M2 : mean_solve mt sv nu dt (N c2 0%nat 0%nat) (U_hat s c2 0%nat 0%nat) None
                   = U_hat s c2 0%nat 0%nat).
      { apply EM; [exact P6|]. intros i Hi. rewrite EN.
        etransitivity; [|apply (proj2 (Hbal R i Hi))]. ring. }
      rewrite M1, M2. extensionality j; extensionality k.
      assert (B : forall j k, (j =? 0) && (k =? 0) = false -> ~ (root = true /\ j = 0%nat /\ k = 0%nat)).
      { intros j' k' Hb (_ & -> & ->). discriminate. }
      destruct Hc as [-> | [-> | ->]].
      * rewrite mean3_cn by assumption. rewrite Vn, (fun0 _ (P1 j k)).
        destruct ((j =? 0) && (k =? 0)); reflexivity.
      * rewrite mean3_c1 by assumption. destruct ((j =? 0) && (k =? 0)) eqn:Eb.
        -- apply at00 in Eb. destruct Eb as (-> & ->). reflexivity.
        -- rewrite Vc by auto. symmetry. apply fun0. apply P3. apply B, Eb.
      * rewrite mean3_c2 by assumption. destruct ((j =? 0) && (k =? 0)) eqn:Eb.
        -- apply at00 in Eb. destruct Eb as (-> & ->). reflexivity.
        -- rewrite Vc by auto. symmetry. apply fun0. apply P4. apply B, Eb.
    + assert (B : forall j k, ~ (root = true /\ j = 0%nat /\ k = 0%nat)) by (intros j k (H & _); congruence).
      extensionality j; extensionality k. destruct Hc as [-> | [-> | ->]].
      * rewrite Vn. symmetry. apply fun0, P1.
      * rewrite Vc by auto. symmetry. apply fun0. apply P3, B.
      * rewrite Vc by auto. symmetry. apply fun0. apply P4, B.
  - extensionality j; extensionality k. rewrite EG. symmetry. apply fun0, P2.
  - reflexivity.
Qed.

(** C44 for KMM and KMMr: a balanced parallel flow whose history is itself is unchanged
    by any number of steps, whatever dt and nu. *)
Theorem kmm_steady (s : kst) (n : nat) :
  parallel (U_hat s) (g s) -> balanced (U_hat s) (g s) ->
  U_hat0 s = U_hat s -> H_hat1 s = conv (U_hat s) (g s) ->
  (forall c, U_hat (Nat.iter n step' s) c = U_hat s c) /\ g (Nat.iter n step' s) = g s.
Proof.
  intros HP HB E0 E1.
  assert (Hall : forall c : ax3, c = cn \/ c = c1 \/ c = c2).
  { clear - Hn1 Hn2 H12. destruct cn, c1, c2, c; tauto. }
  assert (I : let t := Nat.iter n step' s in
     U_hat t = U_hat s /\ g t = g s /\ U_hat0 t = U_hat t /\ H_hat1 t = conv (U_hat t) (g t)).
  { induction n as [|n IH]; [simpl; auto|].
    destruct IH as (I1 & I2 & I3 & I4). change (Nat.iter (S n) step' s) with (step' (Nat.iter n step' s)). set (t := Nat.iter n step' s) in *. clearbody t.
    destruct (kmm_steady_1 t) as (S1 & S2 & S3); rewrite ?I1, ?I2; try assumption.
    - rewrite I3. exact I1.
    - rewrite I1, I2 in I4. exact I4.
    - assert (SU : U_hat (integrate' t) = U_hat t) by (extensionality c; apply S1, Hall).
      unfold step, end_of_tstep. cbn [U_hat g H_hat H_hat1 U_hat0]. rewrite SU, S2, S3. rewrite I1, I2. auto. }
  cbv zeta in I. destruct I as (I1 & I2 & _). split; [intros c; rewrite I1; reflexivity | exact I2].
Qed.
End Kmm.

(** ** KMMRK3 *)
Section Rk.
Hypothesis Hs : rk_solvers_ok K1 K2 mt sv nu dt nd nb.

(** previous-stage arrays of a steady state *)
Definition rk_prev_ok (s : rst) : Prop :=
  (forall j k i, r_hv0 s j k i = C0) /\ (forall j k i, r_hg0 s j k i = C0) /\
  (root = true ->
     r_h1 s = (fun i => (BDD0 mt (mconv (r_U s) (r_g s) c1 0%nat 0%nat) i - Sk c1 0%nat 0%nat i)%C,
               BDD0 mt (mconv (r_U s) (r_g s) c2 0%nat 0%nat))).

Lemma rk_steady_stage rk (s : rst) : (rk < 3)%nat ->
  parallel (r_U s) (r_g s) -> balanced (r_U s) (r_g s) ->
  (rk_b rk = 0 \/ rk_prev_ok s) ->
  (forall c, c = cn \/ c = c1 \/ c = c2 -> r_U (stage' rk s) c = r_U s c) /\
  r_g (stage' rk s) = r_g s /\
  (forall j k i, r_hv0 (stage' rk s) j k i = C0) /\ (forall j k i, r_hg0 (stage' rk s) j k i = C0) /\
  (root = true ->
     r_h1 (stage' rk s) = (fun i => (BDD0 mt (mconv (r_U s) (r_g s) c1 0%nat 0%nat) i - Sk c1 0%nat 0%nat i)%C,
               BDD0 mt (mconv (r_U s) (r_g s) c2 0%nat 0%nat))).
Proof.
  intros Hrk (P1 & P2 & P3 & P4 & P5 & P6 & P7) Hbal Hprev.
  destruct (Hs rk Hrk) as (HG & HU & H0).
  pose proof (theta_pos rk Hrk) as Hth.
  set (a := rk_a rk) in *. set (b := rk_b rk) in *.
  set (N := mask_vfld mask (conv (r_U s) (r_g s))).
  assert (EN : N = mconv (r_U s) (r_g s)) by (unfold N; apply Nrk_eq).
  assert (MN : forall c, mean_only (N c)).
  { intros c j k H i. rewrite EN. unfold mconv. rewrite (P7 c j k H i). ring. }
  assert (Bhv : forall j k i, (RtoC b * r_hv0 s j k i = 0)%C).
  { intros j k i. destruct Hprev as [E | (E & _ & _)]; [rewrite E, RtoC_0 | rewrite E]; ring. }
  assert (Bhg : forall j k i, (RtoC b * r_hg0 s j k i = 0)%C).
  { intros j k i. destruct Hprev as [E | (_ & E & _)]; [rewrite E, RtoC_0 | rewrite E]; ring. }
  assert (EU : forall j k, BiharmonicSolverU_rk K1 K2 mt sv nu dt rk j k
     (cadd (rsc dt (cadd (rsc a (hv_of cn c1 c2 K1 K2 Kx1 Kx2 mt N j k)) (rsc b (r_hv0 s j k))))
           (AC_rk K1 K2 mt nu dt rk j k (r_U s cn j k))) = czero).
  { intros j k. refine (solve_zero nb _ _ _ (HU j k) _ _); [apply comb3_lin; assumption|].
    intros i. unfold cadd at 1, rsc at 1. unfold cadd at 1, rsc at 1. rewrite (hv_zero N MN).
    unfold rsc at 1. rewrite Bhv.
    unfold AC_rk, BiharmonicCoeff, cadd, rsc. rewrite (fun0 _ (P1 j k)).
    rewrite (lin_0 _ HSBB), (lin_0 _ HABB), (lin_0 _ HBBB). ring. }
  assert (EG : forall j k, HelmholtzSolverG_rk K1 K2 mt sv nu dt rk j k
     (cadd (rsc (2 / nu / (a + b)) (cadd (rsc a (hg_of c1 c2 Kx1 Kx2 mt N j k)) (rsc b (r_hg0 s j k))))
           (AB_rk K1 K2 mt nu dt rk j k (r_g s j k))) = czero).
  { intros j k. refine (solve_zero nd _ _ _ (HG j k) _ _); [apply comb2_lin; assumption|].
    intros i. unfold cadd at 1, rsc at 1. unfold cadd at 1, rsc at 1. rewrite (hg_zero N MN).
    unfold rsc at 1. rewrite Bhg.
    unfold AB_rk, HelmholtzCoeff, cadd, rsc. rewrite (fun0 _ (P2 j k)).
    rewrite (lin_0 _ HADD), (lin_0 _ HBDD). ring. }
  unfold stage, ComputeRHS_rk, solve_linear_rk. cbv zeta. simpl. fold a b N.
  set (v := compute_vw _ _ _ _ _ _ _).
  assert (Vn : forall j k, v cn j k = czero).
  { intros j k. unfold v, compute_vw. rewrite !upd_other by congruence. rewrite upd_same. apply EU. }
  assert (Vc : forall c j k, c = c1 \/ c = c2 -> v c j k = czero).
  { intros c j k Hc. extensionality i. unfold v. apply vw_zero; [| |exact Hc].
    - intros j' k' i'. rewrite upd_same. rewrite EU. rewrite tdma_zero'; reflexivity.
    - intros j' k' i'. rewrite EG. reflexivity. }
  assert (EM : forall (h h0 u0 : column), supp nd u0 ->
      (forall i, (RtoC b * h0 i = RtoC b * h i)%C) ->
      (forall i, (i < nd)%nat -> (RtoC nu * ADD0 mt u0 i + h i = 0)%C) ->
      mean_solve_rk mt sv nu dt rk h h0 u0 = u0).
  { intros h h0 u0 Hsup Hh Hb. extensionality i. unfold mean_solve_rk, HelmholtzSolverU0_rk. cbv zeta.
    fold a b. destruct H0 as (_ & _ & H3). apply (H3 _ u0 Hsup).
    intros l Hl. specialize (Hb l Hl). unfold comb2, cadd, rsc. rewrite Hh.
    csplit Hb. ceq; [by_mult Hbr (2 / nu) | by_mult Hbi (2 / nu)]; simpl; field; repeat split; try assumption; lra. }
  split; [|split; [|split; [|split]]].
  - intros c Hc. destruct root eqn:R.
    + simpl. rewrite !upd_other by congruence.
      assert (Hh1 : rk_b rk = 0 \/ rk_prev_ok s) by exact Hprev.
      match goal with |- context [mean_solve_rk mt sv nu dt rk ?h ?h0 (r_U s c1 0%nat 0%nat)] =>
        assert (M1 : mean_solve_rk mt sv nu dt rk h h0 (r_U s c1 0%nat 0%nat) = r_U s c1 0%nat 0%nat) end.
      { apply EM; [exact P5| |].
        - intros i. destruct Hh1 as [E | (_ & _ & E)].
          + fold b in E. rewrite E, RtoC_0. ring.
          + rewrite (E R). simpl. rewrite <- EN. reflexivity.
        - intros i Hi. rewrite EN. etransitivity; [|apply (proj1 (Hbal R i Hi))]. unfold csub. ring. }
      match goal with |- context [mean_solve_rk mt sv nu dt rk ?h ?h0 (r_U s c2 0%nat 0%nat)] =>
        assert (M2 : mean_solve_rk mt sv nu dt rk h h0 (r_U s c2 0%nat 0%nat) = r_U s c2 0%nat 0%nat) end.
      { apply EM; [exact P6| |].
        - intros i. destruct Hh1 as [E | (_ & _ & E)].
          + fold b in E. rewrite E, RtoC_0. ring.
          + rewrite (E R). simpl. rewrite <- EN. reflexivity.
        - intros i Hi. rewrite EN. apply (proj2 (Hbal R i Hi)). }
      rewrite M1, M2. extensionality j; extensionality k.
      assert (B : forall j k, (j =? 0) && (k =? 0) = false -> ~ (root = true /\ j = 0%nat /\ k = 0%nat)).
      { intros j' k' Hb (_ & -> & ->). discriminate. }
      destruct Hc as [-> | [-> | ->]].
      * rewrite mean3_cn by assumption. rewrite Vn, (fun0 _ (P1 j k)).
        destruct ((j =? 0) && (k =? 0)); reflexivity.
      * rewrite mean3_c1 by assumption. destruct ((j =? 0) && (k =? 0)) eqn:Eb.
        -- apply at00 in Eb. destruct Eb as (-> & ->). reflexivity.
        -- rewrite Vc by auto. symmetry. apply fun0. apply P3. apply B, Eb.
      * rewrite mean3_c2 by assumption. destruct ((j =? 0) && (k =? 0)) eqn:Eb.
        -- apply at00 in Eb. destruct Eb as (-> & ->). reflexivity.
        -- rewrite Vc by auto. symmetry. apply fun0. apply P4. apply B, Eb.
    + assert (B : forall j k, ~ (root = true /\ j = 0%nat /\ k = 0%nat)) by (intros j k (H & _); congruence).
      extensionality j; extensionality k. simpl. destruct Hc as [-> | [-> | ->]].
      * rewrite Vn. symmetry. apply fun0, P1.
      * rewrite Vc by auto. symmetry. apply fun0. apply P3, B.
      * rewrite Vc by auto. symmetry. apply fun0. apply P4, B.
  - extensionality j; extensionality k. destruct root; simpl; rewrite EG; symmetry; apply fun0, P2.
  - intros j k i. case root; simpl; apply (hv_zero N MN).
  - intros j k i. case root; simpl; apply (hg_zero N MN).
  - intros R. rewrite R. simpl. rewrite EN. reflexivity.
Qed.

(** C44 for KMMRK3: no hypothesis on the arrays left over from earlier stages or steps. *)
Theorem kmmrk3_steady (s : rst) (n : nat) :
  parallel (r_U s) (r_g s) -> balanced (r_U s) (r_g s) ->
  (forall c, r_U (Nat.iter n integrate_rk' s) c = r_U s c) /\ r_g (Nat.iter n integrate_rk' s) = r_g s.
Proof.
  intros HP HB.
  assert (Hall : forall c : ax3, c = cn \/ c = c1 \/ c = c2).
  { clear - Hn1 Hn2 H12. destruct cn, c1, c2, c; tauto. }
  assert (ST : forall rk t, (rk < 3)%nat -> (rk_b rk = 0 \/ rk_prev_ok t) ->
      r_U t = r_U s -> r_g t = r_g s ->
      r_U (stage' rk t) = r_U s /\ r_g (stage' rk t) = r_g s /\ rk_prev_ok (stage' rk t)).
  { intros rk t Hrk Hp EU EG.
    destruct (rk_steady_stage rk t Hrk) as (S1 & S2 & S3 & S4 & S5); rewrite ?EU, ?EG; try assumption.
    assert (SU : r_U (stage' rk t) = r_U t) by (extensionality c; apply S1, Hall).
    split; [rewrite SU; exact EU | split; [rewrite S2; exact EG |]].
    split; [exact S3 | split; [exact S4 |]]. rewrite SU, S2. exact S5. }
  assert (I : r_U (Nat.iter n integrate_rk' s) = r_U s /\ r_g (Nat.iter n integrate_rk' s) = r_g s).
  { induction n as [|n (I1 & I2)]; [split; reflexivity|].
    change (Nat.iter (S n) integrate_rk' s) with (integrate_rk' (Nat.iter n integrate_rk' s)). set (t := Nat.iter n integrate_rk' s) in *. clearbody t. unfold integrate_rk.
    destruct (ST 0%nat t ltac:(lia) (or_introl eq_refl) I1 I2) as (A1 & A2 & A3).
    destruct (ST 1%nat _ ltac:(lia) (or_intror A3) A1 A2) as (B1 & B2 & B3).
    destruct (ST 2%nat _ ltac:(lia) (or_intror B3) B1 B2) as (D1 & D2 & _).
    split; assumption. }
  destruct I as (I1 & I2). split; [intros c; rewrite I1; reflexivity | exact I2].
Qed.
End Rk.
End Steady.
