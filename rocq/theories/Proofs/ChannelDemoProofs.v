(** Lemmas on restarting the channel solvers: a step reads only the local modes, and which of the
    stored arrays it reads. *)
From Coq Require Import Reals List Bool Arith Lia Lra FunctionalExtensionality.
From Verif Require Import Base.Cplx Base.Sums Base.Fin Model.KMM Model.KMMRB Model.ChannelDemo
  Spec.Channel Proofs.KMMProofs.
Open Scope R_scope.

Section Local.
Context (n1 n2 : nat).
(** equal in the modes of the rank *)
Definition eqf (F G : fld) : Prop := forall j k, (j < n1)%nat -> (k < n2)%nat -> F j k = G j k.
Definition eqv (U V : vfld) : Prop := forall c, eqf (U c) (V c).
Lemma eqf_refl F : eqf F F. Proof. intros j k _ _. reflexivity. Qed.
Lemma eqv_refl F : eqv F F. Proof. intros c. apply eqf_refl. Qed.

Context (cn c1 c2 : ax3) (K1 K2 Kx1 Kx2 : nat -> R) (root : bool) (mt : mats) (sv : solvers).
Context (nu dt : R) (mask : option (nat -> nat -> R)) (conv : vfld -> fld -> vfld) (Sk : vfld).
Hypothesis Hroot : root = true -> (0 < n1)%nat /\ (0 < n2)%nat.
Hypothesis Hconv : forall U V g h, eqv U V -> eqf g h -> eqv (conv U g) (conv V h).

Notation stage' := (stage cn c1 c2 K1 K2 Kx1 Kx2 root mt sv nu dt mask conv Sk).
Notation integrate' := (integrate cn c1 c2 K1 K2 Kx1 Kx2 root mt sv nu dt mask conv Sk).
Notation integrate_rk' := (integrate_rk cn c1 c2 K1 K2 Kx1 Kx2 root mt sv nu dt mask conv Sk).

Lemma mask_local U V : eqv U V -> eqv (mask_vfld mask U) (mask_vfld mask V).
Proof. intros H c j k Hj Hk. unfold mask_vfld. destruct mask; rewrite ?(H c j k Hj Hk); reflexivity. Qed.
Lemma AB_local H H' H1 H1' : eqv H H' -> eqv H1 H1' -> eqv (assembleAB H H1) (assembleAB H' H1').
Proof. intros A B c j k Hj Hk. unfold assembleAB. rewrite (A c j k), (B c j k) by assumption. reflexivity. Qed.
Lemma hv_local U V : eqv U V -> eqf (hv_of cn c1 c2 K1 K2 Kx1 Kx2 mt U) (hv_of cn c1 c2 K1 K2 Kx1 Kx2 mt V).
Proof. intros H j k Hj Hk. unfold hv_of. rewrite !(fun c => H c j k Hj Hk). reflexivity. Qed.
Lemma hg_local U V : eqv U V -> eqf (hg_of c1 c2 Kx1 Kx2 mt U) (hg_of c1 c2 Kx1 Kx2 mt V).
Proof. intros H j k Hj Hk. unfold hg_of. rewrite !(fun c => H c j k Hj Hk). reflexivity. Qed.

Lemma upd_local U V c F G : eqv U V -> eqf F G -> eqv (upd F3 U c F) (upd F3 V c G).
Proof. intros H E e j k Hj Hk. unfold upd. destruct (eqd F3 e c); [apply E | apply H]; assumption. Qed.
Lemma vw_local U V f f' gh gh' : eqv U V -> eqf f f' -> eqf gh gh' ->
  eqv (compute_vw c1 c2 K1 K2 U f gh) (compute_vw c1 c2 K1 K2 V f' gh').
Proof.
  intros A B D. unfold compute_vw. apply upd_local; [apply upd_local; [exact A|]|];
    intros j k Hj Hk; rewrite (B j k), (D j k) by assumption; reflexivity.
Qed.
Lemma set00_local U V c x : eqv U V -> eqv (set00 U c x) (set00 V c x).
Proof.
  intros A. unfold set00. apply upd_local; [exact A|]. intros j k Hj Hk.
  destruct ((j =? 0) && (k =? 0)); [reflexivity | apply A; assumption].
Qed.

(** KMM: the new U_hat and g are functions of the local modes of U_hat, g, H_hat1 and of the mean
    modes of U_hat0 *)
Definition simk (s s' : kst) : Prop :=
  eqv (U_hat s) (U_hat s') /\ eqf (g s) (g s') /\ eqv (H_hat1 s) (H_hat1 s') /\
  eqv (U_hat0 s) (U_hat0 s').
Lemma integrate_local s s' : simk s s' ->
  eqv (U_hat (integrate' s)) (U_hat (integrate' s')) /\ eqf (g (integrate' s)) (g (integrate' s')) /\
  eqv (H_hat (integrate' s)) (H_hat (integrate' s')).
Proof.
  intros (A & B & D & E).
  pose proof (Hconv _ _ _ _ A B) as C0.
  pose proof (mask_local _ _ (AB_local _ _ _ _ C0 D)) as M.
  unfold integrate, ComputeRHS, solve_linear. cbv zeta. cbn [U_hat g H_hat H_hat0 H_hat1 U_hat0 fst snd].
  set (M1 := mask_vfld mask (assembleAB (conv (U_hat s) (g s)) (H_hat1 s))) in *.
  set (M2 := mask_vfld mask (assembleAB (conv (U_hat s') (g s')) (H_hat1 s'))) in *.
  unfold add_linear. cbn [fst snd].
  assert (R0 : eqf
     (fun j k => BiharmonicSolverU K1 K2 mt sv nu dt j k
        (cadd (rsc dt (hv_of cn c1 c2 K1 K2 Kx1 Kx2 mt M1 j k)) (AC K1 K2 mt nu dt j k (U_hat s cn j k))))
     (fun j k => BiharmonicSolverU K1 K2 mt sv nu dt j k
        (cadd (rsc dt (hv_of cn c1 c2 K1 K2 Kx1 Kx2 mt M2 j k)) (AC K1 K2 mt nu dt j k (U_hat s' cn j k))))).
  { intros j k Hj Hk. rewrite (hv_local _ _ M j k Hj Hk), (A cn j k Hj Hk). reflexivity. }
  assert (R1 : eqf
     (fun j k => HelmholtzSolverG K1 K2 mt sv nu dt j k
        (cadd (rsc (2 / nu) (hg_of c1 c2 Kx1 Kx2 mt M1 j k)) (AB K1 K2 mt nu dt j k (g s j k))))
     (fun j k => HelmholtzSolverG K1 K2 mt sv nu dt j k
        (cadd (rsc (2 / nu) (hg_of c1 c2 Kx1 Kx2 mt M2 j k)) (AB K1 K2 mt nu dt j k (g s' j k))))).
  { intros j k Hj Hk. rewrite (hg_local _ _ M j k Hj Hk), (B j k Hj Hk). reflexivity. }
  split; [|split; [exact R1 | exact C0]].
  assert (V : eqv
    (compute_vw c1 c2 K1 K2 (upd F3 (U_hat s) cn (fun j k => BiharmonicSolverU K1 K2 mt sv nu dt j k
        (cadd (rsc dt (hv_of cn c1 c2 K1 K2 Kx1 Kx2 mt M1 j k)) (AC K1 K2 mt nu dt j k (U_hat s cn j k)))))
      (fun j k => TDMASolverD mt sv (CDB mt (rsc (- 1) (upd F3 (U_hat s) cn (fun j k => BiharmonicSolverU K1 K2 mt sv nu dt j k
        (cadd (rsc dt (hv_of cn c1 c2 K1 K2 Kx1 Kx2 mt M1 j k)) (AC K1 K2 mt nu dt j k (U_hat s cn j k)))) cn j k))))
      (fun j k => HelmholtzSolverG K1 K2 mt sv nu dt j k
        (cadd (rsc (2 / nu) (hg_of c1 c2 Kx1 Kx2 mt M1 j k)) (AB K1 K2 mt nu dt j k (g s j k)))))
    (compute_vw c1 c2 K1 K2 (upd F3 (U_hat s') cn (fun j k => BiharmonicSolverU K1 K2 mt sv nu dt j k
        (cadd (rsc dt (hv_of cn c1 c2 K1 K2 Kx1 Kx2 mt M2 j k)) (AC K1 K2 mt nu dt j k (U_hat s' cn j k)))))
      (fun j k => TDMASolverD mt sv (CDB mt (rsc (- 1) (upd F3 (U_hat s') cn (fun j k => BiharmonicSolverU K1 K2 mt sv nu dt j k
        (cadd (rsc dt (hv_of cn c1 c2 K1 K2 Kx1 Kx2 mt M2 j k)) (AC K1 K2 mt nu dt j k (U_hat s' cn j k)))) cn j k))))
      (fun j k => HelmholtzSolverG K1 K2 mt sv nu dt j k
        (cadd (rsc (2 / nu) (hg_of c1 c2 Kx1 Kx2 mt M2 j k)) (AB K1 K2 mt nu dt j k (g s' j k)))))).
  { apply vw_local; [apply upd_local; assumption | | exact R1].
    intros j k Hj Hk. rewrite !upd_same. rewrite (R0 j k Hj Hk). reflexivity. }
  destruct root; [|exact V].
  destruct (Hroot eq_refl) as (P1 & P2).
  rewrite !(fun c => M c 0%nat 0%nat P1 P2), !(fun c => E c 0%nat 0%nat P1 P2).
  do 3 apply set00_local. exact V.
Qed.

(** KMMRK3: at the first stage the arrays of the previous stage have weight zero *)
Definition simr (s s' : rst) : Prop := eqv (r_U s) (r_U s') /\ eqf (r_g s) (r_g s').
Definition simr_full (s s' : rst) : Prop :=
  simr s s' /\ eqf (r_hv0 s) (r_hv0 s') /\ eqf (r_hg0 s) (r_hg0 s') /\ (root = true -> r_h1 s = r_h1 s').
Lemma stage_local rk s s' : simr s s' -> (rk = 0%nat \/ simr_full s s') ->
  simr_full (stage' rk s) (stage' rk s').
Proof.
  intros (A & B) F.
  pose proof (mask_local _ _ (Hconv _ _ _ _ A B)) as M.
  assert (W0 : forall x y : col, rk_b 0 = 0 -> rsc (rk_b 0) x = rsc (rk_b 0) y).
  { intros x y E. rewrite E. extensionality i. unfold rsc. rewrite RtoC_0. ring. }
  assert (Fhv : forall j k, (j < n1)%nat -> (k < n2)%nat -> rsc (rk_b rk) (r_hv0 s j k) = rsc (rk_b rk) (r_hv0 s' j k)).
  { intros j k Hj Hk. destruct F as [-> | (_ & F & _)]; [apply W0; reflexivity | rewrite (F j k Hj Hk); reflexivity]. }
  assert (Fhg : forall j k, (j < n1)%nat -> (k < n2)%nat -> rsc (rk_b rk) (r_hg0 s j k) = rsc (rk_b rk) (r_hg0 s' j k)).
  { intros j k Hj Hk. destruct F as [-> | (_ & _ & F & _)]; [apply W0; reflexivity | rewrite (F j k Hj Hk); reflexivity]. }
  assert (Fh1 : root = true -> rsc (rk_b rk) (fst (r_h1 s)) = rsc (rk_b rk) (fst (r_h1 s'))
                 /\ rsc (rk_b rk) (snd (r_h1 s)) = rsc (rk_b rk) (snd (r_h1 s'))).
  { intros R. destruct F as [-> | (_ & _ & _ & F)]; [split; apply W0; reflexivity | rewrite (F R); split; reflexivity]. }
  clear F W0.
  unfold stage, ComputeRHS_rk, solve_linear_rk. cbv zeta. cbn [r_U r_g r_H r_hv0 r_hg0 r_h1 fst snd].
  set (M1 := mask_vfld mask (conv (r_U s) (r_g s))) in *.
  set (M2 := mask_vfld mask (conv (r_U s') (r_g s'))) in *.
  pose proof (hv_local _ _ M) as HV. pose proof (hg_local _ _ M) as HG.
  set (u1 := fun j k => BiharmonicSolverU_rk K1 K2 mt sv nu dt rk j k
         (cadd (rsc dt (cadd (rsc (rk_a rk) (hv_of cn c1 c2 K1 K2 Kx1 Kx2 mt M1 j k)) (rsc (rk_b rk) (r_hv0 s j k))))
               (AC_rk K1 K2 mt nu dt rk j k (r_U s cn j k)))) in *.
  set (u2 := fun j k => BiharmonicSolverU_rk K1 K2 mt sv nu dt rk j k
         (cadd (rsc dt (cadd (rsc (rk_a rk) (hv_of cn c1 c2 K1 K2 Kx1 Kx2 mt M2 j k)) (rsc (rk_b rk) (r_hv0 s' j k))))
               (AC_rk K1 K2 mt nu dt rk j k (r_U s' cn j k)))) in *.
  assert (R0 : eqf u1 u2).
  { intros j k Hj Hk. unfold u1, u2. rewrite (HV j k Hj Hk), (Fhv j k Hj Hk), (A cn j k Hj Hk). reflexivity. }
  set (g1 := fun j k => HelmholtzSolverG_rk K1 K2 mt sv nu dt rk j k
         (cadd (rsc (2 / nu / (rk_a rk + rk_b rk)) (cadd (rsc (rk_a rk) (hg_of c1 c2 Kx1 Kx2 mt M1 j k)) (rsc (rk_b rk) (r_hg0 s j k))))
               (AB_rk K1 K2 mt nu dt rk j k (r_g s j k)))) in *.
  set (g2 := fun j k => HelmholtzSolverG_rk K1 K2 mt sv nu dt rk j k
         (cadd (rsc (2 / nu / (rk_a rk + rk_b rk)) (cadd (rsc (rk_a rk) (hg_of c1 c2 Kx1 Kx2 mt M2 j k)) (rsc (rk_b rk) (r_hg0 s' j k))))
               (AB_rk K1 K2 mt nu dt rk j k (r_g s' j k)))) in *.
  assert (R1 : eqf g1 g2).
  { intros j k Hj Hk. unfold g1, g2. rewrite (HG j k Hj Hk), (Fhg j k Hj Hk), (B j k Hj Hk). reflexivity. }
  assert (U : eqv (upd F3 (r_U s) cn u1) (upd F3 (r_U s') cn u2)) by (apply upd_local; assumption).
  assert (V : eqv
    (compute_vw c1 c2 K1 K2 (upd F3 (r_U s) cn u1)
       (fun j k => TDMASolverD mt sv (csub czero (CDB mt (upd F3 (r_U s) cn u1 cn j k)))) g1)
    (compute_vw c1 c2 K1 K2 (upd F3 (r_U s') cn u2)
       (fun j k => TDMASolverD mt sv (csub czero (CDB mt (upd F3 (r_U s') cn u2 cn j k)))) g2)).
  { apply vw_local; [exact U | | exact R1]. intros j k Hj Hk. rewrite !upd_same. rewrite (R0 j k Hj Hk). reflexivity. }
  unfold simr_full, simr. destruct root.
  - destruct (Hroot eq_refl) as (P1 & P2). destruct (Fh1 eq_refl) as (Q1 & Q2).
    rewrite !(fun c => M c 0%nat 0%nat P1 P2), !(fun c => U c 0%nat 0%nat P1 P2).
    unfold mean_solve_rk. rewrite Q1, Q2.
    cbn [r_U r_g r_hv0 r_hg0 r_h1].
    split; [split; [do 3 apply set00_local; exact V | exact R1]|].
    split; [exact HV | split; [exact HG | reflexivity]].
  - cbn [r_U r_g r_hv0 r_hg0 r_h1].
    split; [split; [exact V | exact R1]|].
    split; [exact HV | split; [exact HG | discriminate]].
Qed.
Lemma integrate_rk_local s s' : simr s s' -> simr (integrate_rk' s) (integrate_rk' s').
Proof.
  intros H. unfold integrate_rk.
  pose proof (stage_local 0 s s' H (or_introl eq_refl)) as H0.
  pose proof (stage_local 1 _ _ (proj1 H0) (or_intror H0)) as H1.
  pose proof (stage_local 2 _ _ (proj1 H1) (or_intror H1)) as H2.
  exact (proj1 H2).
Qed.

(** KMMRK3_RB *)
Context (kappa : R) (ADDT BDDT : col -> col) (btt0 btt1 : R) (Nx : nat) (AS BS : col -> col).
Context (convT : vfld -> fld -> fld).
Hypothesis HconvT : forall U V p q, eqv U V -> eqf p q -> eqf (convT U p) (convT V q).
Notation stage_rb := (stage_rkrb cn c1 c2 K1 K2 Kx1 Kx2 root mt sv nu dt kappa mask conv Sk
                   ADDT BDDT btt0 btt1 Nx AS BS convT).
Definition simrb (s s' : rkrb) : Prop := simr (rbase s) (rbase s') /\ eqf (rphi s) (rphi s').
Definition simrb_full (s s' : rkrb) : Prop :=
  simr_full (rbase s) (rbase s') /\ eqf (rphi s) (rphi s') /\ eqf (rN0 s) (rN0 s').
(** a stage with something added to the right hand side of the wall normal velocity *)
Definition stage_plus (add : fld) (rk : nat) (s : rst) : rst :=
  let '(rhs, s) := ComputeRHS_rk cn c1 c2 K1 K2 Kx1 Kx2 mt nu dt mask conv rk s in
  solve_linear_rk cn c1 c2 K1 K2 root mt sv nu dt Sk rk
    (fun j k => cadd (fst rhs j k) (add j k), snd rhs) s.
Lemma stage_plus_local add add' rk s s' : eqf add add' -> simr s s' -> (rk = 0%nat \/ simr_full s s') ->
  simr_full (stage_plus add rk s) (stage_plus add' rk s').
Proof. intros Hadd (A & B) F.
  pose proof (mask_local _ _ (Hconv _ _ _ _ A B)) as M.
  assert (W0 : forall x y : col, rk_b 0 = 0 -> rsc (rk_b 0) x = rsc (rk_b 0) y).
  { intros x y E. rewrite E. extensionality i. unfold rsc. rewrite RtoC_0. ring. }
  assert (Fhv : forall j k, (j < n1)%nat -> (k < n2)%nat -> rsc (rk_b rk) (r_hv0 s j k) = rsc (rk_b rk) (r_hv0 s' j k)).
  { intros j k Hj Hk. destruct F as [-> | (_ & F & _)]; [apply W0; reflexivity | rewrite (F j k Hj Hk); reflexivity]. }
  assert (Fhg : forall j k, (j < n1)%nat -> (k < n2)%nat -> rsc (rk_b rk) (r_hg0 s j k) = rsc (rk_b rk) (r_hg0 s' j k)).
  { intros j k Hj Hk. destruct F as [-> | (_ & _ & F & _)]; [apply W0; reflexivity | rewrite (F j k Hj Hk); reflexivity]. }
  assert (Fh1 : root = true -> rsc (rk_b rk) (fst (r_h1 s)) = rsc (rk_b rk) (fst (r_h1 s'))
                 /\ rsc (rk_b rk) (snd (r_h1 s)) = rsc (rk_b rk) (snd (r_h1 s'))).
  { intros R. destruct F as [-> | (_ & _ & _ & F)]; [split; apply W0; reflexivity | rewrite (F R); split; reflexivity]. }
  clear F W0.
  unfold stage_plus, ComputeRHS_rk, solve_linear_rk. cbv zeta. cbn [r_U r_g r_H r_hv0 r_hg0 r_h1 fst snd].
  set (M1 := mask_vfld mask (conv (r_U s) (r_g s))) in *.
  set (M2 := mask_vfld mask (conv (r_U s') (r_g s'))) in *.
  pose proof (hv_local _ _ M) as HV. pose proof (hg_local _ _ M) as HG.
  set (u1 := fun j k => BiharmonicSolverU_rk K1 K2 mt sv nu dt rk j k
         (cadd (cadd (rsc dt (cadd (rsc (rk_a rk) (hv_of cn c1 c2 K1 K2 Kx1 Kx2 mt M1 j k)) (rsc (rk_b rk) (r_hv0 s j k))))
               (AC_rk K1 K2 mt nu dt rk j k (r_U s cn j k))) (add j k))) in *.
  set (u2 := fun j k => BiharmonicSolverU_rk K1 K2 mt sv nu dt rk j k
         (cadd (cadd (rsc dt (cadd (rsc (rk_a rk) (hv_of cn c1 c2 K1 K2 Kx1 Kx2 mt M2 j k)) (rsc (rk_b rk) (r_hv0 s' j k))))
               (AC_rk K1 K2 mt nu dt rk j k (r_U s' cn j k))) (add' j k))) in *.
  assert (R0 : eqf u1 u2).
  { intros j k Hj Hk. unfold u1, u2. rewrite (HV j k Hj Hk), (Fhv j k Hj Hk), (A cn j k Hj Hk), (Hadd j k Hj Hk). reflexivity. }
  set (g1 := fun j k => HelmholtzSolverG_rk K1 K2 mt sv nu dt rk j k
         (cadd (rsc (2 / nu / (rk_a rk + rk_b rk)) (cadd (rsc (rk_a rk) (hg_of c1 c2 Kx1 Kx2 mt M1 j k)) (rsc (rk_b rk) (r_hg0 s j k))))
               (AB_rk K1 K2 mt nu dt rk j k (r_g s j k)))) in *.
  set (g2 := fun j k => HelmholtzSolverG_rk K1 K2 mt sv nu dt rk j k
         (cadd (rsc (2 / nu / (rk_a rk + rk_b rk)) (cadd (rsc (rk_a rk) (hg_of c1 c2 Kx1 Kx2 mt M2 j k)) (rsc (rk_b rk) (r_hg0 s' j k))))
               (AB_rk K1 K2 mt nu dt rk j k (r_g s' j k)))) in *.
  assert (R1 : eqf g1 g2).
  { intros j k Hj Hk. unfold g1, g2. rewrite (HG j k Hj Hk), (Fhg j k Hj Hk), (B j k Hj Hk). reflexivity. }
  assert (U : eqv (upd F3 (r_U s) cn u1) (upd F3 (r_U s') cn u2)) by (apply upd_local; assumption).
  assert (V : eqv
    (compute_vw c1 c2 K1 K2 (upd F3 (r_U s) cn u1)
       (fun j k => TDMASolverD mt sv (csub czero (CDB mt (upd F3 (r_U s) cn u1 cn j k)))) g1)
    (compute_vw c1 c2 K1 K2 (upd F3 (r_U s') cn u2)
       (fun j k => TDMASolverD mt sv (csub czero (CDB mt (upd F3 (r_U s') cn u2 cn j k)))) g2)).
  { apply vw_local; [exact U | | exact R1]. intros j k Hj Hk. rewrite !upd_same. rewrite (R0 j k Hj Hk). reflexivity. }
  unfold simr_full, simr. destruct root.
  - destruct (Hroot eq_refl) as (P1 & P2). destruct (Fh1 eq_refl) as (Q1 & Q2).
    rewrite !(fun c => M c 0%nat 0%nat P1 P2), !(fun c => U c 0%nat 0%nat P1 P2).
    unfold mean_solve_rk. rewrite Q1, Q2.
    cbn [r_U r_g r_hv0 r_hg0 r_h1].
    split; [split; [do 3 apply set00_local; exact V | exact R1]|].
    split; [exact HV | split; [exact HG | reflexivity]].
  - cbn [r_U r_g r_hv0 r_hg0 r_h1].
    split; [split; [exact V | exact R1]|].
    split; [exact HV | split; [exact HG | discriminate]].
Qed.
Lemma mask_fld_local F G : eqf F G -> eqf (mask_fld mask F) (mask_fld mask G).
Proof. intros H j k Hj Hk. unfold mask_fld. destruct mask; rewrite (H j k Hj Hk); reflexivity. Qed.
Lemma buoyancy_local p q : eqf p q -> eqf (buoyancy K1 K2 mt btt0 btt1 Nx p) (buoyancy K1 K2 mt btt0 btt1 Nx q).
Proof. intros H j k Hj Hk. extensionality i. unfold buoyancy. rewrite (H j k Hj Hk). reflexivity. Qed.
Lemma stage_rb_local rk s s' : simrb s s' -> (rk = 0%nat \/ simrb_full s s') ->
  simrb_full (stage_rb rk s) (stage_rb rk s').
Proof.
  intros (A & P) F.
  assert (Fb : rk = 0%nat \/ simr_full (rbase s) (rbase s')) by (destruct F as [F|F]; [left; exact F | right; apply F]).
  assert (AD : eqf (fun j k => rsc (dt * (rk_a rk + rk_b rk)) (buoyancy K1 K2 mt btt0 btt1 Nx (rphi s) j k))
                   (fun j k => rsc (dt * (rk_a rk + rk_b rk)) (buoyancy K1 K2 mt btt0 btt1 Nx (rphi s') j k))).
  { intros j k Hj Hk. rewrite (buoyancy_local _ _ P j k Hj Hk). reflexivity. }
  pose proof (stage_plus_local _ _ rk _ _ AD A Fb) as B.
  assert (N : eqf (mask_fld mask (convT (r_U (rbase s)) (rphi s))) (mask_fld mask (convT (r_U (rbase s')) (rphi s')))).
  { apply mask_fld_local, HconvT; [apply A | exact P]. }
  assert (FN : forall j k, (j < n1)%nat -> (k < n2)%nat -> rsc (rk_b rk) (rN0 s j k) = rsc (rk_b rk) (rN0 s' j k)).
  { intros j k Hj Hk. destruct F as [-> | (_ & _ & F)]; [|rewrite (F j k Hj Hk); reflexivity].
    extensionality i. unfold rsc. cbn [rk_b]. rewrite RtoC_0. ring. }
  unfold simrb_full. split; [exact B | split; [|exact N]].
  intros j k Hj Hk. unfold stage_rkrb, ComputeRHS_rkrb, ComputeRHS_rk, solve_linear_rkrb. cbv zeta.
  cbn [rphi rbase rN0 r_U fst snd call].
  rewrite (N j k Hj Hk), (FN j k Hj Hk), (P j k Hj Hk). reflexivity.
Qed.
Lemma run_rkrb_local s s' : simrb s s' ->
  simrb (integrate_rkrb cn c1 c2 K1 K2 Kx1 Kx2 root mt sv nu dt kappa mask conv Sk ADDT BDDT btt0 btt1 Nx AS BS convT s)
        (integrate_rkrb cn c1 c2 K1 K2 Kx1 Kx2 root mt sv nu dt kappa mask conv Sk ADDT BDDT btt0 btt1 Nx AS BS convT s').
Proof.
  assert (W : forall x y, simrb_full x y -> simrb x y) by (intros x y (U & V & _); split; [apply U | exact V]).
  intros H. unfold integrate_rkrb.
  pose proof (stage_rb_local 0 s s' H (or_introl eq_refl)) as H0.
  pose proof (stage_rb_local 1 _ _ (W _ _ H0) (or_intror H0)) as H1.
  pose proof (stage_rb_local 2 _ _ (W _ _ H1) (or_intror H1)) as H2.
  exact (W _ _ H2).
Qed.
End Local.
