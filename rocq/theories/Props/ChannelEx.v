(** A concrete system meeting the hypotheses of the channel theorems: three coefficients per
    column, diagonal matrices, two by two modes on rank 0, nu = 1/2, dt = 1. *)
From Coq Require Import Reals List Bool Arith Lia Lra FunctionalExtensionality.
From Verif Require Import Base.Cplx Base.Sums Base.Fin Model.KMM Model.KMMRB Spec.Channel
  Proofs.KMMProofs Props.Channel Props.ChannelSteady Props.ChannelRB.
Open Scope R_scope.

Definition n3 := 3%nat.
Definition dg (d : nat -> R) : col -> col := fun u i => if (i <? n3)%nat then (RtoC (d i) * u i)%C else C0.
Definition unit (i : nat) : col := fun l => if (l =? i)%nat then C1 else C0.
Definition diag (M : col -> col) (i : nat) : R := fst (M (unit i) i).
Definition dsolve (d : nat -> R) : col -> col :=
  fun b i => if (i <? n3)%nat then (RtoC (/ d i) * b i)%C else C0.

Lemma diag_dg d i : (i < n3)%nat -> diag (dg d) i = d i.
Proof.
  intros H. unfold diag, dg, unit. destruct (Nat.ltb_spec i n3); [|lia].
  rewrite Nat.eqb_refl. simpl. ring.
Qed.
Lemma dg_linear d : linear (dg d).
Proof. intros a b u v i. unfold dg. destruct (i <? n3)%nat; ring. Qed.
Lemma dsolve_solves d M : (forall i, (i < n3)%nat -> d i <> 0) ->
  (forall u i, (i < n3)%nat -> M u i = (RtoC (d i) * u i)%C) -> solves n3 M (dsolve d).
Proof.
  intros Hd HM. split; [|split].
  - intros b i Hi. rewrite HM by exact Hi. unfold dsolve. destruct (Nat.ltb_spec i n3); [|lia].
    ceq; field; auto.
  - intros b i Hi. unfold dsolve. destruct (Nat.ltb_spec i n3); [lia|reflexivity].
  - intros b u Hu Hb i. unfold dsolve. destruct (Nat.ltb_spec i n3) as [Hi|Hi].
    + rewrite (Hb i Hi), HM by exact Hi. ceq; field; auto.
    + symmetry. apply Hu. exact Hi.
Qed.

(** second derivative, mass, fourth derivative *)
Definition dA (i : nat) : R := - (1 + INR i).
Definition dB (i : nat) : R := 1.
Definition dS (i : nat) : R := (1 + INR i) * (1 + INR i).
Definition mt0 : mats :=
  mkMats (dg dB) (dg dA) (dg dB) (dg dS) (dg dA) (dg dB) (dg dB)
         (fun u i => if (i <? n3)%nat then u (S i) else C0) (dg dA) (dg dB).
Definition sv0 : solvers :=
  mkSolvers (fun A B a b => dsolve (fun i => a * diag A i + b * diag B i))
            (fun S A B c a b => dsolve (fun i => c * diag S i + a * diag A i + b * diag B i))
            (fun A => dsolve (diag A)).
Definition nu0 : R := / 2.

Lemma CDB_linear : linear (CDB mt0).
Proof. intros a b u v i. simpl. destruct (i <? n3)%nat; ring. Qed.

Lemma helm0 b : 0 <= b ->
  solves n3 (comb2 (- 1) (dg dA) b (dg dB)) (Helmholtz sv0 (dg dA) (dg dB) (- 1) b).
Proof.
  intros Hb. simpl. apply dsolve_solves.
  - intros i Hi. rewrite !diag_dg by exact Hi. unfold dA, dB. pose proof (pos_INR i). lra.
  - intros u i Hi. rewrite !diag_dg by exact Hi. unfold comb2, dg.
    destruct (Nat.ltb_spec i n3); [|lia]. ceq; ring.
Qed.
Lemma bih0 c a b : 0 < c -> 0 <= a -> 0 <= b ->
  solves n3 (comb3 (- c) (dg dS) a (dg dA) (- b) (dg dB)) (Biharmonic sv0 (dg dS) (dg dA) (dg dB) (- c) a (- b)).
Proof.
  intros Hc Ha Hb. simpl. apply dsolve_solves.
  - intros i Hi. rewrite !diag_dg by exact Hi. unfold dA, dB, dS. pose proof (pos_INR i).
    assert (0 < c * ((1 + INR i) * (1 + INR i))) by (apply Rmult_lt_0_compat; [assumption | apply Rmult_lt_0_compat; lra]).
    assert (0 <= a * (1 + INR i)) by (apply Rmult_le_pos; lra). lra.
  - intros u i Hi. rewrite !diag_dg by exact Hi. unfold comb3, comb2, dg.
    destruct (Nat.ltb_spec i n3); [|lia]. ceq; ring.
Qed.

Lemma ksq_nonneg (K1 K2 : nat -> R) j k : 0 <= K1 j * K1 j + K2 k * K2 k.
Proof. pose proof (Rle_0_sqr (K1 j)). pose proof (Rle_0_sqr (K2 k)). unfold Rsqr in *. lra. Qed.

Example channel_solvers_exist : kmm_solvers_ok INR INR mt0 sv0 nu0 1 n3 n3.
Proof.
  unfold kmm_solvers_ok, nu0. split; [|split].
  - intros j k. apply helm0. pose proof (ksq_nonneg INR INR j k). lra.
  - intros j k. pose proof (ksq_nonneg INR INR j k) as H. apply bih0; [lra | lra |].
    assert (0 <= / 2 * 1 / 2 * ((INR j * INR j + INR k * INR k) * (INR j * INR j + INR k * INR k)))
      by (apply Rmult_le_pos; [lra | apply Rmult_le_pos; assumption]). lra.
  - apply helm0. lra.
Qed.
Lemma theta_vals rk : (rk < 3)%nat -> 0 < rk_a rk + rk_b rk <= 1.
Proof. intros H. destruct rk as [|[|[|]]]; [unfold rk_a, rk_b; lra ..| lia]. Qed.
Example channel_rk_solvers_exist : rk_solvers_ok INR INR mt0 sv0 nu0 1 n3 n3.
Proof.
  intros rk Hrk. pose proof (theta_vals rk Hrk) as Ht. set (t := rk_a rk + rk_b rk) in *.
  assert (P : 0 <= 2 / nu0 / t / 1).
  { unfold nu0. replace (2 / / 2 / t / 1) with (4 * / t) by (field; lra).
    apply Rmult_le_pos; [lra | left; apply Rinv_0_lt_compat; lra]. }
  split; [|split].
  - intros j k. apply helm0. pose proof (ksq_nonneg INR INR j k). lra.
  - intros j k. pose proof (ksq_nonneg INR INR j k) as H.
    assert (0 <= nu0 * t * 1 * (INR j * INR j + INR k * INR k))
      by (apply Rmult_le_pos; [unfold nu0; lra | assumption]).
    assert (0 <= nu0 * t * 1 / 2 * ((INR j * INR j + INR k * INR k) * (INR j * INR j + INR k * INR k)))
      by (apply Rmult_le_pos; [unfold nu0; lra | apply Rmult_le_pos; assumption]).
    apply bih0; [unfold nu0 in *; lra | lra | lra].
  - apply helm0, P.
Qed.
Example channel_mass_solver_exists : solves n3 (BDD mt0) (TDMA sv0 (BDD mt0)).
Proof.
  simpl. apply dsolve_solves.
  - intros i Hi. rewrite diag_dg by exact Hi. unfold dB. lra.
  - intros u i Hi. rewrite diag_dg by exact Hi. unfold dg. destruct (Nat.ltb_spec i n3); [reflexivity|lia].
Qed.
Example channel_zero_mode : zero_mode_on_root 2 2 true INR INR.
Proof.
  intros j k Hj Hk. split.
  - intros (E1 & E2). change 0 with (INR 0) in E1, E2. apply INR_eq in E1, E2. auto.
  - intros (_ & -> & ->). simpl. auto.
Qed.

(** The flow: convection i u (not zero), forcing 1 in mode (0,0) of the streamwise component. *)
Definition conv0 : vfld -> fld -> vfld := fun U _ c j k i => (Ci * U c j k i)%C.
Definition Sk0 : vfld := fun c j k i =>
  match c with x1 => if ((j =? 0) && (k =? 0) && (i <? n3))%bool then C1 else C0 | _ => C0 end.

(** one step of the concrete solver from any state: all hypotheses of kmm_continuity and
    kmm_crank_nicolson hold *)
Example channel_step_ok (s : kst) :
  let s' := integrate x0 x1 x2 INR INR INR INR true mt0 sv0 nu0 1 None conv0 Sk0 s in
  good_field x0 x1 x2 INR INR mt0 n3 2 2 (U_hat s') (g s').
Proof.
  apply kmm_continuity; try discriminate.
  - apply channel_zero_mode.
  - apply dg_linear.
  - apply CDB_linear.
  - apply channel_mass_solver_exists.
Qed.

(** A steady flow with a non-zero profile: nu ADD u = Sk, no convection *)
Definition Usteady : vfld := fun c j k i =>
  match c with
  | x1 => if ((j =? 0) && (k =? 0) && (i <? n3))%bool then RtoC (/ (nu0 * dA i)) else C0
  | _ => C0 end.
Definition conv1 : vfld -> fld -> vfld := fun _ _ _ _ _ _ => C0.
Definition s_steady : kst := mkK Usteady (fun _ _ _ => C0) (conv1 Usteady (fun _ _ _ => C0))
   (conv1 Usteady (fun _ _ _ => C0)) (conv1 Usteady (fun _ _ _ => C0)) Usteady.
Lemma Usteady_parallel : parallel x0 x1 x2 true conv1 n3 (U_hat s_steady) (g s_steady).
Proof.
  repeat split; intros; try reflexivity.
  - intros j k H i. simpl. destruct ((j =? 0) && (k =? 0))%bool eqn:E; [|reflexivity].
    apply at00 in E. exfalso. apply H. tauto.
  - intros i Hi. simpl. destruct (Nat.ltb_spec i n3); [lia | reflexivity].
Qed.
Lemma Usteady_balanced : balanced x1 x2 true mt0 nu0 None conv1 Sk0 n3 (U_hat s_steady) (g s_steady).
Proof.
  intros _ i Hi. unfold mconv, conv1, s_steady. cbn [U_hat g]. unfold Usteady, Sk0, mt0; cbn [ADD0 BDD0].
  unfold dg. simpl andb. destruct (Nat.ltb_spec i n3); [|lia].
  split; [|ring]. unfold nu0, dA. pose proof (pos_INR i).
  apply C_eq; simpl; field; lra.
Qed.
Example steady_case (n : nat) :
  let s' := Nat.iter n (step x0 x1 x2 INR INR INR INR true mt0 sv0 nu0 1 None conv1 Sk0) s_steady in
  (forall c, U_hat s' c = U_hat s_steady c) /\ g s' = g s_steady /\
  U_hat s_steady x1 0%nat 0%nat 0%nat <> C0.
Proof.
  intros s'.
  destruct (kmm_steady x0 x1 x2 ltac:(discriminate) ltac:(discriminate) ltac:(discriminate)
     INR INR INR INR true mt0 sv0 nu0 1 None conv1 Sk0 n3 n3
     ltac:(unfold nu0; lra) ltac:(lra) (dg_linear _) (dg_linear _) CDB_linear (dg_linear _) (dg_linear _)
     (dg_linear _) (dg_linear _) (dg_linear _) (dg_linear _) channel_mass_solver_exists
     ltac:(simpl; auto) channel_solvers_exist s_steady n
     Usteady_parallel Usteady_balanced eq_refl eq_refl) as (A & B).
  split; [exact A | split; [exact B|]].
  simpl. unfold nu0, dA. simpl. intros E. apply (f_equal fst) in E. simpl in E.
  replace (/ (/ 2 * - (1 + 0))) with (- 2) in E by field. lra.
Qed.

Example temperature_solver_exists : T_solver_ok INR INR sv0 1 (/ 2) (dg dA) (dg dB) n3.
Proof. intros j k. refine (proj1 (helm0 _ _)). pose proof (ksq_nonneg INR INR j k). lra. Qed.

Print Assumptions kmm_continuity.
Print Assumptions kmmrk3_stage_continuity.
Print Assumptions kmmrk3_continuity.
Print Assumptions kmm_divergence_free.
Print Assumptions kmm_crank_nicolson.
Print Assumptions kmm_run_ab2_cn.
Print Assumptions kmmrk3_additive_rk.
Print Assumptions rk3_order_conditions.
Print Assumptions ab2_exact_for_linear.
Print Assumptions kmm_history.
Print Assumptions kmm_steady.
Print Assumptions kmmrk3_steady.
