(** C71: the flux controller of demo/MKM.py. *)
From Coq Require Import Reals Lra Lia Arith Bool FunctionalExtensionality.
From Verif Require Import Base.Cplx Base.Sums Base.Fin Spec.Chebyshev Spec.Channel Spec.ChannelField Spec.Quadrature
  Model.KMM Model.ChannelDemo Model.Dx Proofs.KMMProofs Proofs.ChebyshevProofs Proofs.QuadratureProofs
  Proofs.ChannelConvProofs Proofs.ChannelDemoProofs Props.Quadrature.
Open Scope R_scope.

Definition pt (x y z : R) : point := fun d => match d with x0 => x | x1 => y | x2 => z end.

Section Flux.
(** the modes of the whole mesh, the mean one being (0,0) *)
Context (m1 m2 nb : nat) (wt : nat -> nat -> R) (K1 K2 : nat -> R).
Hypothesis Hm1 : (0 < m1)%nat.
Hypothesis Hm2 : (0 < m2)%nat.
Hypothesis Hnb : (0 < nb)%nat.
Hypothesis Hwt : wt 0%nat 0%nat = 1.
Hypothesis HK1 : K1 0%nat = 0.
Hypothesis HK2 : K2 0%nat = 0.
(** the streamwise velocity with coefficients F, as a function of the point *)
Definition streamwise (F : fld) (x y z : R) : R := field x0 x1 x2 m1 m2 wt K1 K2 nb phi F (pt x y z).

Lemma Rsum_first n f : (0 < n)%nat -> (forall i, (0 < i < n)%nat -> f i = 0) -> Rsum n f = f 0%nat.
Proof.
  intros Hn H. destruct n as [|n]; [lia|]. rewrite Rsum_S_l.
  rewrite (Rsum_ext n _ (fun _ => 0)) by (intros i Hi; apply H; lia).
  rewrite Rsum_const. ring.
Qed.
Lemma Csum_first n f : (0 < n)%nat -> (forall i, (0 < i < n)%nat -> f i = C0) -> Csum n f = f 0%nat.
Proof.
  intros Hn H. induction n as [|n IH]; [lia|]. cbn [Csum].
  destruct n as [|n]; [cbn [Csum]; ring|].
  rewrite IH by (try lia; intros; apply H; lia). rewrite (H (S n)) by lia. ring.
Qed.

(** what the controller does to the function: it adds a parabola that vanishes on both walls *)
Lemma controlled root flux beta L0 L1 L2 (u : vfld) x y z :
  streamwise (flux_control root flux beta L0 L1 L2 u x1) x y z
  = streamwise (u x1) x y z
    + (if root then (flux - beta) / (L0 * L1 * L2 * 4 / 3) else 0) * (2 * (1 - x * x)).
Proof.
  unfold flux_control. cbv zeta. destruct root; [|ring].
  rewrite upd_same. set (q := (flux - beta) / (L0 * L1 * L2 * 4 / 3)).
  set (D := fun (j k i : nat) => if (j =? 0) && (k =? 0) && (i =? 0) then RtoC q else C0).
  assert (E : streamwise D x y z = q * (2 * (1 - x * x))).
  { unfold streamwise, field.
    rewrite (Rsum_first m1); [|exact Hm1|].
    2:{ intros j Hj. rewrite (Rsum_ext m2 _ (fun _ => 0)); [rewrite Rsum_const; ring|].
        intros k Hk. rewrite (Csum_0 nb); [unfold Re, Cmul, C0; cbn [fst snd]; ring|].
        intros i Hi. unfold D. destruct j; [lia|]. cbn [Nat.eqb andb]. ring. }
    rewrite (Rsum_first m2); [|exact Hm2|].
    2:{ intros k Hk. rewrite (Csum_0 nb); [unfold Re, Cmul, C0; cbn [fst snd]; ring|].
        intros i Hi. unfold D. destruct k; [lia|]. cbn [Nat.eqb andb]. ring. }
    rewrite (Csum_first nb); [|exact Hnb|].
    2:{ intros i Hi. unfold D. destruct i; [lia|]. cbn [Nat.eqb andb]. ring. }
    unfold D, phi. cbn [Nat.eqb andb Nat.add pt]. rewrite HK1, HK2, Hwt, T_0, (T_SS 0), T_1, T_0.
    unfold expi, Re. cbn [fst Cmul RtoC]. rewrite !Rmult_0_l, Rplus_0_r, cos_0, sin_0. unfold Cmul, RtoC. cbn [fst snd]. ring. }
  rewrite <- E. unfold streamwise, field.
  rewrite <- Rsum_add. apply Rsum_ext. intros j Hj. rewrite <- Rsum_add. apply Rsum_ext. intros k Hk.
  rewrite <- Rmult_plus_distr_l. f_equal.
  transitivity (Re ((Csum nb (fun i => u x1 j k i * RtoC (phi i (pt x y z x0)))
                     + Csum nb (fun i => D j k i * RtoC (phi i (pt x y z x0))))
                    * expi (K1 j * pt x y z x1 + K2 k * pt x y z x2))%C).
  - f_equal. f_equal. rewrite <- Csum_add. apply Csum_ext. intros i Hi. unfold D.
    destruct ((j =? 0) && (k =? 0) && (i =? 0)); ring.
  - unfold Re, Cmul, Cadd. cbn. ring.
Qed.

(** integral of the parabola over the channel *)
Lemma parabola_int L1 L2 : Int3 (fun x _ _ => 2 * (1 - x * x)) (-1) 1 0 L1 0 L2 (8 / 3 * L1 * L2).
Proof.
  exists (fun x _ => 2 * (1 - x * x) * (L2 - 0)), (fun x => 2 * (1 - x * x) * (L2 - 0) * (L1 - 0)).
  split; [|split]; [intros; apply Int_const ..|].
  exists (fun x => (2 * x - 2 / 3 * (x * x * x)) * (L2 - 0) * (L1 - 0)). split.
  - intros x.
    replace (2 * (1 - x * x) * (L2 - 0) * (L1 - 0)) with
      (((2 * 1 - 2 / 3 * ((1 * x + x * 1) * x + x * x * 1)) * (L2 - 0) + (2 * x - 2 / 3 * (x * x * x)) * 0) * (L1 - 0)
        + (2 * x - 2 / 3 * (x * x * x)) * (L2 - 0) * 0) by field.
    apply (derivable_pt_lim_mult (fun x => (2 * x - 2 / 3 * (x * x * x)) * (L2 - 0)) (fun _ => L1 - 0));
      [|apply derivable_pt_lim_const].
    apply (derivable_pt_lim_mult (fun x => 2 * x - 2 / 3 * (x * x * x)) (fun _ => L2 - 0));
      [|apply derivable_pt_lim_const].
    apply (derivable_pt_lim_minus (fun x => 2 * x) (fun x => 2 / 3 * (x * x * x))).
    + apply (derivable_pt_lim_scal (fun x => x) 2). apply derivable_pt_lim_id.
    + apply (derivable_pt_lim_scal (fun x => x * x * x) (2 / 3)).
      apply (derivable_pt_lim_mult (fun x => x * x) (fun x => x)); [|apply derivable_pt_lim_id].
      apply (derivable_pt_lim_mult (fun x => x) (fun x => x)); apply derivable_pt_lim_id.
  - field.
Qed.
Lemma Int3_add f h a0 b0 a1 b1 a2 b2 V W q : Int3 f a0 b0 a1 b1 a2 b2 V -> Int3 h a0 b0 a1 b1 a2 b2 W ->
  Int3 (fun x y z => f x y z + q * h x y z) a0 b0 a1 b1 a2 b2 (V + q * W).
Proof.
  intros (f1 & f2 & A & B & D) (h1 & h2 & A' & B' & D').
  exists (fun x y => 1 * f1 x y + q * h1 x y), (fun x => 1 * f2 x + q * h2 x). split; [|split].
  - intros x y. eapply Int_ext; [|apply (Int_lin _ _ _ _ _ _ 1 q (A x y) (A' x y))]. intros; cbn; ring.
  - intros x. eapply Int_ext; [|apply (Int_lin _ _ _ _ _ _ 1 q (B x) (B' x))]. intros; cbn; ring.
  - replace (V + q * W) with (1 * V + q * W) by ring. apply Int_lin; assumption.
Qed.

(** C71.  The integral of the streamwise velocity over a channel with L[0] = 2 changes by exactly
    flux - beta: if beta was that integral, it is flux afterwards. *)
Theorem C71_flux_integral flux beta L1 L2 (u : vfld) V : 0 < L1 -> 0 < L2 ->
  Int3 (streamwise (u x1)) (-1) 1 0 L1 0 L2 V ->
  Int3 (streamwise (flux_control true flux beta 2 L1 L2 u x1)) (-1) 1 0 L1 0 L2 (V + (flux - beta)).
Proof.
  intros H1 H2 HV.
  pose proof (Int3_add _ _ _ _ _ _ _ _ _ _ ((flux - beta) / (2 * L1 * L2 * 4 / 3)) HV (parabola_int L1 L2)) as H.
  replace (V + (flux - beta)) with (V + (flux - beta) / (2 * L1 * L2 * 4 / 3) * (8 / 3 * L1 * L2)) by (field; lra).
  destruct H as (h & g & A & B & D). exists h, g. split; [|split; assumption].
  intros x y. eapply Int_ext; [|apply A]. intros z. cbv beta. rewrite controlled. reflexivity.
Qed.

(** What the code measures: after the controller, dx of the mesh values is flux, on any number of
    ranks, for any L[0] = 2; for another L[0] the error is reduced by the factor 1 - 2/L[0] only. *)
Lemma dx_controlled P n lo len (us us' : nat -> nat -> nat -> nat -> R) bs xw flux L0 L (u : vfld) :
  decomposition P n lo len -> (forall d, 0 < L d) -> L0 <> 0 -> (forall d, (0 < n d)%nat) ->
  exactT bs (n 0%nat) 3 xw ->
  let grid (F : fld) := sampled 0 (streamwise F) xw (x_per (L 1%nat) (n 1%nat)) (x_per (L 2%nat) (n 2%nat)) in
  scattered P lo len (grid (u x1)) us ->
  let beta := dx P lo len us 0 bs (n 0%nat) L n 0 in
  scattered P lo len (grid (flux_control true flux beta L0 (L 1%nat) (L 2%nat) u x1)) us' ->
  dx P lo len us' 0 bs (n 0%nat) L n 0 = beta + (flux - beta) * (2 / L0).
Proof.
  intros Hd HL HL0 Hn Hex grid Hs beta Hs'.
  destruct (dx_rank_independent P n lo len _ us' 0 bs L n ltac:(lia) Hd Hs') as [E' _].
  destruct (dx_rank_independent P n lo len _ us 0 bs L n ltac:(lia) Hd Hs) as [E _].
  fold beta in E. rewrite E'. cbn [oth1 oth2] in *.
  set (q := (flux - beta) / (L0 * L 1%nat * L 2%nat * 4 / 3)).
  rewrite (weighted_ext bs (n 0%nat) _ (fun i => 1 * plane 0 n (grid (u x1)) i
      + (INR (n 1%nat) * INR (n 2%nat) * q) * (1 * T 0 (xw i) + -1 * T 2 (xw i)))).
  2:{ intros i Hi. unfold plane, grid, sampled.
      rewrite (Rsum_ext (n 1%nat) _ (fun j => Rsum (n 2%nat) (fun k =>
          streamwise (u x1) (xw i) (x_per (L 1%nat) (n 1%nat) j) (x_per (L 2%nat) (n 2%nat) k))
          + INR (n 2%nat) * (q * (2 * (1 - xw i * xw i))))).
      - rewrite Rsum_add, Rsum_const, T_0, (T_SS 0), T_1, T_0. ring.
      - intros j Hj. rewrite <- Rsum_const, <- Rsum_add. apply Rsum_ext. intros k Hk.
        rewrite controlled. reflexivity. }
  rewrite weighted_lin, (weighted_lin bs (n 0%nat) (fun i => T 0 (xw i)) (fun i => T 2 (xw i))).
  rewrite (Hex 0%nat) by lia. rewrite (Hex 2%nat) by lia.
  rewrite Rmult_1_l, Rmult_plus_distr_r, <- E.
  unfold IT, q. cbn [Nat.odd Nat.even negb INR]. pose proof (HL 1%nat). pose proof (HL 2%nat).
  assert (INR (n 1%nat) <> 0) by (apply not_0_INR; specialize (Hn 1%nat); lia).
  assert (INR (n 2%nat) <> 0) by (apply not_0_INR; specialize (Hn 2%nat); lia).
  field. repeat split; lra.
Qed.
Theorem C71_flux_GC P n lo len us us' flux L (u : vfld) :
  decomposition P n lo len -> (forall d, 0 < L d) -> L 0%nat = 2 -> (forall d, (0 < n d)%nat) -> (3 <= n 0%nat)%nat ->
  let grid (F : fld) := sampled 0 (streamwise F) (x_GC (n 0%nat)) (x_per (L 1%nat) (n 1%nat)) (x_per (L 2%nat) (n 2%nat)) in
  scattered P lo len (grid (u x1)) us ->
  let beta := dx P lo len us 0 ChebGC (n 0%nat) L n 0 in
  scattered P lo len (grid (flux_control true flux beta (L 0%nat) (L 1%nat) (L 2%nat) u x1)) us' ->
  dx P lo len us' 0 ChebGC (n 0%nat) L n 0 = flux.
Proof.
  intros Hd HL H2 Hn H3 grid Hs beta Hs'.
  rewrite (dx_controlled P n lo len us us' ChebGC (x_GC (n 0%nat)) flux (L 0%nat) L u Hd HL ltac:(lra) Hn
     ltac:(intros i Hi; apply GC_T; lia) Hs Hs'). fold beta. rewrite H2. field.
Qed.
Theorem C71_flux_GL P n lo len us us' flux L (u : vfld) :
  decomposition P n lo len -> (forall d, 0 < L d) -> L 0%nat = 2 -> (forall d, (0 < n d)%nat) -> (4 <= n 0%nat)%nat ->
  let grid (F : fld) := sampled 0 (streamwise F) (x_GL (n 0%nat)) (x_per (L 1%nat) (n 1%nat)) (x_per (L 2%nat) (n 2%nat)) in
  scattered P lo len (grid (u x1)) us ->
  let beta := dx P lo len us 0 ChebGL (n 0%nat) L n 0 in
  scattered P lo len (grid (flux_control true flux beta (L 0%nat) (L 1%nat) (L 2%nat) u x1)) us' ->
  dx P lo len us' 0 ChebGL (n 0%nat) L n 0 = flux.
Proof.
  intros Hd HL H2 Hn H3 grid Hs beta Hs'.
  assert (Hex : exactT ChebGL (n 0%nat) 3 (x_GL (n 0%nat))).
  { intros i Hi. destruct (n 0%nat) as [|M] eqn:E; [lia|]. change (weighted ChebGL (S M)) with (sum_GL (S M)).
    rewrite GL_T by lia. destruct (Nat.eqb_spec i M); [lia|]. reflexivity. }
  rewrite (dx_controlled P n lo len us us' ChebGL (x_GL (n 0%nat)) flux (L 0%nat) L u Hd HL ltac:(lra) Hn Hex Hs Hs').
  fold beta. rewrite H2. field.
Qed.

(** The controller keeps no-slip, and touches nothing but the mean streamwise velocity: continuity,
    g and the other components are as before. *)
Theorem C71_flux_side_effects root flux beta L0 L1 L2 (u : vfld) :
  let u' := flux_control root flux beta L0 L1 L2 u in
  (forall y z, streamwise (u' x1) 1 y z = streamwise (u x1) 1 y z /\
               streamwise (u' x1) (-1) y z = streamwise (u x1) (-1) y z) /\
  (forall c j k, c <> x1 \/ (0 < j)%nat \/ (0 < k)%nat -> u' c j k = u c j k) /\
  (forall j k, g_of K1 K2 u' j k = g_of K1 K2 u j k) /\
  (forall j k i, (Ci * RtoC (K1 j) * u' x1 j k i = Ci * RtoC (K1 j) * u x1 j k i)%C).
Proof.
  intros u'. assert (O : forall c j k, c <> x1 \/ (0 < j)%nat \/ (0 < k)%nat -> u' c j k = u c j k).
  { intros c j k H. unfold u', flux_control. cbv zeta. destruct root; [|reflexivity]. destruct (eqb3 c x1) eqn:E.
    - assert (c = x1) as -> by (destruct c; [discriminate|reflexivity|discriminate]).
      destruct H as [H | H]; [congruence|]. rewrite upd_same.
      destruct ((j =? 0) && (k =? 0)) eqn:B; [|reflexivity].
      apply andb_true_iff in B. rewrite !Nat.eqb_eq in B. lia.
    - rewrite upd_other; [reflexivity|]. intros ->. discriminate. }
  split; [|split; [exact O|split]].
  - intros y z. split; unfold u'; rewrite controlled; ring.
  - intros j k. unfold g_of. rewrite (O x2) by (left; discriminate).
    destruct k as [|k]; [|rewrite O by (right; right; lia); reflexivity].
    rewrite HK2. extensionality i. unfold csub, csc. rewrite RtoC_0. ring.
  - intros j k i. destruct j as [|j]; [|rewrite O by (right; left; lia); reflexivity].
    rewrite HK1, RtoC_0. ring.
Qed.
End Flux.

(** the callback fits the hypotheses of the restart theorems C70 *)
Theorem C71_controller_is_local m1 m2 root flux (beta : vfld -> R) L0 L1 L2 :
  (forall U V, eqv m1 m2 U V -> beta U = beta V) ->
  forall U V, eqv m1 m2 U V ->
  eqv m1 m2 (flux_control root flux (beta U) L0 L1 L2 U) (flux_control root flux (beta V) L0 L1 L2 V).
Proof.
  intros Hb U V H c j k Hj Hk. unfold flux_control. cbv zeta. rewrite (Hb U V H).
  destruct root; [|apply H; assumption]. unfold upd. destruct (eqd F3 c x1); [|apply H; assumption].
  rewrite (H x1 j k Hj Hk). reflexivity.
Qed.

(** a fluid at rest on a 4 x 2 x 2 mesh, one rank, is given the flux 5 *)
Example C71_case :
  let n := fun d => match d with O => 4 | _ => 2 end%nat in
  let L := fun _ : nat => 2 in
  let one := fun _ _ : nat => 1 in
  let sw := streamwise 2 2 3 one INR INR in
  let grid F := sampled 0 (sw F) (x_GC 4) (x_per 2 2) (x_per 2 2) in
  let us (F : fld) := fun (_ i j k : nat) => grid F i j k in
  let u := fun (_ : ax3) (_ _ : nat) => czero in
  let size r := match r with O => n | _ => fun _ => O end in
  let beta := dx 1 (fun _ _ => O) size (us (u x1)) 0 ChebGC 4 L n 0 in
  dx 1 (fun _ _ => O) size (us (flux_control true 5 beta 2 2 2 u x1)) 0 ChebGC 4 L n 0 = 5.
Proof.
  cbv zeta.
  eapply (C71_flux_GC 2 2 3 (fun _ _ => 1) INR INR ltac:(lia) ltac:(lia) ltac:(lia) eq_refl eq_refl eq_refl
    1 (fun d => match d with O => 4 | _ => 2 end%nat) (fun _ _ => O) _ _ _ 5 (fun _ => 2) (fun (_ : ax3) (_ _ : nat) => czero)).
  - split.
    + intros r a Hr Ha. destruct r; [|lia]. cbn. lia.
    + intros i j k Hi Hj Hk. exists O. split; [lia|]. split; [unfold owns; cbn; lia|]. intros r' Hr' _. lia.
  - intros; lra.
  - reflexivity.
  - intros d; destruct d; lia.
  - lia.
  - instantiate (1 := fun _ i j k => sampled 0 (streamwise 2 2 3 (fun _ _ => 1) INR INR (fun _ _ => czero))
      (x_GC 4) (x_per 2 2) (x_per 2 2) i j k).
    intros r i j k _ _ _ _. reflexivity.
  - intros r i j k _ _ _ _. reflexivity.
Qed.

Print Assumptions C71_flux_integral.
Print Assumptions C71_flux_GC.
Print Assumptions C71_flux_GL.
Print Assumptions C71_flux_side_effects.
Print Assumptions C71_controller_is_local.
