(** A concrete system meeting the hypotheses of the theorems on the coupled channel solvers: N = 3
    (one Dirichlet function, three pressure functions), two by two modes on rank 0, wavenumbers
    0 and 1, nu = 1/2, dt = 1. *)
From Coq Require Import Reals List Bool Arith Lia Lra FunctionalExtensionality.
From Verif Require Import Base.Cplx Base.Sums Base.Fin Model.Maths Model.LU Model.KMM Model.Coupled
  Spec.Chebyshev Spec.Channel Spec.ChannelField Spec.Coupled
  Proofs.ChebyshevProofs Proofs.LUProofs Proofs.KMMProofs Proofs.ChannelConvProofs Proofs.CoupledProofs
  Props.Coupled.
Open Scope R_scope.

(** The pressure rows exist for every N and every choice of norms. *)
Lemma pressure_rows_exist N h : (2 <= N)%nat -> (forall i, (i < N)%nat -> 0 < h i) ->
  pressure_rows N h (fun u i => RtoC (h i) * dcoef N u i)%C (fun u i => RtoC (h i) * tcoef N u i)%C.
Proof.
  intros HN Hh. split; [exact Hh|]. split.
  - intros u f i Hi Hf. exists (dcoef N u). split; [|reflexivity]. intros x.
    destruct (Hf x) as (A & B). destruct (dirichlet_deriv N u x HN) as (A' & B').
    apply C_eq; eapply uniqueness_limite; [exact A | exact A' | exact B | exact B'].
  - intros u i Hi. exists (tcoef N u). split; [|reflexivity]. intros x. rewrite series_phi.
    apply dirichlet_cheb, HN.
Qed.

(** phi_0 = 1 - T_2, phi_0'' = -4, (phi_0, phi_0) = 3 pi / 2, (1, phi_0) = pi, (T_2, phi_0) = - pi/2,
    (T_1', phi_0) = pi, (T_2', phi_0) = 0. *)
Definition row0 (z : C) : col := fun i => match i with O => z | _ => C0 end.
Definition bl3 : blocks := mkBlocks
  (fun u => row0 (RtoC (- (4 * PI)) * u 0%nat)%C)
  (fun u => row0 (RtoC (3 * PI / 2) * u 0%nat)%C)
  (fun p => row0 (RtoC PI * p 1%nat)%C)
  (fun p => row0 (RtoC PI * p 0%nat - RtoC (PI / 2) * p 2%nat)%C)
  (fun u i => RtoC (cw i) * dcoef 3 u i)%C (fun u i => RtoC (cw i) * tcoef 3 u i)%C.

Definition zero00 (j k : nat) : bool := (j =? 0)%nat && (k =? 0)%nat.
(** Solver of the block system: the pressure is the part of the right hand side along the
    wavenumber vector. *)
Definition solve3 (alfa gam : R) (b : vq) : vq :=
  let k2 j k := INR j * INR j + INR k * INR k in
  let beta j k := (alfa + k2 j k) * (3 * PI / 2) + 4 * PI in
  let kr j k := (RtoC (INR j) * fst b x1 j k 0%nat + RtoC (INR k) * fst b x2 j k 0%nat)%C in
  let q j k := if zero00 j k then C0 else (RtoC (/ (gam * PI * k2 j k)) * (- Ci * kr j k))%C in
  (fun c j k => row0 (match c with
     | x0 => C0
     | x1 => (RtoC (/ beta j k) * (fst b x1 j k 0%nat - RtoC (gam * PI * INR j) * (Ci * q j k)))%C
     | x2 => (RtoC (/ beta j k) * (fst b x2 j k 0%nat - RtoC (gam * PI * INR k) * (Ci * q j k)))%C
     end),
   fun j k i => match i with
     | O => q j k
     | 1%nat => (RtoC (/ (gam * PI)) * fst b x0 j k 0%nat)%C
     | _ => C0
     end).

Lemma d3 u : dcoef 3 u 0 = C0 /\ dcoef 3 u 1 = (RtoC (- 4) * u 0%nat)%C /\ dcoef 3 u 2 = C0.
Proof.
  unfold dcoef, ind. simpl. repeat split; apply C_eq; simpl; ring.
Qed.
Lemma t3 u : tcoef 3 u 0 = u 0%nat /\ tcoef 3 u 1 = C0 /\ tcoef 3 u 2 = (- u 0%nat)%C.
Proof. unfold tcoef. simpl. repeat split; apply C_eq; simpl; ring. Qed.

Lemma k2_pos j k : zero00 j k = false -> 0 < INR j * INR j + INR k * INR k.
Proof.
  intros H. pose proof (Rle_0_sqr (INR j)) as Sj. pose proof (Rle_0_sqr (INR k)) as Sk'. unfold Rsqr in *.
  destruct j as [|j]; [destruct k as [|k]; [discriminate H|]|].
  - assert (0 < INR (S k)) by (apply lt_0_INR; lia). nra.
  - assert (0 < INR (S j)) by (apply lt_0_INR; lia). nra.
Qed.

Lemma zero00_iff j k : INR j = 0 -> INR k = 0 -> zero00 j k = true.
Proof.
  intros A B. destruct j; [destruct k; [reflexivity|]|]; rewrite S_INR in *;
    [pose proof (pos_INR k) | pose proof (pos_INR j)]; lra.
Qed.

Lemma solve3_ok alfa gam : 0 <= alfa -> gam <> 0 -> solves_blocks 3 2 2 INR INR bl3 solve3 alfa gam.
Proof.
  intros Ha Hg ru j k Hj Hk. pose proof PI_RGT_0 as Hpi.
  set (b := (ru, fun _ _ => czero) : vq).
  assert (Hb : 0 < (alfa + (INR j * INR j + INR k * INR k)) * (3 * PI / 2) + 4 * PI).
  { pose proof (Rle_0_sqr (INR j)) as Sj. pose proof (Rle_0_sqr (INR k)) as Sk'. unfold Rsqr in *.
    assert (0 <= (alfa + (INR j * INR j + INR k * INR k)) * (3 * PI / 2)) by (apply Rmult_le_pos; lra). lra. }
  set (beta := (alfa + (INR j * INR j + INR k * INR k)) * (3 * PI / 2) + 4 * PI) in *.
  set (r0 := ru x0 j k 0%nat). set (r1 := ru x1 j k 0%nat). set (r2 := ru x2 j k 0%nat).
  set (q := snd (solve3 alfa gam b) j k 0%nat).
  assert (Eq : zero00 j k = false ->
     (RtoC gam * (Ci * RtoC (INR j) * (RtoC PI * (RtoC (INR j) * q)) + Ci * RtoC (INR k) * (RtoC PI * (RtoC (INR k) * q)))
      = RtoC (INR j) * r1 + RtoC (INR k) * r2)%C).
  { intros Hz. unfold q. cbn [solve3 snd fst]. rewrite Hz. pose proof (k2_pos j k Hz).
    unfold b. cbn [fst]. fold r1 r2.
    apply C_eq; unfold Cmul, Cadd, Copp, RtoC, Ci; simpl; field; repeat split; lra. }
  assert (Ez : zero00 j k = true -> q = C0 /\ j = 0%nat /\ k = 0%nat).
  { intros Hz. split.
    - unfold q. cbn [solve3 snd fst]. rewrite Hz. reflexivity.
    - unfold zero00 in Hz. apply andb_prop in Hz. destruct Hz as (A & B).
      apply Nat.eqb_eq in A, B. now split. }
  assert (U0 : fst (solve3 alfa gam b) x0 j k 0%nat = C0) by reflexivity.
  assert (U1 : fst (solve3 alfa gam b) x1 j k 0%nat
     = (RtoC (/ beta) * (r1 - RtoC (gam * PI * INR j) * (Ci * q)))%C) by reflexivity.
  assert (U2 : fst (solve3 alfa gam b) x2 j k 0%nat
     = (RtoC (/ beta) * (r2 - RtoC (gam * PI * INR k) * (Ci * q)))%C) by reflexivity.
  assert (P0 : snd (solve3 alfa gam b) j k 0%nat = q) by reflexivity.
  assert (P1 : snd (solve3 alfa gam b) j k 1%nat = (RtoC (/ (gam * PI)) * r0)%C) by reflexivity.
  assert (P2 : snd (solve3 alfa gam b) j k 2%nat = C0) by reflexivity.
  assert (Dv : (RtoC (INR j) * fst (solve3 alfa gam b) x1 j k 0%nat
              + RtoC (INR k) * fst (solve3 alfa gam b) x2 j k 0%nat = C0)%C).
  { rewrite U1, U2. destruct (zero00 j k) eqn:Hz.
    - destruct (Ez eq_refl) as (-> & -> & ->). simpl INR. ceq; rewrite !Rmult_0_l; reflexivity || (simpl; ring).
    - pose proof (Eq eq_refl) as E.
      transitivity (RtoC (/ beta) * ((RtoC (INR j) * r1 + RtoC (INR k) * r2)
         - RtoC gam * (Ci * RtoC (INR j) * (RtoC PI * (RtoC (INR j) * q)) + Ci * RtoC (INR k) * (RtoC PI * (RtoC (INR k) * q)))))%C.
      + apply C_eq; unfold Cmul, Cadd, Csub, RtoC, Ci; simpl; ring.
      + rewrite E. ring. }
  assert (Su : forall c i, (1 <= i)%nat -> fst (solve3 alfa gam b) c j k i = C0)
    by (intros c [|i] Hi; [lia | reflexivity]).
  assert (Sp : forall i, (3 <= i)%nat -> snd (solve3 alfa gam b) j k i = C0)
    by (intros [|[|i]] Hi; [lia | lia | reflexivity]).
  clearbody q. clear Eq.
  set (x := solve3 alfa gam b) in *. clearbody x.
  split; [|split; [|split; [|split]]].
  - intros c i Hi. replace i with 0%nat by lia.
    unfold Mact. cbn [fst]. unfold cadd, csub, rsc, csc. unfold bl3; cbn [vu vddu vdp vp row0].
    rewrite P0, P1, P2. destruct c; cbn [fst b]; rewrite ?U0, ?U1, ?U2.
    + fold r0. apply C_eq; simpl; field; lra.
    + fold r1. unfold Ksq. apply C_eq; unfold beta; simpl; field; unfold beta in Hb; lra.
    + fold r2. unfold Ksq. apply C_eq; unfold beta; simpl; field; unfold beta in Hb; lra.
  - intros i Hi _. change (snd b j k i) with C0. unfold Mact. cbn [snd]. unfold cadd, csub, rsc, csc, czero. unfold bl3; cbn [qdu qu].
    destruct (d3 (fst x x0 j k)) as (D0 & D1 & D2).
    destruct (t3 (fst x x1 j k)) as (A0 & A1 & A2). destruct (t3 (fst x x2 j k)) as (B0 & B1 & B2).
    destruct i as [|[|[|i]]]; [| | |lia].
    + rewrite D0, A0, B0.
      transitivity (RtoC gam * (RtoC (cw 0) * (Ci * (RtoC (INR j) * fst x x1 j k 0%nat + RtoC (INR k) * fst x x2 j k 0%nat))))%C; [ring|].
      rewrite Dv. ring.
    + rewrite D1, A1, B1, U0. ring.
    + rewrite D2, A2, B2.
      transitivity (- (RtoC gam * (RtoC (cw 2) * (Ci * (RtoC (INR j) * fst x x1 j k 0%nat + RtoC (INR k) * fst x x2 j k 0%nat)))))%C; [ring|].
      rewrite Dv. ring.
  - intros A B. split; [|exact P2]. refine (eq_trans P0 _). apply Ez, zero00_iff; assumption.
  - intros c i Hi. apply Su, Hi.
  - intros i Hi. apply Sp, Hi.
Qed.

Lemma root3 : zero_mode_on_root 2 2 true INR INR.
Proof.
  intros j k Hj Hk. split.
  - intros (A & B). pose proof (zero00_iff j k A B) as Z. unfold zero00 in Z. apply andb_prop in Z.
    destruct Z as (Z1 & Z2). apply Nat.eqb_eq in Z1, Z2. auto.
  - intros (_ & -> & ->). split; reflexivity.
Qed.
Lemma rows3 : pressure_rows 3 cw (qdu bl3) (qu bl3).
Proof. apply pressure_rows_exist; [lia | intros; apply cw_pos]. Qed.
Lemma pos2 a b : 0 < a -> 0 < b -> 0 <= 2 / a / b.
Proof. intros. apply Rlt_le, Rdiv_lt_0_compat; [apply Rdiv_lt_0_compat; lra | lra]. Qed.

(** the convection is the constant force F in the first tangential direction, in the mode (1, 0) *)
Definition push (F : R) (u : vfld) : vfld := fun c j k i =>
  match c, j, k, i with x1, 1%nat, O, O => RtoC F | _, _, _, _ => C0 end.
Definition rest : cst := mkC (fun _ _ _ => czero, fun _ _ => czero) (fun _ _ _ => czero, fun _ _ => czero)
  (push 1 (fun _ _ _ => czero)) (fun _ _ _ => czero) (push 1 (fun _ _ _ => czero)).
Definition rest_rk : crst := mkCR (fun _ _ _ => czero, fun _ _ => czero) (fun _ _ _ => czero).
Definition wind : vfld := fun c j k i => match c, j, k, i with x1, O, O, O => RtoC (- 1) | _, _, _, _ => C0 end.

(** A source in the mean flow accelerates the fluid from rest; the flow has no divergence. *)
Example C72_case :
  let s := c_integrate INR INR true bl3 (/ 2) 1 (/ 2) None (fun _ _ _ _ => czero) wind solve3
             (mkC (cUP rest) (cUP0 rest) (fun _ _ _ => czero) (fun _ _ _ => czero) (fun _ _ _ => czero)) in
  divergence_free (dvel 3 2 2 (fun _ _ => 1) INR INR (fst (cUP s))) /\
  0 < fst (fst (cUP s) x1 0%nat 0%nat 0%nat).
Proof.
  intros s. split.
  - apply (C72_coupled_divergence_free 3 2 2 (fun _ _ => 1) INR INR true bl3 cw (/ 2) 1 (/ 2) None
      (fun _ _ _ _ => czero) wind solve3 ltac:(lia) ltac:(lra) rows3 root3).
    apply solve3_ok; [unfold alfa0; apply pos2; lra | lra].
  - pose proof PI_RGT_0. unfold s, c_integrate, cComputeRHS, zero_mean_normal. cbn [fst snd cUP].
    rewrite upd_other by congruence. unfold solve3. cbn [fst snd row0 zero00 Nat.eqb andb].
    rewrite upd_same. unfold cAB, HelmholtzCoeff, cadd, csub, rsc, csc, alfa0, wind, bl3.
    cbn [vu vddu row0 cUP cH1 rest fst mask_vfld]. unfold czero, assembleAB, csub, rsc. simpl.
    match goal with |- 0 < ?e => replace e with (/ ((2 / / 2 / 1) * (3 * PI / 2) + 4 * PI) * 4) by (field; lra) end.
    apply Rmult_lt_0_compat; [apply Rinv_0_lt_compat|]; lra.
Qed.

(** The fluid stays at rest under a force that is a gradient: the pressure balances it. *)
Definition still : vfld := fun _ _ _ => czero.
Definition hpush : vfld := fun c j k => row0 (match c, j, k with x1, 1%nat, O => RtoC (3 * PI / 2) | _, _, _ => C0 end).
Notation stage3 := (rk_stage INR INR bl3 (/ 2) 1 (/ 2) None (push 1) still solve3).
Lemma row0_C0 : row0 C0 = czero.
Proof. extensionality i. destruct i; reflexivity. Qed.

Lemma hpush_eq u c j k : vu bl3 (push 1 u c j k) = hpush c j k.
Proof.
  unfold hpush, bl3. cbn [vu]. f_equal. unfold push.
  destruct c; try (apply C_eq; simpl; ring).
  destruct j as [|[|j]]; try (apply C_eq; simpl; ring). destruct k; apply C_eq; simpl; ring.
Qed.

(** the right hand side of a stage at rest, whatever the stage *)
Definition rpush (c : ax3) (j k : nat) : C := match c, j, k with x1, 1%nat, O => RtoC (6 * PI) | _, _, _ => C0 end.

Lemma solve3_rest gam alfa ru : gam <> 0 -> (forall c j k, ru c j k 0%nat = rpush c j k) ->
  fst (solve3 alfa gam (ru, fun _ _ => czero)) = still /\
  snd (solve3 alfa gam (ru, fun _ _ => czero)) 1%nat 0%nat 0%nat = (RtoC (6 / gam) * - Ci)%C.
Proof.
  intros Hg Hr. pose proof PI_RGT_0 as Hpi. split.
  - extensionality c; extensionality j; extensionality k. unfold solve3. cbn [fst].
    unfold still. rewrite <- row0_C0. f_equal. destruct c; [reflexivity| |]; rewrite !Hr; unfold rpush.
    + destruct j as [|[|j]].
      * destruct (zero00 0 k); simpl INR; replace (gam * PI * 0) with 0 by ring; rewrite RtoC_0; ring.
      * destruct k as [|k]; [|destruct (zero00 1 (S k)); ring].
        cbn [zero00 Nat.eqb andb INR]. generalize ((alfa + (1 * 1 + 0 * 0)) * (3 * PI / 2) + 4 * PI).
        intros z. apply C_eq; unfold Cmul, Csub, Cadd, Copp, RtoC, Ci; simpl;
          replace (gam * PI * (1 * 1 + 0 * 0)) with (gam * PI) by ring; generalize (/ z); intros; field; lra.
      * destruct (zero00 (S (S j)) k); ring.
    + destruct j as [|[|j]].
      * destruct (zero00 0 k); ring.
      * destruct k as [|k]; [|destruct (zero00 1 (S k)); ring].
        cbn [zero00 Nat.eqb andb]. simpl INR. replace (gam * PI * 0) with 0 by ring. rewrite RtoC_0. ring.
      * destruct (zero00 (S (S j)) k); ring.
  - unfold solve3. cbn [snd fst zero00 Nat.eqb andb]. rewrite !Hr. unfold rpush.
    apply C_eq; simpl; field; split; lra.
Qed.

Lemma rest_stage s rk : (rk < 3)%nat -> fst (rUP s) = still -> (rk = 0%nat \/ hv0 s = hpush) ->
  fst (rUP (stage3 s rk)) = still /\ hv0 (stage3 s rk) = hpush /\
  snd (rUP (stage3 s rk)) 1%nat 0%nat 0%nat = (RtoC (3 / 2 * (crk_a rk + crk_b rk)) * - Ci)%C.
Proof.
  intros Hrk Hu Hh. pose proof (theta_pos rk Hrk) as Ht.
  assert (Hv : hv0 (stage3 s rk) = hpush).
  { extensionality c; extensionality j; extensionality k; extensionality i.
    rewrite stage_hv. unfold force. cbn [mask_vfld]. rewrite hpush_eq. destruct c; unfold still, czero; ring. }
  set (ru := fst (fst (rComputeRHS INR INR bl3 (/ 2) 1 (/ 2) None (push 1) still rk s))).
  assert (E : rUP (stage3 s rk) = solve3 (rk_alfa (/ 2) 1 rk) (rk_gam (/ 2) rk) (ru, fun _ _ => czero)) by reflexivity.
  assert (Hg : rk_gam (/ 2) rk = 4 / (crk_a rk + crk_b rk)) by (unfold rk_gam; field; lra).
  assert (Hr : forall c j k, ru c j k 0%nat = rpush c j k).
  { intros c j k. unfold ru. rewrite <- Hv in Hh. 
    unfold rComputeRHS. cbn [fst snd]. rewrite Hu.
    assert (H1 : forall c j k, upd F3 (fun c j k => vu bl3 (mask_vfld None (push 1 still) c j k)) x1
       (fun j k => csub (vu bl3 (mask_vfld None (push 1 still) x1 j k)) (still x1 j k)) c j k = hpush c j k).
    { intros c' j' k'. destruct c'; [rewrite upd_other by congruence | rewrite upd_same | rewrite upd_other by congruence];
        cbn [mask_vfld]; rewrite hpush_eq; try reflexivity.
      extensionality i. unfold csub, still, czero. ring. }
    unfold cadd at 1, rsc at 1. rewrite H1.
    assert (H2 : cadd (rsc (crk_a rk) (hpush c j k)) (rsc (crk_b rk) (hv0 s c j k)) 0%nat
                 = (RtoC (crk_a rk + crk_b rk) * hpush c j k 0%nat)%C).
    { unfold cadd, rsc. destruct Hh as [-> | Hh].
      - unfold crk_a, crk_b. cbn [nth]. ceq; ring.
      - rewrite Hh, Hv. ceq; ring. }
    rewrite H2. unfold HelmholtzCoeff, cadd, rsc, still, bl3. cbn [vddu vu row0]. unfold czero.
    unfold hpush, rpush, row0. destruct c; try (apply C_eq; simpl; field; lra).
    destruct j as [|[|j]]; try (apply C_eq; simpl; field; lra). destruct k; apply C_eq; simpl; field; lra. }
  destruct (solve3_rest (rk_gam (/ 2) rk) (rk_alfa (/ 2) 1 rk) ru) as (A & B).
  { rewrite Hg. apply Rgt_not_eq, Rdiv_lt_0_compat; lra. }
  { exact Hr. }
  rewrite E. split; [exact A|]. split; [exact Hv|]. refine (eq_trans B _). rewrite Hg. f_equal. f_equal. field. lra.
Qed.

(** Under the same gradient force both solvers leave the fluid at rest; Coupled stores the pressure
    that balances the force, CoupledRK3 a third of it. *)
Example C73_case :
  let s := c_integrate INR INR true bl3 (/ 2) 1 (/ 2) None (push 1) still solve3 rest in
  let r := r_integrate INR INR bl3 (/ 2) 1 (/ 2) None (push 1) still solve3 rest_rk in
  fst (cUP s) = still /\ fst (rUP r) = still /\
  snd (cUP s) 1%nat 0%nat 0%nat = (RtoC (3 / 2) * - Ci)%C /\
  snd (rUP r) 1%nat 0%nat 0%nat = (RtoC (1 / 2) * - Ci)%C.
Proof.
  intros s r.
  destruct (rest_stage rest_rk 0 ltac:(lia) eq_refl (or_introl eq_refl)) as (A1 & B1 & _).
  destruct (rest_stage (stage3 rest_rk 0) 1 ltac:(lia) A1 (or_intror B1)) as (A2 & B2 & _).
  destruct (rest_stage (stage3 (stage3 rest_rk 0) 1) 2 ltac:(lia) A2 (or_intror B2)) as (A3 & _ & P3).
  set (ru := fst (fst (cComputeRHS INR INR bl3 (/ 2) 1 (/ 2) None (push 1) still rest))).
  assert (E : cUP s = zero_mean_normal true (solve3 (alfa0 (/ 2) 1) (2 / / 2) (ru, fun _ _ => czero))) by reflexivity.
  destruct (solve3_rest (2 / / 2) (alfa0 (/ 2) 1) ru) as (A & B).
  { lra. }
  { intros c j k. unfold ru, cComputeRHS. cbn [fst snd cUP cH1 rest mask_vfld].
    assert (EA : assembleAB (push 1 (fun _ _ _ => czero)) (push 1 (fun _ _ _ => czero)) = push 1 still).
    { extensionality d; extensionality j'; extensionality k'; extensionality q.
      change (push 1 still d j' k' q) with (push 1 (fun _ _ _ => czero) d j' k' q).
      unfold assembleAB, csub, rsc. ceq; field. }
    rewrite EA. unfold rpush.
    assert (Z : forall j k, cAB INR INR bl3 (/ 2) 1 j k czero 0%nat = C0).
    { intros. unfold cAB, HelmholtzCoeff, cadd, rsc, bl3, czero. cbn [vddu vu row0]. ring. }
    destruct c; [rewrite upd_other by congruence | rewrite upd_same | rewrite upd_other by congruence];
      unfold cadd, csub, rsc; rewrite hpush_eq, Z; unfold hpush, still, czero; cbn [row0].
    - ring.
    - destruct j as [|[|j]]; try ring. destruct k; [|ring]. apply C_eq; simpl; field.
    - ring. }
  split; [|split; [exact A3|split]].
  - clear B E. match type of A with fst ?y = _ => assert (E : cUP s = zero_mean_normal true y) by reflexivity;
      rewrite E; clear E; generalize dependent y end. intros [U P] A. simpl in A. subst U.
    unfold zero_mean_normal. cbn [fst]. extensionality c; extensionality j; extensionality k.
    destruct c; [rewrite upd_same | rewrite upd_other by congruence | rewrite upd_other by congruence]; try reflexivity.
    destruct (true && (j =? 0)%nat && (k =? 0)%nat); reflexivity.
  - rewrite E. unfold zero_mean_normal. cbn [snd]. refine (eq_trans B _). f_equal. f_equal. field.
  - unfold r, r_integrate. cbn [fold_left]. refine (eq_trans P3 _). f_equal. f_equal.
    unfold crk_a, crk_b. cbn [nth]. field.
Qed.
