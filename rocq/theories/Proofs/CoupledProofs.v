(** Lemmas for the coupled velocity-pressure channel solvers. *)
From Coq Require Import Reals List Bool Arith Lia Lra FunctionalExtensionality.
From Verif Require Import Base.Cplx Base.Sums Base.Fin Model.Maths Model.LU Model.KMM Model.ChannelConv Model.Coupled
  Spec.Chebyshev Spec.Channel Spec.ChannelField Spec.Coupled
  Proofs.ChebyshevProofs Proofs.LUProofs Proofs.KMMProofs Proofs.ChannelConvProofs.
Open Scope R_scope.

Lemma cw_pos i : 0 < cw i.
Proof. pose proof PI_RGT_0. destruct i; simpl; lra. Qed.

Lemma Cwint_ext f g z : (forall x, f x = g x) -> Cwint f z -> Cwint g z.
Proof. intros H (A & B). split; [refine (wint_ext _ _ _ _ A) | refine (wint_ext _ _ _ _ B)]; intros x; now rewrite H. Qed.
Lemma Cwint_unique f a b : Cwint f a -> Cwint f b -> a = b.
Proof. intros (A1 & A2) (B1 & B2). apply C_eq; eapply wint_unique; eassumption. Qed.

(** The coefficients of a Chebyshev series are its inner products with the T_i. *)
Lemma cheb_T N d i : (i < N)%nat -> Cwint (fun x => (cheb N d x * RtoC (T i x))%C) (RtoC (cw i) * d i)%C.
Proof.
  intros Hi.
  pose proof (Cwint_sum N d (fun k x => T k x * T i x) (fun k => if (k =? i)%nat then cw k else 0)
    (fun k _ => wint_TT k i)) as P.
  replace (RtoC (cw i) * d i)%C with (Csum N (fun k => (d k * RtoC (if (k =? i)%nat then cw k else 0))%C)).
  - refine (Cwint_ext _ _ _ _ P). intros x. unfold cheb. rewrite <- Csum_scal_r. apply Csum_ext.
    intros k _. rewrite RtoC_mul. ring.
  - transitivity (Csum N (fun k => if (k =? i)%nat then (d k * RtoC (cw k))%C else C0)).
    + apply Csum_ext. intros k _. destruct (k =? i)%nat; rewrite ?RtoC_0; ring.
    + rewrite Csum_delta. destruct (Nat.ltb_spec i N); [ring | lia].
Qed.
Lemma cheb_unique N d e : (forall x, cheb N d x = cheb N e x) -> forall i, (i < N)%nat -> d i = e i.
Proof.
  intros H i Hi. pose proof (cheb_T N d i Hi) as P. pose proof (cheb_T N e i Hi) as Q.
  assert (E : (RtoC (cw i) * d i = RtoC (cw i) * e i)%C).
  { apply (Cwint_unique _ _ _ P). refine (Cwint_ext _ _ _ _ Q). intros x. now rewrite H. }
  pose proof (cw_pos i). replace (d i) with (RtoC (/ cw i) * (RtoC (cw i) * d i))%C.
  - rewrite E. ceq; field; lra.
  - ceq; field; lra.
Qed.
(** [cheb_inner] with the exact norms is the weighted integral. *)
Lemma cheb_inner_exact N f i z : (i < N)%nat ->
  cheb_inner N cw f i z -> Cwint (fun x => (f x * RtoC (T i x))%C) z.
Proof.
  intros Hi (d & Hd & ->). refine (Cwint_ext _ _ _ _ (cheb_T N d i Hi)). intros x. now rewrite Hd.
Qed.

Lemma series_phi N u x : series (N - 2) phi u x = dirichlet N u x.
Proof. reflexivity. Qed.

Lemma pressure_row_d N h qdu qu u i : (2 <= N)%nat -> pressure_rows N h qdu qu -> (i < N)%nat ->
  (qdu u i = RtoC (h i) * dcoef N u i)%C.
Proof.
  intros HN (Hh & Hd & _) Hi.
  destruct (Hd u (cheb N (dcoef N u)) i Hi) as (d & Ed & ->).
  - intros x. apply dirichlet_deriv, HN.
  - f_equal. symmetry. apply (cheb_unique N); [exact Ed | exact Hi].
Qed.
Lemma pressure_row_v N h qdu qu u i : (2 <= N)%nat -> pressure_rows N h qdu qu -> (i < N)%nat ->
  (qu u i = RtoC (h i) * tcoef N u i)%C.
Proof.
  intros HN (Hh & _ & Hv) Hi.
  destruct (Hv u i Hi) as (d & Ed & ->). f_equal. apply (cheb_unique N); [|exact Hi].
  intros x. rewrite <- Ed, series_phi. apply dirichlet_cheb, HN.
Qed.

Lemma dcoef_0 N u i : (forall q, (q < N - 2)%nat -> u q = C0) -> dcoef N u i = C0.
Proof.
  intros H. unfold dcoef. rewrite (Csum_0 (N - 2)).
  - destruct (Nat.leb_spec 1 i); simpl; [|ring].
    destruct (Nat.leb_spec i (N - 2)); [|ring]. rewrite (H (i - 1)%nat) by lia. ring.
  - intros q Hq. rewrite (H q Hq). destruct (ind i q); reflexivity.
Qed.

(** A Dirichlet function whose derivative has no coefficient 1 .. N-2 is zero. *)
Lemma dirichlet_zero N u : (forall i, (1 <= i <= N - 2)%nat -> dcoef N u i = C0) ->
  forall q, (q < N - 2)%nat -> u q = C0.
Proof.
  intros H.
  assert (P : forall m q, (N - 2 - m <= q)%nat -> (q < N - 2)%nat -> u q = C0).
  { induction m as [|m IH]; intros q Hq Hq'; [lia|].
    destruct (Nat.eq_dec q (N - 2 - S m)) as [->|Hne]; [|apply IH; lia].
    set (q := (N - 2 - S m)%nat) in *.
    pose proof (H (S q) ltac:(lia)) as E. unfold dcoef in E.
    rewrite (Csum_0 (N - 2)) in E.
    - destruct (Nat.leb_spec 1 (S q)); [|lia]. destruct (Nat.leb_spec (S q) (N - 2)); [|lia].
      simpl andb in E. cbv iota in E. replace (S q - 1)%nat with q in E by lia.
      set (a := - 2 * (INR (S q) + 1)) in E.
      assert (Ha : a <> 0) by (unfold a; pose proof (pos_INR (S q)); lra). clearbody a.
      replace (u q) with (RtoC (/ a) * (RtoC a * u q - RtoC (2 * ec (S q)) * C0))%C.
      + rewrite E. ring.
      + transitivity (RtoC (/ a) * (RtoC a * u q))%C; [ring|]. ceq; field; exact Ha.
    - intros r Hr. destruct (ind (S q) r) eqn:Ei; [|reflexivity]. apply IH; [|exact Hr].
      unfold ind in Ei. destruct (Nat.ltb_spec (S q) r); [lia|discriminate]. }
  intros q Hq. apply (P (N - 2)%nat); lia.
Qed.

Lemma T_one n : T n 1 = 1 /\ T n (- 1) = (- 1) ^ n.
Proof.
  enough ((T n 1 = 1 /\ T (S n) 1 = 1) /\ (T n (- 1) = (- 1) ^ n /\ T (S n) (- 1) = (- 1) ^ (S n))) by tauto.
  induction n as [|n ((A & B) & C & D)].
  - rewrite !T_0, !T_1. simpl. lra.
  - repeat split; try assumption; rewrite T_SS; [rewrite A, B; ring|].
    rewrite C, D. simpl. ring.
Qed.
Lemma phi_wall i x : x = - 1 \/ x = 1 -> phi i x = 0.
Proof.
  intros [-> | ->]; unfold phi.
  - rewrite (proj2 (T_one i)), (proj2 (T_one (i + 2))), pow_add. ring.
  - rewrite (proj1 (T_one i)), (proj1 (T_one (i + 2))). ring.
Qed.
Lemma dvel_no_slip N n1 n2 wt K1 K2 u : no_slip (dvel N n1 n2 wt K1 K2 u).
Proof.
  intros c p Hp. unfold dvel, field. apply Rsum_0. intros j _. apply Rsum_0. intros k _.
  rewrite (Csum_0 (N - 2)); [unfold Re; simpl; ring|].
  intros i _. rewrite (phi_wall i (p x0) Hp), RtoC_0. ring.
Qed.

(** Chebyshev coefficients of the divergence of one mode *)
Definition divcoef (N : nat) (k1 k2 : R) (u0 u1 u2 : col) (i : nat) : C :=
  (dcoef N u0 i + Ci * RtoC k1 * tcoef N u1 i + Ci * RtoC k2 * tcoef N u2 i)%C.

Lemma dvel_divergence_free N n1 n2 wt K1 K2 (u : vfld) : (2 <= N)%nat ->
  (forall j k i, (j < n1)%nat -> (k < n2)%nat -> (i < N)%nat ->
     divcoef N (K1 j) (K2 k) (u x0 j k) (u x1 j k) (u x2 j k) i = C0) ->
  divergence_free (dvel N n1 n2 wt K1 K2 u).
Proof.
  intros HN H.
  set (du := fun c : ax3 => field x0 x1 x2 n1 n2 wt K1 K2 N T (fun j k => dcoef N (u c j k))).
  exists (fun c d => match d with
    | x0 => du c
    | x1 => field x0 x1 x2 n1 n2 wt K1 K2 (N - 2) phi (fmul (iK1 K1) (u c))
    | x2 => field x0 x1 x2 n1 n2 wt K1 K2 (N - 2) phi (fmul (iK2 K2) (u c))
    end).
  split.
  - intros c d p. destruct d.
    + apply partial_n; try congruence. intros j k _ _. apply dirichlet_deriv, HN.
    + apply partial_1; congruence.
    + apply partial_2; congruence.
  - intros p. unfold du, field. rewrite <- !Rsum_add. apply Rsum_0. intros j Hj.
    rewrite <- !Rsum_add. apply Rsum_0. intros k Hk.
    rewrite <- !Rmult_plus_distr_l.
    set (e := expi _).
    set (S0 := Csum N _). set (S1 := Csum (N - 2) _). set (S2 := Csum (N - 2) _).
    assert (E : (S0 + S1 + S2 = C0)%C).
    { assert (E1 : S1 = Csum N (fun i => (Ci * RtoC (K1 j) * tcoef N (u x1 j k) i * RtoC (T i (p x0)))%C)).
      { transitivity (Ci * RtoC (K1 j) * dirichlet N (u x1 j k) (p x0))%C.
        - unfold S1, dirichlet. rewrite <- Csum_scal. apply Csum_ext. intros i _.
          unfold fmul, csc, iK1, phi. ring.
        - rewrite dirichlet_cheb by exact HN. unfold cheb. rewrite <- Csum_scal. apply Csum_ext.
          intros i _. ring. }
      assert (E2 : S2 = Csum N (fun i => (Ci * RtoC (K2 k) * tcoef N (u x2 j k) i * RtoC (T i (p x0)))%C)).
      { transitivity (Ci * RtoC (K2 k) * dirichlet N (u x2 j k) (p x0))%C.
        - unfold S2, dirichlet. rewrite <- Csum_scal. apply Csum_ext. intros i _.
          unfold fmul, csc, iK2, phi. ring.
        - rewrite dirichlet_cheb by exact HN. unfold cheb. rewrite <- Csum_scal. apply Csum_ext.
          intros i _. ring. }
      rewrite E1, E2. unfold S0. rewrite <- !Csum_add. apply Csum_0. intros i Hi.
      pose proof (H j k i Hj Hk Hi) as Z. unfold divcoef in Z.
      transitivity ((dcoef N (u x0 j k) i + Ci * RtoC (K1 j) * tcoef N (u x1 j k) i
                     + Ci * RtoC (K2 k) * tcoef N (u x2 j k) i) * RtoC (T i (p x0)))%C; [ring|].
      rewrite Z. ring. }
    transitivity (wt j k * Re ((S0 + S1 + S2) * e)%C).
    + f_equal. unfold Re. simpl. ring.
    + rewrite E. unfold Re. simpl. ring.
Qed.

Lemma div_scale gam h k1 k2 a b c : gam <> 0 -> h <> 0 ->
  (a + Ci * RtoC k1 * b + Ci * RtoC k2 * c
   = RtoC (/ (gam * h)) * (RtoC gam * (RtoC h * a + Ci * RtoC k1 * (RtoC h * b) + Ci * RtoC k2 * (RtoC h * c))))%C.
Proof. intros H1 H2. apply C_eq; unfold Cmul, Cadd, RtoC, Ci; simpl; field; auto. Qed.

(** The solution of the block system with zero pressure right hand side *)
Section Solution.
Context (N n1 n2 : nat) (K1 K2 : nat -> R) (bl : blocks) (h : nat -> R) (alfa gam : R).
Hypothesis HN : (2 <= N)%nat.
Hypothesis Hg : gam <> 0.
Hypothesis Hrows : pressure_rows N h (qdu bl) (qu bl).

Lemma solution_div x b : block_solution N n1 n2 K1 K2 x (Mact K1 K2 bl alfa gam x) b ->
  (forall j k i, snd b j k i = C0) ->
  forall j k i, (j < n1)%nat -> (k < n2)%nat -> (i < N)%nat ->
    divcoef N (K1 j) (K2 k) (fst x x0 j k) (fst x x1 j k) (fst x x2 j k) i = C0 /\
    (K1 j = 0 -> K2 k = 0 -> (forall q, fst x x0 j k q = C0)).
Proof.
  intros HS Hb j k i Hj Hk Hi. destruct (HS j k Hj Hk) as (_ & Hp & _ & Hs & _).
  assert (P : forall i, (i < N)%nat -> ~ (K1 j = 0 /\ K2 k = 0 /\ (i = 0 \/ i = N - 1)%nat) ->
     divcoef N (K1 j) (K2 k) (fst x x0 j k) (fst x x1 j k) (fst x x2 j k) i = C0).
  { intros l Hl Hx. pose proof (Hp l Hl Hx) as E. rewrite Hb in E.
    unfold Mact in E. cbn [snd] in E. unfold rsc, cadd, csc in E.
    rewrite (pressure_row_d N h (qdu bl) (qu bl) _ l HN Hrows Hl) in E.
    rewrite !(pressure_row_v N h (qdu bl) (qu bl) _ l HN Hrows Hl) in E.
    destruct Hrows as (Hh & _). pose proof (Hh l Hl) as Hhl.
    unfold divcoef.
    match type of E with ?e = _ =>
      match goal with |- ?g = _ => replace g with (RtoC (/ (gam * h l)) * e)%C end end.
    - rewrite E. ring.
    - symmetry. apply div_scale; lra. }
  assert (Z : K1 j = 0 -> K2 k = 0 -> forall q, fst x x0 j k q = C0).
  { intros E1 E2 q. destruct (Nat.lt_ge_cases q (N - 2)) as [Hq|Hq]; [|apply Hs; exact Hq].
    apply (dirichlet_zero N); [|exact Hq]. intros l Hl.
    pose proof (P l ltac:(lia) ltac:(lia)) as E. unfold divcoef in E. rewrite E1, E2, RtoC_0 in E.
    rewrite <- E. ring. }
  split; [|exact Z].
  destruct (Req_EM_T (K1 j) 0) as [E1|E1]; [|apply P; tauto].
  destruct (Req_EM_T (K2 k) 0) as [E2|E2]; [|apply P; tauto].
  unfold divcoef. rewrite E1, E2, RtoC_0, (dcoef_0 N (fst x x0 j k) i); [ring|].
  intros q _. apply Z; assumption.
Qed.
End Solution.
