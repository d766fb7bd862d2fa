(** Theorems on get_divergence of the coupled channel solvers: C88. *)
From Coq Require Import Reals List Bool Arith Lia Lra FunctionalExtensionality.
From Verif Require Import Base.Cplx Base.Sums Base.Fin Model.Maths Model.LU Model.KMM Model.ChannelConv Model.Coupled Model.CoupledDiv
  Spec.Chebyshev Spec.Channel Spec.ChannelField Spec.Coupled
  Proofs.ChebyshevProofs Proofs.LUProofs Proofs.KMMProofs Proofs.ChannelConvProofs Proofs.CoupledProofs Props.Coupled.
Open Scope R_scope.

(** z = the inner product of f, a polynomial of degree < N, with the Dirichlet function T_i - T_{i+2} *)
Definition dirichlet_inner (N : nat) (h : nat -> R) (f : R -> C) (i : nat) (z : C) : Prop :=
  exists d, (forall x, f x = cheb N d x) /\ (z = RtoC (h i) * d i - RtoC (h (i + 2)%nat) * d (i + 2)%nat)%C.
(** The rows (v, u') and (v, u) *)
Definition dirichlet_rows (N : nat) (h : nat -> R) (vdu vu : column -> column) : Prop :=
  (forall u f i, (i < N - 2)%nat -> is_derivative (series (N - 2) phi u) f -> dirichlet_inner N h f i (vdu u i)) /\
  (forall u i, (i < N - 2)%nat -> dirichlet_inner N h (series (N - 2) phi u) i (vu u i)).
(** the divergence of one mode, as a function of the height; du0 is the derivative of the first velocity *)
Definition mode_div (N : nat) (k1 k2 : R) (du0 : R -> C) (u1 u2 : column) (x : R) : C :=
  (du0 x + Ci * RtoC k1 * series (N - 2) phi u1 x + Ci * RtoC k2 * series (N - 2) phi u2 x)%C.

(** With the exact norms this is the weighted integral. *)
Lemma dirichlet_inner_exact N f i z : (i < N - 2)%nat ->
  dirichlet_inner N cw f i z -> Cwint (fun x => (f x * RtoC (phi i x))%C) z.
Proof.
  intros Hi (d & Hd & ->).
  destruct (cheb_T N d i ltac:(lia)) as (A1 & A2). destruct (cheb_T N d (i + 2) ltac:(lia)) as (B1 & B2).
  split.
  - refine (eq_rect _ (wint _) (wint_ext _ _ _ _ (wint_add _ _ _ _ A1 (wint_scal (-1) _ _ B1))) _ _).
    + intros x. rewrite Hd. unfold phi. destruct (cheb N d x). unfold RtoC, Cmul. simpl. ring.
    + unfold RtoC, Cmul, Csub, Cadd, Copp. simpl. ring.
  - refine (eq_rect _ (wint _) (wint_ext _ _ _ _ (wint_add _ _ _ _ A2 (wint_scal (-1) _ _ B2))) _ _).
    + intros x. rewrite Hd. unfold phi. destruct (cheb N d x). unfold RtoC, Cmul. simpl. ring.
    + unfold RtoC, Cmul, Csub, Cadd, Copp. simpl. ring.
Qed.

Lemma Cderiv_unique f x a b : Cderiv f x a -> Cderiv f x b -> a = b.
Proof. intros (A & B) (A' & B'). apply C_eq; eapply uniqueness_limite; eassumption. Qed.

Section Rows.
Context (N : nat) (h : nat -> R) (vdu vu sol : column -> column).
Hypothesis HN : (2 <= N)%nat.
Hypothesis Hrows : dirichlet_rows N h vdu vu.
Hypothesis Hsol : solves (N - 2) vu sol.

Lemma drow_d u i : (i < N - 2)%nat ->
  (vdu u i = RtoC (h i) * dcoef N u i - RtoC (h (i + 2)%nat) * dcoef N u (i + 2))%C.
Proof.
  intros Hi. destruct (proj1 Hrows u (cheb N (dcoef N u)) i Hi) as (d & Ed & ->).
  - intros x. apply dirichlet_deriv, HN.
  - rewrite (cheb_unique N _ _ Ed i ltac:(lia)), (cheb_unique N _ _ Ed (i + 2) ltac:(lia)). reflexivity.
Qed.
Lemma drow_v u i : (i < N - 2)%nat ->
  (vu u i = RtoC (h i) * tcoef N u i - RtoC (h (i + 2)%nat) * tcoef N u (i + 2))%C.
Proof.
  intros Hi. destruct (proj2 Hrows u i Hi) as (d & Ed & ->).
  assert (E : forall x, cheb N (tcoef N u) x = cheb N d x)
    by (intros x; rewrite <- Ed, series_phi; symmetry; apply dirichlet_cheb, HN).
  rewrite (cheb_unique N _ _ E i ltac:(lia)), (cheb_unique N _ _ E (i + 2) ltac:(lia)). reflexivity.
Qed.

Context (K1 K2 : nat -> R).
Notation dc u j k := (divcoef N (K1 j%nat) (K2 k%nat) (u x0 j%nat k%nat) (u x1 j%nat k%nat) (u x2 j%nat k%nat)).
Lemma rhs_value (u : vfld) j k i : (i < N - 2)%nat ->
  (div_rhs K1 K2 vdu vu u j k i = RtoC (h i) * dc u j k i - RtoC (h (i + 2)%nat) * dc u j k (i + 2)%nat)%C.
Proof.
  intros Hi. unfold div_rhs, cadd, csc, divcoef. rewrite drow_d, !drow_v by exact Hi. ring.
Qed.
Lemma mode_div_cheb (u : vfld) j k du0 : is_derivative (series (N - 2) phi (u x0 j k)) du0 ->
  forall x, mode_div N (K1 j) (K2 k) du0 (u x1 j k) (u x2 j k) x = cheb N (dc u j k) x.
Proof.
  intros Hd x. unfold mode_div.
  rewrite (Cderiv_unique _ x _ _ (Hd x) (dirichlet_deriv N (u x0 j k) x HN)), !series_phi, !dirichlet_cheb by exact HN.
  unfold cheb, divcoef. rewrite <- !Csum_scal, <- !Csum_add. apply Csum_ext. intros i _. ring.
Qed.

(** What is returned is the projection of the divergence on the Dirichlet functions: the difference is
    orthogonal to each of them. *)
Theorem C88_projection (u : vfld) j k du0 : is_derivative (series (N - 2) phi (u x0 j k)) du0 ->
  let r := div_hat K1 K2 vdu vu sol u j k in
  supp (N - 2) r /\ forall i, (i < N - 2)%nat ->
    dirichlet_inner N h (fun x => (mode_div N (K1 j) (K2 k) du0 (u x1 j k) (u x2 j k) x - series (N - 2) phi r x)%C) i C0.
Proof.
  intros Hd r. split; [apply (proj1 (proj2 Hsol))|]. intros i Hi.
  exists (fun l => (dc u j k l - tcoef N r l)%C). split.
  - intros x. rewrite (mode_div_cheb u j k du0 Hd), series_phi, dirichlet_cheb by exact HN.
    unfold cheb. replace (Csum N (fun l => ((dc u j k l - tcoef N r l) * RtoC (T l x))%C))
      with (Csum N (fun l => (dc u j k l * RtoC (T l x) + - C1 * (tcoef N r l * RtoC (T l x)))%C)).
    + rewrite Csum_add, Csum_scal. ring.
    + apply Csum_ext. intros l _. ring.
  - pose proof (proj1 Hsol (div_rhs K1 K2 vdu vu u j k) i Hi) as E. fold r in E.
    change (sol (div_rhs K1 K2 vdu vu u j k)) with r in E.
    rewrite drow_v, rhs_value in E by exact Hi.
    transitivity ((RtoC (h i) * dc u j k i - RtoC (h (i + 2)%nat) * dc u j k (i + 2)%nat)
      - (RtoC (h i) * tcoef N r i - RtoC (h (i + 2)%nat) * tcoef N r (i + 2)))%C; [rewrite E; ring | ring].
Qed.

Lemma div_hat_zero (u : vfld) j k : (forall i, (i < N - 2)%nat -> div_rhs K1 K2 vdu vu u j k i = C0) ->
  forall i, div_hat K1 K2 vdu vu sol u j k i = C0.
Proof.
  intros Z i. unfold div_hat. apply (proj2 (proj2 Hsol) _ (fun _ => C0)); [intros l _; reflexivity|].
  intros l Hl. rewrite (Z l Hl), drow_v by exact Hl.
  assert (T0 : forall q, tcoef N (fun _ => C0) q = C0).
  { intros q. unfold tcoef. destruct (q <? N - 2)%nat, (2 <=? q)%nat; try ring. }
  rewrite !T0. ring.
Qed.

Context (n1 n2 : nat) (wt : nat -> nat -> R) (mask : option (nat -> nat -> R)).
Notation bwd := (field x0 x1 x2 n1 n2 wt K1 K2 (N - 2) phi).
Lemma bwd_zero F p : (forall j k i, (j < n1)%nat -> (k < n2)%nat -> F j k i = C0) -> bwd F p = 0.
Proof.
  intros H. unfold field. apply Rsum_0. intros j Hj. apply Rsum_0. intros k Hk.
  rewrite (Csum_0 (N - 2)); [unfold Re; simpl; ring|]. intros i _. rewrite H by assumption. ring.
Qed.
Lemma get_divergence_zero (u : vfld) p :
  (forall j k i, (j < n1)%nat -> (k < n2)%nat -> (i < N - 2)%nat -> div_rhs K1 K2 vdu vu u j k i = C0) ->
  get_divergence_c K1 K2 vdu vu sol mask bwd u p = 0.
Proof.
  intros H. unfold get_divergence_c. apply bwd_zero. intros j k i Hj Hk.
  pose proof (div_hat_zero u j k (fun i Hi => H j k i Hj Hk Hi) i) as Z.
  destruct mask; [unfold rsc; rewrite Z; ring | exact Z].
Qed.

(** A velocity each mode of which has no divergence gives zero at every point. *)
Theorem C88_zero (u : vfld) p :
  (forall j k, (j < n1)%nat -> (k < n2)%nat -> exists du0, is_derivative (series (N - 2) phi (u x0 j k)) du0 /\
     forall x, mode_div N (K1 j) (K2 k) du0 (u x1 j k) (u x2 j k) x = C0) ->
  get_divergence_c K1 K2 vdu vu sol mask bwd u p = 0.
Proof.
  intros H. apply get_divergence_zero. intros j k i Hj Hk Hi. destruct (H j k Hj Hk) as (du0 & Hd & Z).
  assert (E : forall l, (l < N)%nat -> dc u j k l = C0).
  { intros l Hl. apply (cheb_unique N _ (fun _ => C0)); [|exact Hl]. intros x.
    rewrite <- (mode_div_cheb u j k du0 Hd), Z. symmetry. apply Csum_0. intros; ring. }
  rewrite rhs_value, !E by lia. ring.
Qed.

(** With a mask, the weight of every mode is multiplied by the mask. *)
Theorem C88_masked m (u : vfld) p :
  get_divergence_c K1 K2 vdu vu sol (Some m) bwd u p
  = get_divergence_c K1 K2 vdu vu sol None (field x0 x1 x2 n1 n2 (fun j k => m j k * wt j k) K1 K2 (N - 2) phi) u p.
Proof.
  clear HN Hrows Hsol. unfold get_divergence_c, field. apply Rsum_ext. intros j _. apply Rsum_ext. intros k _.
  rewrite (Csum_ext (N - 2) (fun i => (rsc (m j k) (div_hat K1 K2 vdu vu sol u j k) i * RtoC (phi i (p x0)))%C)
    (fun i => (RtoC (m j k) * (div_hat K1 K2 vdu vu sol u j k i * RtoC (phi i (p x0))))%C)) by (intros; unfold rsc; ring).
  rewrite Csum_scal. unfold Re, RtoC, Cmul. simpl. ring.
Qed.
End Rows.

(** In the weighted integral itself *)
Theorem C88_projection_exact N vdu vu sol K1 K2 (u : vfld) j k du0 : (2 <= N)%nat ->
  dirichlet_rows N cw vdu vu -> solves (N - 2) vu sol -> is_derivative (series (N - 2) phi (u x0 j k)) du0 ->
  is_projection (N - 2) phi (mode_div N (K1 j) (K2 k) du0 (u x1 j k) (u x2 j k)) (div_hat K1 K2 vdu vu sol u j k).
Proof.
  intros HN HR HS Hd. destruct (C88_projection N cw vdu vu sol HN HR HS K1 K2 u j k du0 Hd) as (A & B).
  split; [exact A|]. intros i Hi. exact (dirichlet_inner_exact N _ i C0 Hi (B i Hi)).
Qed.

Section Steps.
Context (N n1 n2 : nat) (wt : nat -> nat -> R) (K1 K2 : nat -> R) (root : bool) (bl : blocks) (h h' : nat -> R).
Context (nu0 dt0 nu : R) (mask dmask : option (nat -> nat -> R)) (conv : vfld -> vfld) (Sk : vfld).
Context (Msolve : R -> R -> vq -> vq) (vdu sol : column -> column).
Hypothesis HN : (2 <= N)%nat.
Hypothesis Hnu : 0 < nu0.
Hypothesis Hdt : 0 < dt0.
Hypothesis Hpr : pressure_rows N h (qdu bl) (qu bl).
Hypothesis Hroot : zero_mode_on_root n1 n2 root K1 K2.
Hypothesis Hrows : dirichlet_rows N h' vdu (vu bl).
Hypothesis Hsol : solves (N - 2) (vu bl) sol.
Notation gd := (get_divergence_c K1 K2 vdu (vu bl) sol dmask (field x0 x1 x2 n1 n2 wt K1 K2 (N - 2) phi)).

Lemma solution_gd alfa gam ru (u : vfld) p : gam <> 0 -> solves_blocks N n1 n2 K1 K2 bl Msolve alfa gam ->
  (forall c j k i, (j < n1)%nat -> (k < n2)%nat -> u c j k i = fst (Msolve alfa gam (ru, fun _ _ => czero)) c j k i) ->
  gd u p = 0.
Proof.
  intros Hg HS Z. apply (get_divergence_zero N h' vdu (vu bl) sol HN Hrows Hsol).
  intros j k i Hj Hk Hi. rewrite (rhs_value N h' vdu (vu bl) HN Hrows) by exact Hi.
  assert (Zc : forall c, u c j k = fst (Msolve alfa gam (ru, fun _ _ => czero)) c j k)
    by (intros c; extensionality q; apply Z; assumption).
  rewrite !Zc.
  pose proof (fun l Hl => proj1 (solution_div N n1 n2 K1 K2 bl h _ _ HN Hg Hpr _ _ (HS ru) (fun _ _ _ => eq_refl) j k l Hj Hk Hl)) as D.
  rewrite !D by lia. ring.
Qed.

(** get_divergence is zero at every point after every step, whatever the state before it. *)
Theorem C88_step s p : solves_blocks N n1 n2 K1 K2 bl Msolve (alfa0 nu0 dt0) (2 / nu0) ->
  gd (fst (cUP (c_integrate K1 K2 root bl nu0 dt0 nu mask conv Sk Msolve s))) p = 0.
Proof.
  intros HS.
  destruct (C72_coupled_divergence_free N n1 n2 wt K1 K2 root bl h nu0 dt0 nu mask conv Sk Msolve HN Hnu Hpr Hroot s HS)
    as (_ & _ & ru & Z).
  exact (solution_gd _ _ ru _ p (gam0 nu0 Hnu) HS Z).
Qed.
Theorem C88_step_rk3 s p :
  (forall rk, (rk < 3)%nat -> solves_blocks N n1 n2 K1 K2 bl Msolve (rk_alfa nu0 dt0 rk) (rk_gam nu0 rk)) ->
  gd (fst (rUP (r_integrate K1 K2 bl nu0 dt0 nu mask conv Sk Msolve s))) p = 0.
Proof.
  intros HS. unfold r_integrate. cbn [fold_left].
  match goal with |- gd (fst (rUP (rk_stage _ _ _ _ _ _ _ _ _ _ ?s' ?rk))) _ = _ =>
    destruct (stage_rhs K1 K2 bl nu0 dt0 nu mask conv Sk Msolve s' rk) as (ru & E) end.
  rewrite E. apply (solution_gd _ _ ru _ p (rk_gam0 nu0 Hnu 2 ltac:(lia)) (HS 2%nat ltac:(lia))). reflexivity.
Qed.
End Steps.

(** ** The check is blind: zero at every point, for a velocity with divergence 2 at the wall *)
Lemma partial_unique d f p a b : is_partial d f p a -> is_partial d f p b -> a = b.
Proof. apply uniqueness_limite. Qed.

Definition blind (h : nat -> R) : vfld := fun c _ _ i =>
  match c, i with
  | x0, O => RtoC (- / 2)
  | x1, S O => (Ci * RtoC (2 * h 1%nat / (h 1%nat + h 3%nat)))%C
  | _, _ => C0
  end.
Lemma blind_d h j k : dcoef 4 (blind h x0 j k) 0 = C0 /\ dcoef 4 (blind h x0 j k) 1 = RtoC 2 /\
  dcoef 4 (blind h x0 j k) 2 = C0 /\ dcoef 4 (blind h x0 j k) 3 = C0.
Proof. unfold dcoef. simpl. repeat split; ceq; simpl; field. Qed.

Theorem C88_blind_refuted h vdu vu sol : 0 < h 1%nat -> 0 < h 3%nat ->
  dirichlet_rows 4 h vdu vu -> solves 2 vu sol ->
  let one := fun _ _ : nat => 1 in let k1 := fun _ : nat => 1 in let k2 := fun _ : nat => 0 in
  (forall p, get_divergence_c k1 k2 vdu vu sol None (field x0 x1 x2 1 1 one k1 k2 2 phi) (blind h) p = 0) /\
  ~ divergence_free (dvel 4 1 1 one k1 k2 (blind h)).
Proof.
  intros H1 H3 HR HS one k1 k2. split.
  - intros p. apply (get_divergence_zero 4 h vdu vu sol ltac:(lia) HR HS). intros j k i _ _ Hi.
    rewrite (rhs_value 4 h vdu vu ltac:(lia) HR) by exact Hi.
    destruct (blind_d h j k) as (D0 & D1 & D2 & D3).
    unfold divcoef. assert (i = 0 \/ i = 1)%nat as [-> | ->] by lia; cbn [Nat.add];
      rewrite ?D0, ?D1, ?D2, ?D3; unfold tcoef, blind, k1, k2; simpl; ceq; simpl; field; lra.
  - intros (G & HG & Z). set (p := fun d : ax3 => match d with x0 => 1 | _ => 0 end).
    assert (G0 : G x0 x0 p = 2).
    { eapply partial_unique; [apply HG|].
      assert (V : field x0 x1 x2 1 1 one k1 k2 4 T (fun j k => dcoef 4 (blind h x0 j k)) p = 2).
      { destruct (blind_d h 0 0) as (D0 & D1 & D2 & D3). unfold field. cbn [Rsum Csum].
        rewrite D0, D1, D2, D3. rewrite !(proj1 (T_one _)). unfold one, k1, k2, p, expi.
        rewrite Rmult_0_r, Rmult_0_l, Rplus_0_r, cos_0, sin_0. unfold Re. simpl. ring. }
      rewrite <- V. apply partial_n; try congruence. intros j k _ _. apply (dirichlet_deriv 4). lia. }
    assert (W : forall nb F, field x0 x1 x2 1 1 one k1 k2 nb phi F p = 0).
    { intros nb F. unfold field. apply Rsum_0. intros j _. apply Rsum_0. intros k _.
      rewrite (Csum_0 nb); [unfold Re; simpl; ring|]. intros i _. rewrite (phi_wall i (p x0)) by (right; reflexivity).
      rewrite RtoC_0. ring. }
    assert (G1 : G x1 x1 p = 0).
    { eapply partial_unique; [apply HG|]. rewrite <- (W 2%nat (fmul (iK1 k1) (blind h x1))). apply partial_1; congruence. }
    assert (G2 : G x2 x2 p = 0).
    { eapply partial_unique; [apply HG|]. rewrite <- (W 2%nat (fmul (iK2 k2) (blind h x2))). apply partial_2; congruence. }
    specialize (Z p). rewrite G0, G1, G2 in Z. lra.
Qed.

(** Matrices and a solver as assumed, for N = 4 and any positive norms *)
Definition vdu4 (h : nat -> R) : column -> column := fun u i =>
  (RtoC (h i) * dcoef 4 u i - RtoC (h (i + 2)%nat) * dcoef 4 u (i + 2))%C.
Definition vu4 (h : nat -> R) : column -> column := fun u i =>
  (RtoC (h i) * tcoef 4 u i - RtoC (h (i + 2)%nat) * tcoef 4 u (i + 2))%C.
Definition sol4 (h : nat -> R) : column -> column := fun b i =>
  if (i <? 2)%nat then (RtoC (/ (h i + h (i + 2)%nat)) * b i)%C else C0.
Example C88_example h : (forall i, 0 < h i) ->
  dirichlet_rows 4 h (vdu4 h) (vu4 h) /\ solves 2 (vu4 h) (sol4 h) /\
  (** and a velocity whose divergence is not missed: u0 = 1 - T_2 alone has u0' = -4 T_1 *)
  div_hat (fun _ => 0) (fun _ => 0) (vdu4 h) (vu4 h) (sol4 h)
    (fun c _ _ i => match c, i with x0, O => C1 | _, _ => C0 end) 0%nat 0%nat 1%nat = RtoC (- 4 * h 1%nat / (h 1%nat + h 3%nat)) /\
  - 4 * h 1%nat / (h 1%nat + h 3%nat) <> 0.
Proof.
  intros H. split; [|split; [|split]].
  - split.
    + intros u f i Hi Hd. exists (dcoef 4 u). split; [|reflexivity]. intros x.
      apply (Cderiv_unique _ x _ _ (Hd x) (dirichlet_deriv 4 u x ltac:(lia))).
    + intros u i Hi. exists (tcoef 4 u). split; [|reflexivity]. intros x. apply (dirichlet_cheb 4). lia.
  - assert (V : forall u i, (i < 2)%nat -> vu4 h u i = (RtoC (h i + h (i + 2)%nat) * u i)%C).
    { intros u i Hi. assert (i = 0 \/ i = 1)%nat as [-> | ->] by lia; unfold vu4, tcoef; simpl; ceq; simpl; ring. }
    split; [|split].
    + intros b i Hi. rewrite V by exact Hi. unfold sol4. destruct (Nat.ltb_spec i 2); [|lia].
      pose proof (H i). pose proof (H (i + 2)%nat). ceq; field; lra.
    + intros b i Hi. unfold sol4. destruct (Nat.ltb_spec i 2); [lia | reflexivity].
    + intros b u Hu Ha i. unfold sol4. destruct (Nat.ltb_spec i 2) as [Hi|Hi]; [|symmetry; apply Hu, Hi].
      rewrite (Ha i Hi), V by exact Hi. pose proof (H i). pose proof (H (i + 2)%nat). ceq; field; lra.
  - pose proof (H 1%nat). pose proof (H 3%nat).
    unfold div_hat, sol4, div_rhs, cadd, csc, vdu4, vu4, dcoef, tcoef. simpl. ceq; simpl; field; lra.
  - pose proof (H 1%nat). pose proof (H 3%nat). intros E.
    assert (E' : - 4 * h 1%nat = 0) by (replace (- 4 * h 1%nat) with (- 4 * h 1%nat / (h 1%nat + h 3%nat) * (h 1%nat + h 3%nat)) by (field; lra); rewrite E; ring).
    lra.
Qed.

Print Assumptions C88_projection.
Print Assumptions C88_zero.
Print Assumptions C88_masked.
Print Assumptions C88_projection_exact.
Print Assumptions C88_step.
Print Assumptions C88_step_rk3.
Print Assumptions C88_blind_refuted.
