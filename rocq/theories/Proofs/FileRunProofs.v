(** HDF5 output and restart at the level of complete runs. *)
From Coq Require Import Reals ZArith List Bool Lia FunctionalExtensionality.
From Verif Require Import Base.Cplx Base.Fin Model.Maths Model.Integrators Model.Integrate Model.Solve Model.Run Model.HDF5
  Spec.Fourier Spec.RungeKutta Spec.Env Spec.Files Proofs.FileProofs Proofs.IntegratorProofs Proofs.LoopProofs.
Import ListNotations.
Open Scope R_scope.

Section Run.
Context {D I ctx Data RData : Type}.
Notation V := (svec D I).
Notation H := (h5env Data RData).
Context (Rhs : ctx -> V -> V -> V * ctx) (est : V -> V -> V -> R).
Context (upd : R -> nat -> V * V * ctx * H -> V * V * ctx * H).
Context (Hupd : forall t n x, snd (upd t n x) = snd x).
Context (mode : filemode) (wr cp : Z) (Hwr : (0 < wr)%Z) (Hcp : (0 < cp)%Z) (keys : list nat).
Context (fields : nat -> V -> ctx -> Data) (components : V -> ctx -> ctx * RData) (kill : nat -> bool).
Context (rnd : R -> R) (T : R) (fuel : nat) (g : integ).
Notation out := (h5_output mode wr cp keys fields components kill).
Notation stepped := (run_stepped Rhs est upd out rnd T fuel g).
Notation reach := (run_reach Rhs est upd out rnd T fuel g).
Notation St := (lstate (world D I ctx H)).
Notation data := (data fields).
Notation results := (results components wr).
Notation creation_if o := (if o then [] else creation mode).
Definition step_ops (s : St) (r : RData) : list (fop Data RData) :=
  scheduled wr cp keys (kill (l_tstep s)) (l_tstep s) (l_t s) (data s) r.

Lemma stepped_env s s' : stepped s s' -> exists r, results s' r /\
  env s' = mkH5 true (h_log (env s) ++ creation_if (h_opened (env s)) ++ step_ops s' r)
                (apply_ops (h_file (env s)) (creation_if (h_opened (env s)) ++ step_ops s' r)) /\
  l_tstep s' = S (l_tstep s).
Proof.
  unfold run_stepped, Solve.stepped, Solve.iter. destruct (Rle_dec _ _) as [_|_]; [|intros [E|[E|E]]; discriminate].
  unfold run_integrate. destruct (integrate _ _ _ _ _ _ _) as [[[st d] k]|]; [|intros [E|[E|E]]; discriminate].
  unfold run_update at 1 2 3. cbn [w_st w_env].
  set (t := rnd (l_t s + k)). set (n := S (l_tstep s)).
  pose proof (Hupd t n (s_u0 st, s_rhs st, s_ctx st, w_env (l_w s))) as HE.
  destruct (upd t n _) as [[[u rhs] c] e]. cbn [snd] in HE. subst e.
  unfold run_output. cbn [w_st w_env s_u0 s_ctx]. unfold h5_output.
  set (cr := if andb (negb (Z.eqb wr 0)) (divides wr n) then components u c else (c, snd (components u c))).
  assert (Ecr : cr = if divides wr n then components u c else (c, snd (components u c))).
  { unfold cr. replace (Z.eqb wr 0) with false by (symmetry; apply Z.eqb_neq; lia). reflexivity. }
  clearbody cr. destruct cr as [c' r].
  destruct (h5_update _ _ _ _ _ _ _ _ _ _) as [ops res] eqn:Eops.
  assert (Eo : ops = creation_if (h_opened (w_env (l_w s))) ++ scheduled wr cp keys (kill n) n t (fun k => fields k u c') r).
  { apply (f_equal fst) in Eops. cbn [fst] in Eops. rewrite <- Eops. unfold h5_update, creation, scheduled.
    replace (Z.eqb wr 0) with false by (symmetry; apply Z.eqb_neq; lia).
    replace (Z.eqb cp 0) with false by (symmetry; apply Z.eqb_neq; lia).
    unfold divides. destruct (orb _ _); cbn [fst]; [reflexivity|]. rewrite app_nil_r. reflexivity. }
  clear Eops.
  assert (Hfin : forall s'', s'' = mkL t d n (mkWorld (mkIstate u (s_u1 st) (s_u2 st) rhs (s_fY st) (s_off st) c')
              (mkH5 true (h_log (w_env (l_w s)) ++ ops) (apply_ops (h_file (w_env (l_w s))) ops))) true (l_log s'')
              \/ (exists d', s'' = mkL t d' n (mkWorld (mkIstate u (s_u1 st) (s_u2 st) rhs (s_fY st) (s_off st) c')
              (mkH5 true (h_log (w_env (l_w s)) ++ ops) (apply_ops (h_file (w_env (l_w s))) ops))) true (l_log s'')) ->
       exists r0, results s'' r0 /\
  env s'' = mkH5 true (h_log (env s) ++ creation_if (h_opened (env s)) ++ step_ops s'' r0)
                (apply_ops (h_file (env s)) (creation_if (h_opened (env s)) ++ step_ops s'' r0)) /\ l_tstep s'' = S (l_tstep s)).
  { intros s'' Hs''. exists r.
    assert (Hx : exists d', s'' = mkL t d' n (mkWorld (mkIstate u (s_u1 st) (s_u2 st) rhs (s_fY st) (s_off st) c')
              (mkH5 true (h_log (w_env (l_w s)) ++ ops) (apply_ops (h_file (w_env (l_w s))) ops))) true (l_log s'')).
    { destruct Hs'' as [E|E]; [eauto|exact E]. }
    destruct Hx as [d' ->]. cbn [l_log]. split; [|split; [|reflexivity]].
    - exists c. unfold solution. cbn [l_w w_st s_u0 s_ctx l_tstep].
      destruct (divides wr n) eqn:Ed.
      + rewrite <- Ecr. split; [reflexivity|]. intros _. reflexivity.
      + injection Ecr as -> ->. split; [reflexivity|]. intros Hm. apply divides_spec in Hm; [congruence|lia].
    - unfold env, step_ops, Files.data, solution. cbn [l_w w_env w_st s_u0 s_ctx l_tstep l_t]. rewrite Eo. reflexivity. }
  clear Eo Ecr. destruct (match res with H5Ok => false | _ => true end).
  - intros [E|[E|E]]; try discriminate. injection E as <-. apply Hfin. left. reflexivity.
  - unfold end_of_tstep_NS. destruct (Rlt_dec _ _) as [_|_].
    + intros [E|[E|E]]; try discriminate. injection E as <-. apply Hfin. left. reflexivity.
    + destruct (Rlt_dec _ _) as [_|_]; [|destruct (Rle_dec _ _)]; (intros [E|[E|E]]; try discriminate; injection E as <-; apply Hfin; right; eexists; reflexivity).
Qed.

Lemma reach_trail s0 n s : h_opened (env s0) = false -> h_log (env s0) = [] -> reach s0 n s ->
  exists l, length l = n /\ l_tstep s = (l_tstep s0 + n)%nat /\
    h_opened (env s) = (match n with O => false | _ => true end) /\
    h_log (env s) = (match n with O => [] | _ => creation mode end) ++ flat_map (fun x => step_ops (fst x) (snd x)) l /\
    h_file (env s) = apply_ops (h_file (env s0)) (h_log (env s)) /\
    forall j x, nth_error l j = Some x -> results (fst x) (snd x) /\ l_tstep (fst x) = (l_tstep s0 + S j)%nat /\
      exists s1, reach s0 j s1 /\ stepped s1 (fst x).
Proof.
  intros Ho Hl Hr. induction Hr as [|n s s' Hr IH Hi].
  - exists []. cbn. split; [reflexivity|]. split; [lia|]. split; [exact Ho|]. split; [exact Hl|]. rewrite Hl. split; [reflexivity|].
    intros [|j] x Hx; discriminate.
  - destruct IH as (l & Hlen & Hts & Hop & Hlog & Hf & Hx).
    assert (Hs : stepped s s') by (left; exact Hi).
    destruct (stepped_env _ _ Hs) as (r & Hres & He & Hn).
    exists (l ++ [(s', r)]). rewrite app_length, He. cbn [length h_log h_file h_opened].
    split; [lia|]. split; [lia|]. split; [reflexivity|]. split; [|split].
    + rewrite Hlog, Hop. rewrite flat_map_app. cbn [flat_map fst snd]. rewrite app_nil_r.
      destruct n; cbn [app creation].
      * destruct l; [|discriminate]. reflexivity.
      * reflexivity.
    + rewrite Hf, <- apply_ops_app. reflexivity.
    + intros j x Hj. destruct (Nat.ltb_spec j (length l)) as [Hlt|Hge].
      * rewrite nth_error_app1 in Hj by exact Hlt. apply Hx, Hj.
      * rewrite nth_error_app2 in Hj by exact Hge.
        destruct (j - length l)%nat as [|q] eqn:Eq; [|destruct q; discriminate]. cbn in Hj. injection Hj as <-. cbn [fst snd].
        assert (j = n) by lia. subst j. split; [exact Hres|]. split; [lia|]. exists s. split; [exact Hr|exact Hs].
Qed.

Lemma steps_flat (n0 : nat) (l : list (St * RData)) (F : nat -> list (fop Data RData)) :
  (forall j x, nth_error l j = Some x -> F (n0 + S j)%nat = step_ops (fst x) (snd x)) ->
  flat_map (fun x => step_ops (fst x) (snd x)) l = flat_map F (steps n0 (n0 + length l)).
Proof.
  unfold steps. replace (n0 + length l - n0)%nat with (length l) by lia.
  revert n0. induction l as [|x l IH]; intros n0 HF; [reflexivity|].
  cbn [length seq flat_map]. rewrite (IH (S n0)).
  - f_equal. rewrite <- (HF 0%nat x eq_refl). f_equal. lia.
  - intros j y Hj. rewrite <- (HF (S j) y Hj). f_equal. lia.
Qed.

Notation after := (after reach stepped).

Lemma schedule s0 s : h_opened (env s0) = false -> h_log (env s0) = [] ->
  observed Rhs est upd out rnd T fuel g s0 s -> l_tstep s0 <> l_tstep s ->
  exists (st : nat -> St) (r : nat -> RData),
    (forall n, (l_tstep s0 < n <= l_tstep s)%nat -> after s0 n (st n) /\ results (st n) (r n)) /\
    (st (l_tstep s) = s) /\
    h_log (env s) = creation mode ++
      flat_map (fun n => scheduled wr cp keys (kill n) n (l_t (st n)) (data (st n)) (r n)) (steps (l_tstep s0) (l_tstep s)) /\
    h_file (env s) = apply_ops (h_file (env s0)) (h_log (env s)).
Proof.
  intros Ho Hl (n & s1 & Hr & Hs) Hne.
  assert (Hgen : exists l, l_tstep s = (l_tstep s0 + length l)%nat /\
    h_log (env s) = creation mode ++ flat_map (fun x => step_ops (fst x) (snd x)) l /\
    h_file (env s) = apply_ops (h_file (env s0)) (h_log (env s)) /\
    (exists x, nth_error l (length l - 1) = Some x /\ fst x = s) /\
    forall j x, nth_error l j = Some x -> results (fst x) (snd x) /\ l_tstep (fst x) = (l_tstep s0 + S j)%nat /\
      exists s1, reach s0 j s1 /\ stepped s1 (fst x)).
  { destruct Hs as [->|Hs].
    - inversion Hr as [|n' s2 s2' Hr' Hi]; subst; [congruence|].
      destruct (reach_trail _ _ _ Ho Hl Hr') as (l & Hlen & Hts & Hop & Hlog & Hf & Hx).
      assert (Hs : stepped s2 s1) by (left; exact Hi).
      destruct (stepped_env _ _ Hs) as (r & Hres & He & Hn).
      exists (l ++ [(s1, r)]). rewrite app_length, He. cbn [length h_log h_file h_opened].
      split; [lia|]. split; [|split; [|split]].
      + rewrite Hlog, Hop. rewrite flat_map_app. cbn [flat_map fst snd]. rewrite app_nil_r.
        destruct n'; cbn [app creation]; [destruct l; [|discriminate]; reflexivity|reflexivity].
      + rewrite Hf, <- apply_ops_app. reflexivity.
      + exists (s1, r). split; [|reflexivity]. rewrite nth_error_app2 by lia. replace (length l + 1 - 1 - length l)%nat with 0%nat by lia. reflexivity.
      + intros j x Hj. destruct (Nat.ltb_spec j (length l)) as [Hlt|Hge].
        * rewrite nth_error_app1 in Hj by exact Hlt. apply Hx, Hj.
        * rewrite nth_error_app2 in Hj by exact Hge.
          destruct (j - length l)%nat as [|q] eqn:Eq; [|destruct q; discriminate]. cbn in Hj. injection Hj as <-. cbn [fst snd].
          assert (j = n') by lia. subst j. split; [exact Hres|]. split; [lia|]. exists s2. split; [exact Hr'|exact Hs].
    - destruct (reach_trail _ _ _ Ho Hl Hr) as (l & Hlen & Hts & Hop & Hlog & Hf & Hx).
      destruct (stepped_env _ _ Hs) as (r & Hres & He & Hn).
      exists (l ++ [(s, r)]). rewrite app_length, He. cbn [length h_log h_file h_opened].
      split; [lia|]. split; [|split; [|split]].
      + rewrite Hlog, Hop. rewrite flat_map_app. cbn [flat_map fst snd]. rewrite app_nil_r.
        destruct n; cbn [app creation]; [destruct l; [|discriminate]; reflexivity|reflexivity].
      + rewrite Hf, <- apply_ops_app. reflexivity.
      + exists (s, r). split; [|reflexivity]. rewrite nth_error_app2 by lia. replace (length l + 1 - 1 - length l)%nat with 0%nat by lia. reflexivity.
      + intros j x Hj. destruct (Nat.ltb_spec j (length l)) as [Hlt|Hge].
        * rewrite nth_error_app1 in Hj by exact Hlt. apply Hx, Hj.
        * rewrite nth_error_app2 in Hj by exact Hge.
          destruct (j - length l)%nat as [|q] eqn:Eq; [|destruct q; discriminate]. cbn in Hj. injection Hj as <-. cbn [fst snd].
          assert (j = n) by lia. subst j. split; [exact Hres|]. split; [lia|]. exists s1. split; [exact Hr|exact Hs]. }
  clear n s1 Hr Hs. destruct Hgen as (l & Hn & Hlog & Hf & (xl & Hxl & Hxs) & Hx).
  set (pick := fun n => nth_error l (n - l_tstep s0 - 1)).
  set (st := fun n => match pick n with Some x => fst x | None => s end).
  set (rr := fun n => match pick n with Some x => snd x | None => snd xl end).
  exists st, rr. split; [|split; [|split]].
  - intros n Hrange. destruct (nth_error l (n - l_tstep s0 - 1)) as [x|] eqn:Ex.
    + unfold st, rr, pick. rewrite Ex. destruct (Hx _ _ Ex) as (H1 & H2 & s1 & H3 & H4).
      split; [|exact H1]. split; [lia|]. exists (n - l_tstep s0 - 1)%nat, s1. split; [lia|]. split; [exact H3|exact H4].
    + apply nth_error_None in Ex. lia.
  - unfold st, pick. rewrite Hn. replace (l_tstep s0 + length l - l_tstep s0 - 1)%nat with (length l - 1)%nat by lia. rewrite Hxl. exact Hxs.
  - rewrite Hlog. f_equal. rewrite Hn. apply steps_flat.
    intros j x Hj. destruct (Hx _ _ Hj) as (_ & H2 & _). unfold step_ops, st, rr, pick.
    replace (l_tstep s0 + S j - l_tstep s0 - 1)%nat with j by lia. rewrite Hj, H2. reflexivity.
  - exact Hf.
Qed.
End Run.
