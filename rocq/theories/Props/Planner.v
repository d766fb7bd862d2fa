(** Theorems on the planning effort of the FFTs and on the switches of demo/OrrSommerfeld.py: C90. *)
From Coq Require Import String List Arith Bool Lia.
From Verif Require Import Model.Planner.
Import ListNotations.
Open Scope string_scope.

(** * Specification: the writes that were asked for, and the last of them to a key *)
Fixpoint last_write (k : string) (ws : list (string * string)) : option string :=
  match ws with
  | [] => None
  | (k', v) :: ws => match last_write k ws with Some v' => Some v' | None => if String.eqb k k' then Some v else None end
  end.
(** a dictionary asks only the first time it is given to [update] *)
Fixpoint asked (init : nat -> entry) (seen : list nat) (es : list event) : list (string * string) :=
  match es with
  | [] => []
  | EUpdate i :: es =>
      (if existsb (Nat.eqb i) seen then [] else match init i with Own d => d | _ => [] end) ++ asked init (i :: seen) es
  | EOption d :: es => d ++ asked init seen es
  | EContext _ :: es => asked init seen es
  end.
Definition or_default (o : option string) : string := match o with Some v => v | None => measure end.

(** * The table *)
Lemma dget_dset k k' v d : dget (dset k' v d) k = if String.eqb k k' then Some v else dget d k.
Proof.
  induction d as [|[k1 v1] d IH]; cbn [dset dget]; [reflexivity|].
  destruct (String.eqb k' k1) eqn:E; cbn [dget].
  - apply String.eqb_eq in E; subst k1. destruct (String.eqb k k') eqn:F; reflexivity.
  - rewrite IH. destruct (String.eqb k k1) eqn:G; [|reflexivity].
    apply String.eqb_eq in G; subst k1. rewrite String.eqb_sym, E. reflexivity.
Qed.
Lemma dget_dupdate k new : forall d,
  dget (dupdate d new) k = match last_write k new with Some v => Some v | None => dget d k end.
Proof.
  induction new as [|[k1 v1] new IH]; intro d; [reflexivity|].
  unfold dupdate in *. cbn [fold_left fst snd last_write]. rewrite IH, dget_dset.
  destruct (last_write k new); [reflexivity|]. destruct (String.eqb k k1); reflexivity.
Qed.
Lemma last_write_app k a b : last_write k (a ++ b) = match last_write k b with Some v => Some v | None => last_write k a end.
Proof.
  induction a as [|[k1 v1] a IH]; cbn [app last_write]; [destruct (last_write k b); reflexivity|].
  rewrite IH. destruct (last_write k b); reflexivity.
Qed.
Lemma getitem_value d k : fst (dd_getitem d k) = or_default (dget d k).
Proof. unfold dd_getitem. destruct (dget d k); reflexivity. Qed.
Lemma getitem_table d k k' : or_default (dget (snd (dd_getitem d k)) k') = or_default (dget d k').
Proof.
  unfold dd_getitem. destruct (dget d k) eqn:E; [reflexivity|]. cbn [snd]. rewrite dget_dset.
  destruct (String.eqb k' k) eqn:F; [|reflexivity]. apply String.eqb_eq in F; subst k'. rewrite E. reflexivity.
Qed.
Definition keys (d : dict) : list string := map fst d.
Lemma keys_dset k v d : NoDup (keys d) -> NoDup (keys (dset k v d)) /\ (forall x, In x (keys (dset k v d)) -> x = k \/ In x (keys d)).
Proof.
  unfold keys. induction d as [|[k1 v1] d IH]; cbn; intro N.
  - split; [constructor; [intros []|constructor]|]. intros x [H|[]]; auto.
  - inversion N as [|? ? N1 N2]; subst. destruct (String.eqb k k1) eqn:E; cbn.
    + apply String.eqb_eq in E; subst k1. split; [constructor; assumption|]. intros x [H|H]; auto.
    + destruct (IH N2) as [A B]. split.
      * constructor; [|exact A]. intro H. destruct (B _ H) as [H'|H']; [|auto].
        subst k1. rewrite String.eqb_refl in E; discriminate.
      * intros x [H|H]; [auto|]. destruct (B _ H); auto.
Qed.
Lemma last_write_notin k d : ~ In k (keys d) -> last_write k d = None.
Proof.
  induction d as [|[k1 v1] d IH]; cbn; intro H; [reflexivity|]. rewrite IH by tauto.
  destruct (String.eqb k k1) eqn:E; [|reflexivity]. apply String.eqb_eq in E; subst; tauto.
Qed.
Lemma last_write_dget k d : NoDup (keys d) -> last_write k d = dget d k.
Proof.
  induction d as [|[k1 v1] d IH]; cbn; intro N; [reflexivity|]. inversion N as [|? ? N1 N2]; subst.
  destruct (String.eqb k k1) eqn:E.
  - apply String.eqb_eq in E; subst k1. rewrite (last_write_notin _ _ N1). reflexivity.
  - rewrite IH by assumption. destruct (dget d k); reflexivity.
Qed.
Lemma keys_dupdate new : forall d, NoDup (keys d) -> NoDup (keys (dupdate d new)).
Proof.
  unfold dupdate. induction new as [|[k v] new IH]; intros d N; [exact N|]. cbn [fold_left fst snd].
  apply IH, keys_dset, N.
Qed.

(** * A session *)
Definition inv (init : nat -> entry) (seen : list nat) (s : pstate) : Prop :=
  NoDup (keys (plans s)) /\
  forall i, news s i = (if existsb (Nat.eqb i) seen then match init i with Missing => Missing | _ => Shared end else init i).
Lemma session_gen init k es : forall seen s, inv init seen s ->
  or_default (dget (plans (fold_left step es s)) k)
  = or_default (match last_write k (asked init seen es) with Some v => Some v | None => dget (plans s) k end).
Proof.
  induction es as [|e es IH]; intros seen s [N Hn]; [reflexivity|]. cbn [fold_left]. destruct e as [i|d|sv].
  - assert (I : inv init (i :: seen) (step s (EUpdate i)) /\
      dget (plans (step s (EUpdate i))) k
      = match last_write k (if existsb (Nat.eqb i) seen then [] else match init i with Own d => d | _ => [] end) with
        | Some v => Some v | None => dget (plans s) k end).
    { cbn [step]. unfold cfg_update. pose proof (Hn i) as Hi.
      destruct (existsb (Nat.eqb i) seen) eqn:S.
      - (* given before *)
        assert (Q : forall j, (if existsb (Nat.eqb j) (i :: seen) then match init j with Missing => Missing | _ => Shared end
                               else init j) = news s j).
        { intro j. rewrite Hn. cbn [existsb]. destruct (Nat.eqb j i) eqn:F; [|reflexivity].
          apply Nat.eqb_eq in F; subst j. rewrite S. reflexivity. }
        destruct (init i) eqn:Ii; rewrite Hi.
        + split; [split; [exact N|intro j; symmetry; apply Q]|reflexivity].
        + split; [split; [apply keys_dupdate, N|intro j; symmetry; apply Q]|].
          cbn [plans last_write]. rewrite dget_dupdate, last_write_dget by assumption. destruct (dget (plans s) k); reflexivity.
        + split; [split; [apply keys_dupdate, N|intro j; symmetry; apply Q]|].
          cbn [plans last_write]. rewrite dget_dupdate, last_write_dget by assumption. destruct (dget (plans s) k); reflexivity.
      - rewrite Hi. destruct (init i) as [|d|] eqn:Ii.
        + split; [|reflexivity]. split; [exact N|]. intro j. rewrite Hn. cbn [existsb].
          destruct (Nat.eqb j i) eqn:F; [|reflexivity]. apply Nat.eqb_eq in F; subst j. rewrite S, Ii. reflexivity.
        + split; [|cbn [plans]; apply dget_dupdate]. split; [apply keys_dupdate, N|]. intro j. cbn [news existsb].
          destruct (Nat.eqb j i) eqn:F; [|cbn [orb]; apply Hn]. apply Nat.eqb_eq in F; subst j. rewrite Ii. reflexivity.
        + split.
          * split; [apply keys_dupdate, N|]. intro j. cbn [news]. rewrite Hn. cbn [existsb].
            destruct (Nat.eqb j i) eqn:F; [|reflexivity]. apply Nat.eqb_eq in F; subst j. rewrite S, Ii. reflexivity.
          * cbn [plans last_write]. rewrite dget_dupdate, last_write_dget by assumption. destruct (dget (plans s) k); reflexivity. }
    destruct I as [I J]. rewrite (IH _ _ I), J. cbn [asked]. rewrite last_write_app.
    destruct (last_write k (asked init (i :: seen) es)); reflexivity.
  - assert (I : inv init seen (step s (EOption d))) by (split; [apply keys_dupdate, N|exact Hn]).
    rewrite (IH _ _ I). cbn [step plan_action plans asked]. rewrite dget_dupdate, last_write_app.
    destruct (last_write k (asked init seen es)); reflexivity.
  - cbn [asked].
    assert (T : step s (EContext sv) = PS (snd (dd_getitem (plans s) (plan_key sv))) (news s)).
    { cbn [step]. unfold context_effort. destruct (dd_getitem (plans s) (plan_key sv)); reflexivity. }
    assert (I : inv init seen (step s (EContext sv))).
    { rewrite T. split; [|exact Hn]. cbn [plans]. unfold dd_getitem.
      destruct (dget (plans s) (plan_key sv)); cbn [snd]; [exact N|apply keys_dset, N]. }
    rewrite (IH _ _ I), T. cbn [plans]. destruct (last_write k (asked init seen es)); [reflexivity|]. apply getitem_table.
Qed.

(** C90: in every session, what a solver gets is the last effort asked for under its key, by any run; FFTW_MEASURE if none *)
Theorem C90_effort_is_last_asked init es sv :
  fst (context_effort sv (session init es)) = or_default (last_write (plan_key sv) (asked init [] es)).
Proof.
  assert (E : fst (context_effort sv (session init es)) = or_default (dget (plans (session init es)) (plan_key sv))).
  { unfold context_effort. rewrite <- getitem_value. destruct (dd_getitem (plans (session init es)) (plan_key sv)); reflexivity. }
  rewrite E. unfold session. rewrite (session_gen init (plan_key sv) es []).
  - destruct (last_write (plan_key sv) (asked init [] es)); [reflexivity|]. cbn [plans fft_plans0 dget].
    destruct (String.eqb (plan_key sv) "dct"); reflexivity.
  - split; [|intro; reflexivity]. cbn. constructor; [intros []|constructor].
Qed.
(** building a context, of whichever solver, leaves every later effort as it was *)
Theorem C90_context_changes_no_effort init es es' sv sv' :
  fst (context_effort sv (session init (es ++ EContext sv' :: es'))) = fst (context_effort sv (session init (es ++ es'))).
Proof.
  rewrite !C90_effort_is_last_asked. f_equal. f_equal. generalize (@nil nat).
  induction es as [|[i|d|s] es IH]; intro seen; cbn [app asked]; rewrite ?IH; reflexivity.
Qed.
(** an entry under any other key than the one of the solver is without effect *)
Theorem C90_other_keys_ignored init es es' sv d : last_write (plan_key sv) d = None ->
  fst (context_effort sv (session init (es ++ EOption d :: es'))) = fst (context_effort sv (session init (es ++ es'))).
Proof.
  intro H. rewrite !C90_effort_is_last_asked. f_equal. generalize (@nil nat).
  induction es as [|[i|d'|s] es IH]; intro seen; cbn [app asked]; rewrite ?last_write_app, ?IH; try reflexivity.
  rewrite H. destruct (last_write _ (asked init seen es')); reflexivity.
Qed.
(** a run that asks for nothing gets what the earlier runs of the session asked for, *)
Theorem C90_effort_inherited init es es' sv :
  (forall d, ~ In (EOption d) es') -> (forall i d, In (EUpdate i) es' -> init i <> Own d) ->
  fst (context_effort sv (session init (es ++ es'))) = fst (context_effort sv (session init es)).
Proof.
  intros Ho Hu. rewrite !C90_effort_is_last_asked. f_equal. f_equal. generalize (@nil nat).
  induction es as [|[i|d|s] es IH]; intro seen; cbn [app asked]; [|rewrite IH; reflexivity..].
  revert seen. induction es' as [|[i|d|s] es' IH]; intro seen; cbn [asked]; [reflexivity| | |].
  - rewrite (IH (fun d H => Ho d (or_intror H)) (fun j d H => Hu j d (or_intror H))).
    rewrite app_nil_r. destruct (existsb (Nat.eqb i) seen); [reflexivity|].
    destruct (init i) as [|d|] eqn:E; [reflexivity| |reflexivity]. exfalso. apply (Hu i d); [left; reflexivity|exact E].
  - exfalso. apply (Ho d). left; reflexivity.
  - apply (IH (fun d H => Ho d (or_intror H)) (fun j d H => Hu j d (or_intror H))).
Qed.
(** not the documented default *)
Theorem C90_default_for_each_run_refuted :
  ~ (forall es sv, fst (context_effort sv (session (fun _ => Missing) (es ++ [EContext sv]))) = measure).
Proof. intro H. specialize (H [EOption [("fft", "FFTW_PATIENT")]; EContext NS_] MHD_). discriminate. Qed.
(** [update] with a dictionary that was given before asks for nothing: the effort of another run in between stays *)
Theorem C90_update_again_does_nothing init es i sv : In (EUpdate i) es ->
  fst (context_effort sv (session init (es ++ [EUpdate i]))) = fst (context_effort sv (session init es)).
Proof.
  intro H. rewrite !C90_effort_is_last_asked. f_equal. f_equal.
  assert (G : forall seen, (In (EUpdate i) es \/ existsb (Nat.eqb i) seen = true) ->
    asked init seen (es ++ [EUpdate i]) = asked init seen es).
  { clear H. induction es as [|[j|d|s] es IH]; intros seen H.
    - destruct H as [[]|H]. cbn [app asked]. rewrite H. reflexivity.
    - cbn [app asked]. rewrite IH; [reflexivity|]. cbn [existsb]. destruct H as [[H|H]|H].
      + right. injection H as ->. rewrite Nat.eqb_refl. reflexivity.
      + left; exact H.
      + right. rewrite H. apply orb_true_r.
    - cbn [app asked]. rewrite IH; [reflexivity|]. destruct H as [[H|H]|H]; [discriminate|auto|auto].
    - cbn [app asked]. rewrite IH; [reflexivity|]. destruct H as [[H|H]|H]; [discriminate|auto|auto]. }
  apply G. left; exact H.
Qed.

(** * The switches of demo/OrrSommerfeld.py *)
Theorem C90_switch_is_on a : bool_of_arg a = true <-> exists c s, a = Some (String c s).
Proof.
  destruct a as [[|c s]|]; cbn; split; intro H; try discriminate.
  - destruct H as (c & s & H). discriminate.
  - exists c, s. reflexivity.
  - reflexivity.
  - destruct H as (c & s & H). discriminate.
Qed.
(** the plain run is reached exactly if every switch is left out or given as the empty string *)
Theorem C90_plain_run r e p : os_main r e p = OneRun <->
  (forall a, In a [r; e; p] -> a = None \/ a = Some "").
Proof.
  assert (B : forall a, bool_of_arg a = false <-> (a = None \/ a = Some "")).
  { intros [[|c s]|]; cbn; split; intro H; auto; try discriminate. destruct H; discriminate. }
  unfold os_main. split.
  - destruct (bool_of_arg e) eqn:E; [discriminate|]. destruct (bool_of_arg p) eqn:P; [discriminate|].
    destruct (bool_of_arg r) eqn:Q; [discriminate|]. intros _ a [<-|[<-|[<-|[]]]]; apply B; assumption.
  - intro H. rewrite (proj2 (B e)), (proj2 (B p)), (proj2 (B r)); [reflexivity| | |]; apply H; cbn; auto.
Qed.
(** "--refinement_test False" switches the test on *)
Theorem C90_False_is_false_refuted : ~ (forall r, r = Some "False" -> os_main r None None = OneRun).
Proof. intro H. specialize (H _ eq_refl). discriminate. Qed.
(** the eps series wins over the others, and no two of the three are done together *)
Theorem C90_eps_first r c s p : os_main r (Some (String c s)) p = EpsRuns.
Proof. reflexivity. Qed.

(** demo/TG.py, then a run of KMM with --planner_effort '{"dct": "FFTW_EXHAUSTIVE"}', then the dictionary of TG again *)
Example C90_example :
  let tg := [("fft", "FFTW_ESTIMATE"); ("rfftn", "FFTW_ESTIMATE"); ("irfftn", "FFTW_ESTIMATE")] in
  let init := fun i => if Nat.eqb i 0 then Own tg else Missing in
  let es := [EUpdate 0; EContext NS_; EOption [("dct", "FFTW_EXHAUSTIVE"); ("fft", "FFTW_PATIENT")]; EContext KMM_; EUpdate 0] in
  fst (context_effort NS_ (session init es)) = "FFTW_PATIENT" /\
  fst (context_effort KMM_ (session init es)) = "FFTW_EXHAUSTIVE" /\
  fst (context_effort NS_ (session init [])) = "FFTW_MEASURE" /\
  fst (context_effort NS_ (session init [EUpdate 0])) = "FFTW_ESTIMATE" /\
  os_main (Some "0") None None = OneRunWithTest /\ os_main None (Some "False") (Some "True") = EpsRuns.
Proof. repeat split; reflexivity. Qed.

Print Assumptions C90_effort_is_last_asked.
Print Assumptions C90_context_changes_no_effort.
Print Assumptions C90_other_keys_ignored.
Print Assumptions C90_effort_inherited.
Print Assumptions C90_default_for_each_run_refuted.
Print Assumptions C90_update_again_does_nothing.
Print Assumptions C90_switch_is_on.
Print Assumptions C90_plain_run.
Print Assumptions C90_False_is_false_refuted.
Print Assumptions C90_eps_first.
