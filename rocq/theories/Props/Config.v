(** Properties of the configuration (spectralDNS/config.py) and of get_solver (spectralDNS/__init__.py). *)
From Coq Require Import Reals ZArith List String Bool Lia Lra.
From Verif Require Import Model.Config Spec.History Proofs.ConfigProofs.
Import ListNotations.
Open Scope string_scope. Open Scope list_scope.

(* conversion unfolds nodup last *)
Strategy 100 [nodup].

Section Params.
Context (ev : string -> res R) (fl32 : R -> R).
Notation params l := (prun ev empty_dict l).

Lemma accepted_succeeds l : accepted ev l -> Forall (succeeds ev) l.
Proof.
  intros H. apply Forall_forall. intros [k o] Hin v Hv. cbn [snd] in Hv. subst o. destruct (H k v Hin) as [d Hd].
  rewrite setitem_stored in Hd. cbn [fst]. destruct (stored ev k v) as [w|e]; [eauto|discriminate].
Qed.
Lemma lookup l k r : accepted ev (assignments l) -> latest k (assignments l) r ->
  params l k = match r with Some (Some v) => match stored ev k v with Ok w => Some w | Err _ => None end | _ => None end.
Proof.
  intros Ha Hr. apply accepted_succeeds in Ha. rewrite prun_assign by exact Ha. rewrite (assign_latest ev k _ r empty_dict Hr Ha).
  destruct r as [[v|]|]; reflexivity.
Qed.
Lemma lookup_unset l k : accepted ev (assignments l) -> unset k (assignments l) -> params l k = None.
Proof. intros Ha [H|H]; rewrite (lookup _ _ _ Ha H); reflexivity. Qed.
Lemma stored_mesh k v zs : k = "M" \/ k = "N" -> mesh_value v zs -> stored ev k v = Ok (PVecZ zs).
Proof.
  intros Hk Hv. pose proof (setitem_mesh ev empty_dict k v zs Hk Hv) as E. rewrite setitem_stored in E.
  destruct (stored ev k v); [|discriminate]. injection E as E. f_equal. apply (f_equal (fun d => d k)) in E. unfold put in E. rewrite String.eqb_refl in E. congruence.
Qed.

(** ** C27: after any history of assignments, updates and deletions *)
Theorem C27_N_explicit l v zs : accepted ev (assignments l) -> last_set "N" (assignments l) v -> mesh_value v zs ->
  getattr fl32 (params l) "N" = Ok (PVecZ zs).
Proof.
  intros Ha Hn Hv. change (attr_N (params l) = Ok (PVecZ zs)). unfold attr_N.
  rewrite (lookup _ _ _ Ha Hn), (stored_mesh "N" v zs) by auto. reflexivity.
Qed.
Theorem C27_N_from_M l v ms : accepted ev (assignments l) -> unset "N" (assignments l) -> last_set "M" (assignments l) v ->
  mesh_value v ms -> Forall (fun m => 0 <= m <= 62)%Z ms ->
  getattr fl32 (params l) "N" = Ok (PVecZ (map (fun m => 2 ^ m)%Z ms)).
Proof.
  intros Ha Hn Hm Hv Hr. change (attr_N (params l) = Ok (PVecZ (map (fun m => 2 ^ m)%Z ms))). unfold attr_N.
  rewrite (lookup_unset _ _ Ha Hn), (lookup _ _ _ Ha Hm), (stored_mesh "M" v ms) by auto. apply two_pow_ok, Hr.
Qed.
(** viscosities, time step and numbers of the fluid are read in the chosen precision *)
Theorem C27_precision l k v x p : accepted ev (assignments l) -> In k ["nu"; "dt"; "Ri"; "Pr"; "eta"] ->
  last_set "precision" (assignments l) (PStr p) -> last_set k (assignments l) v -> number v x ->
  (p = "single" -> getattr fl32 (params l) k = Ok (PFloat (fl32 x))) /\
  (p <> "single" -> getattr fl32 (params l) k = Ok (PFloat x)).
Proof.
  intros Ha Hk Hp Hv Hn.
  assert (E : getattr fl32 (params l) k = Ok (PFloat (if String.eqb p "single" then fl32 x else x))).
  { unfold getattr. rewrite (lookup _ _ _ Ha Hp), (lookup _ _ _ Ha Hv).
    cbn in Hk; repeat (destruct Hk as [<-|Hk]; [destruct Hn; cbn; destruct (String.eqb p "single"); reflexivity|]). destruct Hk. }
  rewrite E. split; intros H; [subst p; reflexivity|]. apply String.eqb_neq in H. rewrite H. reflexivity.
Qed.
(** what was assigned is what is read back *)
Theorem C27_M l v ms : accepted ev (assignments l) -> last_set "M" (assignments l) v -> mesh_value v ms ->
  getattr fl32 (params l) "M" = Ok (PVecZ ms).
Proof.
  intros Ha Hm Hv. unfold getattr. cbn [is_float_key existsb String.eqb Ascii.eqb Bool.eqb orb].
  rewrite (lookup _ _ _ Ha Hm), (stored_mesh "M" v ms) by auto. reflexivity.
Qed.
(** dx * N = L componentwise *)
Theorem C27_dx l v xs ns : accepted ev (assignments l) -> unset "dx" (assignments l) -> last_set "L" (assignments l) v ->
  length_value ev v xs -> getattr fl32 (params l) "N" = Ok (PVecZ ns) -> List.length xs = List.length ns -> Forall (fun n => n <> 0%Z) ns ->
  exists dx, getattr fl32 (params l) "dx" = Ok (PVecR dx) /\ List.length dx = List.length xs /\
    forall i, (nth i dx 0 * IZR (nth i ns 1%Z) = nth i xs 0)%R.
Proof.
  intros Ha Hd Hl (vl & -> & Hx) Hn Hlen Hz. change (attr_N (params l) = Ok (PVecZ ns)) in Hn.
  assert (EL : params l "L" = Some (PVecR xs)).
  { rewrite (lookup _ _ _ Ha Hl). unfold stored. cbn [String.eqb Ascii.eqb Bool.eqb orb py_iter].
    replace (mapM (to_real ev) vl) with (@Ok (list R) xs); [reflexivity|]. symmetry.
    clear -Hx. induction Hx as [|p x vl xs Hp _ IH]; [reflexivity|]. cbn [mapM]. rewrite IH.
    destruct Hp as [x|z|s x Hs]; cbn [to_real]; [reflexivity|reflexivity|]. rewrite Hs. reflexivity. }
  exists (map (fun p => (fst p / IZR (snd p))%R) (combine xs ns)). split; [|split].
  - change (match params l "dx" with
       | Some v => Ok v
       | None => match params l "L" with
                 | None => Err EKey
                 | Some l0 => match attr_N (params l) with
                             | Err e => Err e
                             | Ok n => match l0, n with PVecR l0, PVecZ n => divide l0 n | _, _ => Err EType end
                             end
                 end
       end = Ok (PVecR (map (fun p => (fst p / IZR (snd p))%R) (combine xs ns)))).
    rewrite (lookup_unset _ _ Ha Hd), EL, Hn. unfold divide. rewrite Hlen, Nat.eqb_refl. reflexivity.
  - rewrite map_length, combine_length. lia.
  - intros i. clear -Hlen Hz. revert i ns Hlen Hz. induction xs as [|x xs IH]; intros i [|n ns] Hlen Hz; try discriminate; cbn [combine map nth].
    + destruct i; lra.
    + inversion Hz as [|a b H1 H2]; subst. destruct i as [|i]; cbn [nth fst snd].
      * field. apply not_0_IZR, H1.
      * apply IH; [injection Hlen as E; exact E|exact H2].
Qed.
Theorem C27_missing l k : accepted ev (assignments l) -> unset k (assignments l) -> k <> "N" -> k <> "dx" ->
  getattr fl32 (params l) k = Err EKey.
Proof.
  intros Ha Hu H1 H2. unfold getattr. rewrite (lookup_unset _ _ Ha Hu).
  apply String.eqb_neq in H1. apply String.eqb_neq in H2. rewrite H1, H2.
  destruct (is_float_key k); [|reflexivity]. destruct (params l "precision"); reflexivity.
Qed.
(** N is the exception to the KeyError rule *)
Theorem C27_missing_refuted l : accepted ev (assignments l) -> unset "N" (assignments l) -> unset "M" (assignments l) ->
  getattr fl32 (params l) "N" = Err EAssertion.
Proof.
  intros Ha H1 H2. change (attr_N (params l) = Err EAssertion). unfold attr_N.
  rewrite (lookup_unset _ _ Ha H1), (lookup_unset _ _ Ha H2). reflexivity.
Qed.

(** ** C28: get_solver, as an update of config.params with the parsed namespace, after any history [l]
    (earlier get_solver calls included) *)
Lemma latest_app k (l l' : list (string * option pyval)) r : latest k l r -> (forall x, ~ In (k, x) l') -> latest k (l ++ l') r.
Proof.
  intros Hl. revert l'. apply (rev_ind (fun l' => (forall x, ~ In (k, x) l') -> latest k (l ++ l') r)).
  - rewrite app_nil_r. auto.
  - intros [k' x] l' IH Hn. rewrite app_assoc. apply latest_before.
    + intros ->. apply (Hn x). apply in_or_app. right. left. reflexivity.
    + apply IH. intros y Hy. apply (Hn y). apply in_or_app. left. exact Hy.
Qed.
Lemma latest_never k (l : list (string * option pyval)) : (forall x, ~ In (k, x) l) -> latest k l None.
Proof. intros H. apply (latest_app k [] l None); [constructor|exact H]. Qed.
Lemma latest_single k (l l' : list (string * option pyval)) v : In (k, v) l' -> (forall w, In (k, w) l' -> w = v) -> latest k (l ++ l') (Some v).
Proof.
  revert l'. apply (rev_ind (fun l' => In (k, v) l' -> (forall w, In (k, w) l' -> w = v) -> latest k (l ++ l') (Some v))).
  - intros [].
  - intros [k' x] l' IH Hin Hall. rewrite app_assoc. destruct (string_dec k' k) as [->|Hne].
    + replace x with v; [apply latest_here|]. symmetry. apply Hall. apply in_or_app. right. left. reflexivity.
    + apply latest_before; [exact Hne|]. apply IH.
      * apply in_app_or in Hin. destruct Hin as [Hin|[E|[]]]; [exact Hin|congruence].
      * intros w Hw. apply Hall. apply in_or_app. left. exact Hw.
Qed.
Lemma in_vars m upd c ns k w : In (k, w) (vars m upd c ns) <-> In k (ns_keys m upd c) /\ ns k = Some w.
Proof.
  unfold vars. rewrite in_flat_map. split.
  - intros (k' & Hk & H). destruct (ns k') eqn:E; [|destruct H]. destruct H as [H|[]]. injection H as -> ->. auto.
  - intros [Hk E]. exists k. split; [exact Hk|]. rewrite E. left. reflexivity.
Qed.
Lemma in_vars_opt m upd c ns k o : In (k, o) (map (fun p => (fst p, Some (snd p))) (vars m upd c ns)) ->
  exists w, o = Some w /\ In k (ns_keys m upd c) /\ ns k = Some w.
Proof.
  intros H. apply in_map_iff in H. destruct H as ([k' w] & E & H). injection E as E1 E2. subst k' o. exists w.
  split; [reflexivity|]. apply (proj1 (in_vars m upd c ns k w)). exact H.
Qed.
Lemma assign_gs l m upd c ns : assignments (l ++ [PUpdate (vars m upd c ns)]) =
  assignments l ++ map (fun p => (fst p, Some (snd p))) (vars m upd c ns).
Proof. unfold assignments. rewrite flat_map_app. cbn [flat_map assigns]. rewrite app_nil_r. reflexivity. Qed.
Lemma not_declared (l : list (string * pyval)) k : declares l k = false -> ~ In k (map fst l).
Proof.
  intros H Hin. apply in_map_iff in Hin. destruct Hin as (p & E & Hp). unfold declares in H.
  rewrite <- not_true_iff_false in H. apply H. apply existsb_exists. exists p. split; [exact Hp|]. rewrite E. apply String.eqb_refl.
Qed.
Lemma is_declared (l : list (string * pyval)) k : declares l k = true -> In k (map fst l).
Proof.
  intros H. unfold declares in H. apply existsb_exists in H. destruct H as (p & Hp & E). apply String.eqb_eq in E. subst k. apply in_map, Hp.
Qed.
Lemma mesh_no_N m : ~ In "N" (map fst (mesh_opts m)).
Proof. apply not_declared. destruct m; vm_compute; reflexivity. Qed.
Lemma sub_no_N m s : ~ In "N" (map fst (sub_opts m s)).
Proof.
  apply not_declared. unfold sub_opts. destruct s as [s|]; [|reflexivity]. destruct (find _ _) as [[n o]|] eqn:E; [|reflexivity].
  apply find_some in E. destruct E as [E _].
  assert (H : forallb (fun p => negb (declares (snd p) "N")) (subparsers m) = true) by (destruct m; vm_compute; reflexivity).
  rewrite forallb_forall in H. specialize (H _ E). cbn [snd] in H. destruct (declares o "N"); [discriminate|reflexivity].
Qed.
Lemma M_key m upd c : In "M" (ns_keys m upd c).
Proof.
  unfold ns_keys. apply nodup_In. apply in_or_app. left. apply is_declared. destruct m; vm_compute; reflexivity.
Qed.

Lemma ns_no_N m upd c : (forall u w, In u upd -> ~ In ("N", w) (snd u)) -> ~ In "N" (ns_keys m upd c).
Proof.
  intros HU Hk. unfold ns_keys in Hk. apply nodup_In in Hk. apply in_app_or in Hk. destruct Hk as [Hk|Hk]; [exact (mesh_no_N m Hk)|].
  apply in_app_or in Hk. destruct Hk as [Hk|Hk]; [exact (sub_no_N m (c_solver c) Hk)|].
  apply in_map_iff in Hk. destruct Hk as ([k w'] & E & Hk). cbn [fst] in E. subst k. apply in_flat_map in Hk.
  destruct Hk as (u & Hu & Hk). apply (HU u w' Hu Hk).
Qed.
Lemma gs_unset_N l m upd c ns : (forall x, ~ In ("N", x) (assignments l)) -> (forall u w, In u upd -> ~ In ("N", w) (snd u)) ->
  unset "N" (assignments (l ++ [PUpdate (vars m upd c ns)])).
Proof.
  intros HN HU. left. rewrite assign_gs. apply latest_never. intros x Hx. apply in_app_or in Hx. destruct Hx as [Hx|Hx]; [apply (HN x Hx)|].
  apply in_vars_opt in Hx. destruct Hx as (w & _ & Hk & _). exact (ns_no_N m upd c HU Hk).
Qed.
Lemma gs_set_M l m upd c (ns : string -> option pyval) v : ns "M" = Some v -> last_set "M" (assignments (l ++ [PUpdate (vars m upd c ns)])) v.
Proof.
  intros HM. unfold last_set. rewrite assign_gs. apply latest_single.
  + apply in_map_iff. exists ("M", v). split; [reflexivity|]. apply (proj2 (in_vars m upd c ns "M" v)). split; [apply M_key|exact HM].
  + intros w Hw. apply in_vars_opt in Hw. destruct Hw as (w' & -> & _ & E). congruence.
Qed.
Theorem C28_resolution l m upd c ns v ms : parse_args m upd c = Some ns -> ns "M" = Some v -> mesh_value v ms ->
  Forall (fun m => 0 <= m <= 62)%Z ms ->
  (forall x, ~ In ("N", x) (assignments l)) -> (forall u w, In u upd -> ~ In ("N", w) (snd u)) ->
  accepted ev (assignments (l ++ [PUpdate (vars m upd c ns)])) ->
  getattr fl32 (params (l ++ [PUpdate (vars m upd c ns)])) "N" = Ok (PVecZ (map (fun m => 2 ^ m)%Z ms)).
Proof.
  intros Hp HM Hv Hr HN HU Ha.
  exact (C27_N_from_M _ v ms Ha (gs_unset_N l m upd c ns HN HU) (gs_set_M l m upd c ns v HM) Hv Hr).
Qed.
(** an N assigned earlier decides, whatever M is passed to get_solver *)
Theorem C28_stale_N_refuted l m upd c ns n zs : last_set "N" (assignments l) n -> mesh_value n zs -> ns "N" = None ->
  accepted ev (assignments (l ++ [PUpdate (vars m upd c ns)])) ->
  getattr fl32 (params (l ++ [PUpdate (vars m upd c ns)])) "N" = Ok (PVecZ zs).
Proof.
  intros Hn Hv HN Ha. apply (C27_N_explicit _ n zs Ha); [|exact Hv]. unfold last_set. rewrite assign_gs. apply latest_app; [exact Hn|].
  intros x Hx. apply in_vars_opt in Hx. destruct Hx as (w & -> & _ & E). congruence.
Qed.
End Params.

(** ** C29: which value an option gets.  [upd]: all config.update calls so far, for any mesh *)
Definition default (m : mesh) (k : string) : option pyval := assoc (mesh_opts m) k.
Definition declared_by_solver (m : mesh) (s : option string) (k : string) : Prop := exists v, In (k, v) (sub_opts m s).
Definition first_some {A} (a b : option A) : option A := match a with Some _ => a | None => b end.

Lemma parse_value m upd c ns k : parse_args m upd c = Some ns -> k <> "solver" -> ~ declared_by_solver m (c_solver c) k ->
  ns k = or_else (assoc (c_main c) k) (or_else (updated m upd k) (assoc (mesh_opts m) k)).
Proof.
  unfold parse_args. destruct (negb _); [discriminate|]. intros H Hk Hd. unfold declared_by_solver, sub_opts in Hd. destruct (c_solver c) as [s|].
  - destruct (find _ _) as [[n o]|]; [|discriminate]. destruct (forallb _ (c_sub c)) eqn:Hf; [|discriminate]. cbn [negb] in H. injection H as <-.
    apply String.eqb_neq in Hk. rewrite Hk.
    assert (Ho : forall l : list (string * pyval), (forall v, ~ In (k, v) l) -> assoc l k = None).
    { apply (rev_ind (fun l => (forall v, ~ In (k, v) l) -> assoc l k = None)); [reflexivity|].
      intros [k' v] l IH Hn. rewrite assoc_app. cbn [assoc fold_left fst snd]. destruct (String.eqb_spec k' k) as [->|_].
      - exfalso. apply (Hn v). apply in_or_app. right. left. reflexivity.
      - apply IH. intros w Hw. apply (Hn w). apply in_or_app. left. exact Hw. }
    rewrite (Ho (c_sub c)).
    + rewrite (Ho o); [reflexivity|]. intros v Hv. apply Hd. eauto.
    + intros v Hv. rewrite forallb_forall in Hf. specialize (Hf _ Hv). cbn [fst] in Hf. unfold declares in Hf. apply existsb_exists in Hf.
      destruct Hf as ([k' w] & Hin & E). cbn [fst] in E. apply String.eqb_eq in E. subst k'. apply Hd. eauto.
  - destruct (c_sub c); [|discriminate]. injection H as <-. reflexivity.
Qed.
Lemma mesh_eqb_refl m : mesh_eqb m m = true. Proof. destruct m; reflexivity. Qed.

(** options the solver's sub-parser does not declare, when only this mesh's update() was used for them *)
Theorem C29_value m upd c ns k rc ru : parse_args m upd c = Some ns -> k <> "solver" ->
  ~ declared_by_solver m (c_solver c) k ->
  (forall m' new v, In (m', new) upd -> In (k, v) new -> m' = m) ->
  latest k (c_main c) rc -> latest k (flat_map snd upd) ru ->
  ns k = first_some rc (first_some ru (default m k)).
Proof.
  intros Hp Hk Hd Hu Hc Hl. rewrite (parse_value _ _ _ _ _ Hp Hk Hd), (latest_assoc _ _ _ Hc).
  change (@first_some pyval) with (@or_else pyval). replace (updated m upd k) with ru; [reflexivity|]. symmetry. rewrite <- (latest_assoc _ _ _ Hl). unfold updated. clear -Hu.
  revert Hu. apply (rev_ind (fun upd => (forall m' new v, In (m', new) upd -> In (k, v) new -> m' = m) ->
    assoc (flat_map (fun u => if orb (declares common_opts k) (mesh_eqb (fst u) m) then snd u else []) upd) k = assoc (flat_map snd upd) k)); [reflexivity|].
  intros [m' new] l IH Hu. rewrite !flat_map_app, !assoc_app. cbn [flat_map fst snd]. rewrite !app_nil_r.
  rewrite IH by (intros m2 new2 v H1 H2; eapply Hu; [apply in_or_app; left; exact H1|exact H2]). f_equal.
  destruct (orb _ _) eqn:E; [reflexivity|].
  assert (Hn : assoc new k = None); [|rewrite Hn; reflexivity].
  assert (Hnot : forall v, ~ In (k, v) new).
  { intros v Hv. assert (m' = m) by (eapply Hu; [apply in_or_app; right; left; reflexivity|exact Hv]). subst m'.
    rewrite mesh_eqb_refl, orb_true_r in E. discriminate. }
  clear -Hnot. revert Hnot. apply (rev_ind (fun l => (forall v, ~ In (k, v) l) -> assoc l k = None)); [reflexivity|].
  intros [k' v] l IH Hn. rewrite assoc_app. cbn [assoc fold_left fst snd]. destruct (String.eqb_spec k' k) as [->|_].
  - exfalso. apply (Hn v). apply in_or_app. right. left. reflexivity.
  - apply IH. intros w Hw. apply (Hn w). apply in_or_app. left. exact Hw.
Qed.
(** the common options: update() for one mesh changes the default of all meshes *)
Theorem C29_common m upd c ns k rc ru : parse_args m upd c = Some ns -> In k (map fst common_opts) ->
  ~ declared_by_solver m (c_solver c) k -> latest k (c_main c) rc -> latest k (flat_map snd upd) ru ->
  ns k = first_some rc (first_some ru (default m k)).
Proof.
  intros Hp Hk Hd Hc Hl. rewrite (parse_value _ _ _ _ _ Hp), (latest_assoc _ _ _ Hc); [|intros ->; cbn in Hk; intuition discriminate|exact Hd].
  change (@first_some pyval) with (@or_else pyval). unfold updated. replace (declares common_opts k) with true.
  - cbn [orb]. replace (flat_map (fun u => snd u) upd) with (flat_map snd upd) by reflexivity. rewrite (latest_assoc _ _ _ Hl). reflexivity.
  - symmetry. unfold declares. apply existsb_exists. apply in_map_iff in Hk. destruct Hk as (p & E & Hin). exists p. split; [exact Hin|]. rewrite E. apply String.eqb_refl.
Qed.
Theorem C29_cross_mesh_refuted : exists m m' k v ns, m <> m' /\ parse_args m [(m', [(k, v)])] (mkCmd [] None []) = Some ns /\
  ns k = Some v /\ default m k <> Some v.
Proof.
  exists Doubly, Triply, "nu", (PFloat 1%R). eexists. split; [discriminate|]. split; [reflexivity|]. split; [reflexivity|].
  unfold default. cbn. intros E. injection E as E. lra.
Qed.
(** options of a single solver: the value given after the solver's name, else the default *)
Theorem C29_solver_value m upd c ns s k d rc : parse_args m upd c = Some ns -> c_solver c = Some s ->
  In (s, k, d) (solver_options m) -> latest k (c_sub c) rc -> ns k = first_some rc (Some d).
Proof.
  intros Hp Hs Hd Hl. revert Hp. unfold parse_args. destruct (negb _); [discriminate|]. rewrite Hs.
  assert (E : exists o, find (fun p => String.eqb (fst p) s) (subparsers m) = Some (s, o) /\ assoc o k = Some d).
  { destruct m; cbn in Hd; repeat (destruct Hd as [Hd|Hd];
      [injection Hd as <- <- <-; eexists; split; [reflexivity|]; cbn; try reflexivity; f_equal; f_equal; lra|]); destruct Hd. }
  destruct E as (o & -> & Ho). destruct (negb _); [discriminate|]. intros H. injection H as <-.
  cbv beta. rewrite (latest_assoc _ _ _ Hl), Ho. destruct rc; reflexivity.
Qed.
(** and these are all *)
Theorem C29_solver_options m s k : declared_by_solver m (Some s) k <-> exists d, In (s, k, d) (solver_options m).
Proof.
  unfold declared_by_solver, sub_opts. split.
  - intros (v & Hv). destruct (find _ _) as [[n o]|] eqn:E; [|destruct Hv]. apply find_some in E. destruct E as (Hin & En).
    cbn [fst] in En. apply String.eqb_eq in En. subst n.
    destruct m; cbn in Hin; repeat (destruct Hin as [Hin|Hin]; [injection Hin as <- <-; cbn in Hv;
      repeat (destruct Hv as [Hv|Hv]; [injection Hv as <- <-; eexists; cbn; intuition reflexivity|]); destruct Hv|]); destruct Hin.
  - intros (d & Hd). destruct m; cbn in Hd; repeat (destruct Hd as [Hd|Hd];
      [injection Hd as <- <- <-; eexists; cbn; intuition reflexivity|]); destruct Hd.
Qed.
(** options a solver's sub-parser declares: config.update never has an effect *)
Theorem C29_solver_option_refuted m upd c ns k : parse_args m upd c = Some ns -> k <> "solver" -> declared_by_solver m (c_solver c) k ->
  forall upd', exists ns', parse_args m upd' c = Some ns' /\ ns' k = ns k.
Proof.
  unfold parse_args. destruct (negb _); [discriminate|]. intros H Hk Hd upd'. unfold declared_by_solver, sub_opts in Hd. destruct (c_solver c) as [s|]; [|destruct Hd as [v []]].
  destruct (find _ _) as [[n o]|]; [|discriminate]. destruct (negb _); [discriminate|]. injection H as <-. eexists. split; [reflexivity|].
  cbv beta. apply String.eqb_neq in Hk. rewrite Hk. destruct (assoc (c_sub c) k); [reflexivity|]. cbn [or_else].
  destruct Hd as [v Hv]. assert (Ha : assoc o k <> None).
  { clear -Hv. revert Hv. apply (rev_ind (fun o => In (k, v) o -> assoc o k <> None)); [intros []|].
    intros [k' w] l IH Hin. rewrite assoc_app. cbn [assoc fold_left fst snd]. destruct (String.eqb_spec k' k) as [->|Hne]; [discriminate|].
    apply in_app_or in Hin. destruct Hin as [Hin|[E|[]]]; [apply IH, Hin|congruence]. }
  destruct (assoc o k); [reflexivity|contradiction].
Qed.

(** ** C30 *)
Lemma advertised_names m : advertised m = map fst (subparsers m).
Proof. destruct m; reflexivity. Qed.
Lemma sub_find m s : In s (advertised m) -> exists o, find (fun p => String.eqb (fst p) s) (subparsers m) = Some (s, o).
Proof.
  intros H. destruct m; cbn in H; repeat (destruct H as [<-|H]; [eexists; reflexivity|]); destruct H.
Qed.
Theorem C30_advertised m upd c s ns : In s (advertised m) -> s <> "Bq" -> c_solver c = Some s -> parse_args m upd c = Some ns ->
  select_solver m upd c = Some (Loaded s).
Proof.
  intros Hs Hb Hc Hp. unfold select_solver. rewrite Hp.
  assert (E : ns "solver" = Some (PStr s)).
  { revert Hp. unfold parse_args. destruct (negb _); [discriminate|]. rewrite Hc. destruct (sub_find m s Hs) as [o Ho]. rewrite Ho.
    destruct (forallb _ (c_sub c)) eqn:Hf; [|discriminate]. cbn [negb]. intros E. injection E as <-.
    assert (Ho' : declares o "solver" = false).
    { clear -Hs Ho. destruct m; cbn in Hs; repeat (destruct Hs as [<-|Hs]; [cbn in Ho; injection Ho as <-; reflexivity|]); destruct Hs. }
    assert (Hno : forall l, declares l "solver" = false -> assoc l "solver" = None).
    { apply (rev_ind (fun l => declares l "solver" = false -> assoc l "solver" = None)); [reflexivity|].
      intros [k v] l IH. unfold declares. rewrite existsb_app, assoc_app. cbn [existsb assoc fold_left fst snd]. rewrite orb_false_r.
      intros Hx. apply orb_false_iff in Hx. destruct Hx as [H1 H2]. rewrite H2. apply IH, H1. }
    rewrite (Hno o Ho'). rewrite Hno; [reflexivity|]. rewrite <- not_true_iff_false. intros Hd. unfold declares in Hd. apply existsb_exists in Hd.
    destruct Hd as ([k v] & Hin & Ek). cbn [fst] in Ek. apply String.eqb_eq in Ek. subst k. rewrite forallb_forall in Hf. specialize (Hf _ Hin). cbn [fst] in Hf. congruence. }
  rewrite E. destruct m; cbn in Hs; repeat (destruct Hs as [<-|Hs]; [try reflexivity; contradiction|]); destruct Hs.
Qed.
Theorem C30_rejects m upd c s : ~ In s (advertised m) -> c_solver c = Some s -> select_solver m upd c = None.
Proof.
  intros Hs Hc. unfold select_solver, parse_args. destruct (negb _); [reflexivity|]. rewrite Hc.
  destruct (find _ _) as [[n o]|] eqn:E; [|reflexivity]. apply find_some in E. destruct E as [H1 H2]. cbn [fst] in H2. apply String.eqb_eq in H2. subst n.
  exfalso. apply Hs. rewrite advertised_names. apply in_map_iff. exists (s, o). auto.
Qed.
Theorem C30_Bq_refuted : In "Bq" (advertised Triply) /\ select_solver Triply [] (mkCmd [] (Some "Bq") []) = Some (ModuleNotFound "Bq").
Proof. split; [cbn; tauto|reflexivity]. Qed.
(** without a solver name get_solver fails, unless config.update set one *)
Theorem C30_omitted_refuted m upd c ns : c_solver c = None -> parse_args m upd c = Some ns -> (forall m' new v, In (m', new) upd -> ~ In ("solver", v) new) ->
  select_solver m upd c = Some JoinTypeError.
Proof.
  intros Hc Hp Hu. unfold select_solver. rewrite Hp.
  assert (E : ns "solver" = Some PNone); [|rewrite E; reflexivity].
  revert Hp. unfold parse_args. destruct (forallb _ (c_main c)) eqn:Hf; [|discriminate]. cbn [negb]. rewrite Hc. destruct (c_sub c); [|discriminate]. intros E. injection E as <-.
  assert (Hno : forall l : list (string * pyval), (forall v, ~ In ("solver", v) l) -> assoc l "solver" = None).
  { apply (rev_ind (fun l => (forall v, ~ In ("solver", v) l) -> assoc l "solver" = None)); [reflexivity|].
    intros [k' v] l IH Hn. rewrite assoc_app. cbn [assoc fold_left fst snd]. destruct (String.eqb_spec k' "solver") as [->|_].
    - exfalso. apply (Hn v). apply in_or_app. right. left. reflexivity.
    - apply IH. intros w Hw. apply (Hn w). apply in_or_app. left. exact Hw. }
  rewrite (Hno (c_main c)).
  - unfold updated. rewrite Hno; [destruct m; reflexivity|]. intros v Hv. apply in_flat_map in Hv. destruct Hv as ([m' new] & H1 & H2).
    destruct (orb _ _); [apply (Hu m' new v H1 H2)|exact H2].
  - intros v Hv. rewrite forallb_forall in Hf. specialize (Hf _ Hv). cbn [fst] in Hf. rewrite String.eqb_refl, andb_false_r in Hf. discriminate.
Qed.

(** ** C31: callbacks.  [k] ranges over update, regression_test, additional_callback *)
Lemma setm_same ms s c : setm ms s c s = Some c.
Proof. unfold setm. rewrite String.eqb_refl. reflexivity. Qed.
Lemma setm_other ms s c s' : s' <> s -> setm ms s c s' = ms s'.
Proof. intros H. unfold setm. apply String.eqb_neq in H. rewrite H. reflexivity. Qed.
Lemma import_keeps fuel : forall ms s s' c, ms s' = Some c -> import_module fuel ms s s' = Some c.
Proof.
  induction fuel as [|fuel IH]; intros ms s s' c H; cbn [import_module]; destruct (ms s) eqn:E; auto.
  - destruct (string_dec s' s) as [->|Hn]; [congruence|]. destruct (star_parent s); rewrite setm_other; auto.
  - destruct (string_dec s' s) as [->|Hn]; [congruence|]. destruct (star_parent s); rewrite setm_other; auto.
Qed.
Lemma import_some fuel ms s : import_module fuel ms s s <> None.
Proof.
  destruct fuel; cbn [import_module]; destruct (ms s) eqn:E; try congruence; destruct (star_parent s); rewrite setm_same; discriminate.
Qed.
Lemma step_bound k ms g s b : bound k ms s = Some b ->
  bound k (get_solver_cbs ms g) s = Some (if string_dec (g_solver g) s then given (registered k g) b else b).
Proof.
  intros H. unfold bound in H. destruct (ms s) as [c|] eqn:E; [|discriminate]. injection H as <-.
  unfold get_solver_cbs, bound. pose proof (import_keeps 3 ms (g_solver g) s c E) as Ei.
  destruct (string_dec (g_solver g) s) as [Es|Hn].
  - rewrite Es in Ei |- *. rewrite setm_same, Ei. destruct k; reflexivity.
  - rewrite setm_other by congruence. rewrite Ei. reflexivity.
Qed.
Lemma step_first k ms g x : registered k g = Some x -> bound k (get_solver_cbs ms g) (g_solver g) = Some x.
Proof.
  intros H. unfold get_solver_cbs, bound. rewrite setm_same. destruct (import_module 3 ms (g_solver g) (g_solver g)); destruct k; cbn in H |- *; rewrite H; reflexivity.
Qed.

(** the callback registered last for a solver is the one solve() calls, until another is registered
    for the same solver: other solvers' registrations do not replace it *)
Theorem C31_latest k l1 g f l2 : registered k g = Some f ->
  (forall g', In g' l2 -> g_solver g' = g_solver g -> registered k g' = None) ->
  bound k (run_get_solver (l1 ++ g :: l2)) (g_solver g) = Some f.
Proof.
  intros Hg. unfold run_get_solver. rewrite fold_left_app. cbn [fold_left]. set (ms := fold_left get_solver_cbs l1 no_modules).
  intros H2. assert (H : bound k (get_solver_cbs ms g) (g_solver g) = Some f) by (apply step_first, Hg).
  revert H. generalize (get_solver_cbs ms g). clear ms. induction l2 as [|g' l2 IH]; intros ms H; [exact H|]. cbn [fold_left].
  apply IH; [intros; apply H2; [right; assumption|assumption]|]. rewrite (step_bound _ _ _ _ _ H).
  destruct (string_dec (g_solver g') (g_solver g)) as [E|_]; [|reflexivity]. rewrite (H2 g' (or_introl eq_refl) E). reflexivity.
Qed.

Lemma parent_table s p : star_parent s = Some p <-> In (s, p) star_imports.
Proof.
  unfold star_parent. split.
  - intros E. repeat match type of E with (if String.eqb s ?x then _ else _) = _ =>
      destruct (String.eqb_spec s x) as [->|_]; [injection E as <-; cbn; tauto|] end. discriminate E.
  - cbn. intros H. repeat (destruct H as [H|H]; [injection H as <- <-; reflexivity|]). destruct H.
Qed.
Definition defaulted (k : callback) (ms : modules) (s : string) : Prop := bound k ms s = None \/ bound k ms s = Some 0.
Lemma import_default k fuel : forall ms s t, defaulted k ms t -> (forall p, derives t p -> defaulted k ms p) ->
  defaulted k (import_module fuel ms s) t.
Proof.
  assert (Hset : forall ms s c t, (t <> s -> defaulted k ms t) -> (t = s -> defaulted k (fun _ => Some c) t) -> defaulted k (setm ms s c) t).
  { intros ms s c t H1 H2. unfold defaulted, bound. destruct (string_dec t s) as [->|Hn].
    - rewrite setm_same. apply (H2 eq_refl).
    - rewrite setm_other by exact Hn. apply (H1 Hn). }
  assert (Hd : forall t, defaulted k (fun _ => Some default_cbs) t).
  { intros t. right. destruct k; reflexivity. }
  induction fuel as [|fuel IH]; intros ms s t Ht Hp; cbn [import_module]; destruct (ms s) eqn:E; try exact Ht.
  - destruct (star_parent s); apply Hset; auto.
  - destruct (star_parent s) as [p|] eqn:Es; [|apply Hset; auto]. apply Hset.
    + intros _. apply IH; assumption.
    + intros ->. assert (Hq : defaulted k (import_module fuel ms p) p).
      { apply IH; [apply Hp, derives_1, parent_table, Es|]. intros q Hq. apply Hp. apply parent_table in Es. eapply derives_S; eassumption. }
      destruct (import_module fuel ms p p) as [c|] eqn:Ep; [|apply Hd].
      unfold defaulted, bound in Hq. rewrite Ep in Hq. exact Hq.
Qed.
Lemma derives_trans s p q : derives s p -> derives p q -> derives s q.
Proof. induction 1; intros H'; [eapply derives_S; eassumption|eapply derives_S; [eassumption|auto]]. Qed.
(** the default applies when neither the solver nor a solver module it is built on was given a callback *)
Theorem C31_default k l s : (forall g, In g l -> g_solver g = s \/ derives s (g_solver g) -> registered k g = None) ->
  (exists g, In g l /\ g_solver g = s) -> bound k (run_get_solver l) s = Some 0.
Proof.
  intros Hn Hs.
  assert (Hd : forall t, t = s \/ derives s t -> defaulted k (run_get_solver l) t).
  { clear Hs. revert Hn. apply (rev_ind (fun l => (forall g, In g l -> g_solver g = s \/ derives s (g_solver g) -> registered k g = None) ->
      forall t, t = s \/ derives s t -> defaulted k (run_get_solver l) t)).
    - intros _ t _. left. reflexivity.
    - intros g l' IH Hn t Ht. specialize (IH (fun g' Hg => Hn g' (in_or_app _ _ _ (or_introl Hg)))).
      unfold run_get_solver. rewrite fold_left_app. cbn [fold_left]. fold (run_get_solver l').
      assert (Hi : forall t, t = s \/ derives s t -> defaulted k (import_module 3 (run_get_solver l') (g_solver g)) t).
      { intros u Hu. apply import_default; [apply IH, Hu|]. intros p Hp. apply IH. right. destruct Hu as [->|Hu]; [exact Hp|eapply derives_trans; eassumption]. }
      unfold get_solver_cbs. destruct (string_dec t (g_solver g)) as [->|Hne].
      + specialize (Hi _ Ht). specialize (Hn g (in_or_app l' [g] g (or_intror (or_introl eq_refl))) Ht).
        unfold defaulted, bound in Hi |- *. rewrite setm_same. destruct (import_module 3 (run_get_solver l') (g_solver g) (g_solver g)) as [c|];
          destruct k; cbn [registered cb_update cb_regression cb_additional default_cbs] in *; rewrite Hn; cbn [given]; auto;
          (destruct Hi as [Hi|Hi]; [discriminate|right; exact Hi]).
      + unfold defaulted, bound in Hi |- *. rewrite setm_other by exact Hne. apply Hi, Ht. }
  destruct (Hd s (or_introl eq_refl)) as [E|E]; [|exact E]. exfalso. destruct Hs as (g & Hin & <-). apply in_split in Hin. destruct Hin as (l1 & l2 & ->).
  revert E. unfold run_get_solver. rewrite fold_left_app. cbn [fold_left]. clear. set (ms := fold_left get_solver_cbs l1 no_modules).
  assert (H : bound k (get_solver_cbs ms g) (g_solver g) <> None) by (unfold get_solver_cbs, bound; rewrite setm_same; discriminate).
  revert H. generalize (get_solver_cbs ms g). induction l2 as [|g' l2 IH]; intros ms' H; [exact H|]. cbn [fold_left]. apply IH.
  destruct (bound k ms' (g_solver g)) as [b|] eqn:E; [|contradiction]. rewrite (step_bound _ _ _ _ _ E). discriminate.
Qed.
(** otherwise a solver imported for the first time takes over the callbacks its parent module has at that moment *)
Theorem C31_leak_refuted k l s p f : In (s, p) star_imports -> bound k (run_get_solver l) s = None -> bound k (run_get_solver l) p = Some f ->
  forall g, g_solver g = s -> registered k g = None -> bound k (run_get_solver (l ++ [g])) s = Some f.
Proof.
  intros Hp Hs Hf g Hg Hk. apply parent_table in Hp. unfold run_get_solver. rewrite fold_left_app. cbn [fold_left]. fold (run_get_solver l). subst s.
  unfold get_solver_cbs, bound. rewrite setm_same. unfold bound in Hs, Hf.
  destruct (run_get_solver l (g_solver g)) eqn:E1; [discriminate|]. destruct (run_get_solver l p) as [c|] eqn:E2; [|discriminate].
  assert (Ei : import_module 3 (run_get_solver l) (g_solver g) (g_solver g) = Some c).
  { change (import_module 3 (run_get_solver l) (g_solver g)) with
     (match run_get_solver l (g_solver g) with Some _ => run_get_solver l | None => match star_parent (g_solver g) with
       | Some p => setm (import_module 2 (run_get_solver l) p) (g_solver g) (match import_module 2 (run_get_solver l) p p with Some c => c | None => default_cbs end)
       | None => setm (run_get_solver l) (g_solver g) default_cbs end end).
    rewrite E1, Hp, setm_same, (import_keeps 2 _ p p c E2). reflexivity. }
  rewrite Ei. injection Hf as <-. destruct k; cbn in Hk |- *; rewrite Hk; reflexivity.
Qed.

(** ** C56: the convection forms *)
Theorem C56_channel s conv : In s (advertised Channel) -> accepts_convection Channel conv = true -> getConvection s conv = ConvFound.
Proof.
  intros Hs Hc. cbn in Hc. rewrite !orb_true_iff, !String.eqb_eq in Hc.
  cbn in Hs; repeat (destruct Hs as [<-|Hs]; [repeat (destruct Hc as [->|Hc]; [reflexivity|]); discriminate|]); destruct Hs.
Qed.
Theorem C56_NS conv : accepts_convection Triply conv = true -> getConvection "NS" conv = ConvFound.
Proof. intros Hc. cbn in Hc. rewrite !orb_true_iff, !String.eqb_eq in Hc. repeat (destruct Hc as [->|Hc]; [reflexivity|]). discriminate. Qed.
(** triply periodic: never an unbound name; the forms a solver lacks raise NotImplementedError *)
Theorem C56_triply s conv : In s (advertised Triply) -> s <> "Bq" -> accepts_convection Triply conv = true ->
  (getConvection s conv = ConvFound <-> s = "NS" \/ s = "VV" /\ conv = "Vortex" \/ s = "MHD" /\ conv = "Divergence") /\
  (getConvection s conv <> ConvFound -> getConvection s conv = ConvNotImplemented).
Proof.
  intros Hs Hb Hc. cbn in Hc. rewrite !orb_true_iff, !String.eqb_eq in Hc.
  assert (Hs' : s = "NS" \/ s = "VV" \/ s = "MHD") 
    by (cbn in Hs; destruct Hs as [<-|[<-|[<-|[<-|[]]]]]; auto; contradiction Hb; reflexivity).
  assert (Hc' : conv = "Standard" \/ conv = "Divergence" \/ conv = "Skewed" \/ conv = "Vortex") 
    by (destruct Hc as [H|[H|[H|[H|H]]]]; auto; discriminate).
  destruct Hs' as [->|[->| ->]], Hc' as [->|[->|[->| ->]]]; cbn; (split; [split|]; intros H;
    try reflexivity; try discriminate; try contradiction; try tauto;
    repeat (destruct H as [H|H]; try discriminate); destruct H; discriminate).
Qed.
Theorem C56_doubly s : In s (advertised Doubly) -> getConvection s "Vortex" = ConvFound.
Proof. intros Hs. cbn in Hs; repeat (destruct Hs as [<-|Hs]; [reflexivity|]); destruct Hs. Qed.
(** the default convection form of a mesh is not usable with every solver of the mesh *)
Theorem C56_default_refuted : exists s, In s (advertised Triply) /\ default Triply "convection" = Some (PStr "Vortex") /\
  getConvection s "Vortex" = ConvNotImplemented.
Proof. exists "MHD". split; [cbn; tauto|]. split; reflexivity. Qed.
(** doubly periodic: proper substrings of 'Vortex' pass the command line and then fail with an unbound name *)
Theorem C56_substring_refuted : exists conv, accepts_convection Doubly conv = true /\
  forall s, In s (advertised Doubly) -> getConvection s conv = ConvUnbound.
Proof. exists "V". split; [reflexivity|]. intros s Hs. cbn in Hs; repeat (destruct Hs as [<-|Hs]; [reflexivity|]); destruct Hs. Qed.

(** ** Non-vacuity *)
Definition ev0 : string -> res R := fun s => if String.eqb s "2*pi" then Ok (2*PI)%R else Err EValue.
Definition hist0 : list pop :=
  [PSet "M" (PSeq [PInt 5; PStr "6"]); PSet "nu" (PFloat (/ 10)); PUpdate [("L", PSeq [PInt 4; PStr "2*pi"]); ("N", PSeq [PInt 10; PInt 12])]; PDel "N"].
Lemma acc0 : accepted ev0 (assignments hist0).
Proof.
  intros k v H. cbn in H. repeat (destruct H as [H|H]; [first [discriminate|injection H as <- <-; eexists; reflexivity]|]). destruct H.
Qed.
Lemma mv0 : mesh_value (PSeq [PInt 5; PStr "6"]) [5; 6]%Z.
Proof. eexists. split; [reflexivity|]. split; [|repeat constructor; discriminate]. constructor; [constructor|]. constructor; [apply (entry_str 6)|constructor]. Qed.
Example C27_example : getattr (fun x => x) (prun ev0 empty_dict hist0) "N" = Ok (PVecZ [32; 64]%Z).
Proof.
  apply (C27_N_from_M ev0 (fun x => x) hist0 (PSeq [PInt 5; PStr "6"]) [5; 6]%Z acc0).
  - right. exact (latest_here "N" [("M", Some (PSeq [PInt 5; PStr "6"])); ("nu", Some (PFloat (/ 10)));
      ("L", Some (PSeq [PInt 4; PStr "2*pi"])); ("N", Some (PSeq [PInt 10; PInt 12]))] None).
  - unfold last_set, assignments, hist0. cbn.
    set (hM := ("M", Some (PSeq [PInt 5; PStr "6"]))). set (hnu := ("nu", Some (PFloat (/ 10)))).
    set (hL := ("L", _)). set (hN := ("N", Some _)).
    apply (latest_before "M" [hM; hnu; hL; hN] "N" None); [discriminate|].
    apply (latest_before "M" [hM; hnu; hL] "N"); [discriminate|].
    apply (latest_before "M" [hM; hnu] "L"); [discriminate|].
    apply (latest_before "M" [hM] "nu"); [discriminate|]. apply (latest_here "M" []).
  - apply mv0.
  - repeat constructor; discriminate.
Qed.
Example C28_example : exists ns, parse_args Doubly [] (mkCmd [("M", PSeq [PInt 5; PStr "6"])] (Some "NS2D") []) = Some ns /\ ns "M" = Some (PSeq [PInt 5; PStr "6"]).
Proof. eexists. split; reflexivity. Qed.
Example C29_example : exists ns, parse_args Triply [(Triply, [("nu", PFloat (/ 20))]); (Triply, [("nu", PFloat (/ 30))])] (mkCmd [("T", PFloat 7%R)] (Some "MHD") [("eta", PFloat 3%R)]) = Some ns /\
  ns "nu" = Some (PFloat (/ 30)) /\ ns "T" = Some (PFloat 7%R) /\ ns "eta" = Some (PFloat 3%R) /\ ns "tstep" = Some (PInt 0) /\ declared_by_solver Triply (Some "MHD") "eta".
Proof. eexists. split; [reflexivity|]. repeat (split; [reflexivity|]). exists (PFloat (/ 100)%R). cbn. auto. Qed.
Example C31_example : bound CUpdate (run_get_solver [mkGs "NS" (Some 1) None None; mkGs "VV" None None (Some 2); mkGs "NS" (Some 3) None None]) "VV" = Some 1 /\
  bound CUpdate (run_get_solver [mkGs "NS" (Some 1) None None; mkGs "VV" None None (Some 2); mkGs "NS" (Some 3) None None]) "NS" = Some 3.
Proof. split; reflexivity. Qed.

Print Assumptions C27_N_explicit.
Print Assumptions C27_N_from_M.
Print Assumptions C27_precision.
Print Assumptions C27_M.
Print Assumptions C27_dx.
Print Assumptions C27_missing.
Print Assumptions C27_missing_refuted.
Print Assumptions C28_resolution.
Print Assumptions C28_stale_N_refuted.
Print Assumptions C29_value.
Print Assumptions C29_common.
Print Assumptions C29_solver_value.
Print Assumptions C29_solver_options.
Print Assumptions C29_cross_mesh_refuted.
Print Assumptions C29_solver_option_refuted.
Print Assumptions C30_advertised.
Print Assumptions C30_rejects.
Print Assumptions C30_Bq_refuted.
Print Assumptions C30_omitted_refuted.
Print Assumptions C31_latest.
Print Assumptions C31_default.
Print Assumptions C31_leak_refuted.
Print Assumptions C56_channel.
Print Assumptions C56_NS.
Print Assumptions C56_triply.
Print Assumptions C56_doubly.
Print Assumptions C56_default_refuted.
Print Assumptions C56_substring_refuted.
