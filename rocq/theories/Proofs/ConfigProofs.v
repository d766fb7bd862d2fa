From Coq Require Import Reals ZArith List String Bool Lia DecimalString.
From Coq Require Decimal DecimalZ DecimalFacts.
From Verif Require Import Model.Config Spec.History.
Import ListNotations.
Open Scope string_scope.

Lemma int_str z : py_int_str (py_str_int z) = Some z.
Proof.
  unfold py_int_str, py_str_int. rewrite NilZero.isi.
  - cbn. rewrite DecimalZ.of_to. reflexivity.
  - unfold Z.to_int. destruct z as [|p|p]; try discriminate; intros E; injection E as E.
    pose proof (DecimalPos.Unsigned.to_uint_nonnil p). contradiction.
  - unfold Z.to_int. destruct z as [|p|p]; try discriminate; intros E; injection E as E.
    pose proof (DecimalPos.Unsigned.to_uint_nonnil p). contradiction.
Qed.
Lemma entry_to_int v z : mesh_entry v z -> to_int v = Ok z.
Proof. intros [y|y]; cbn; rewrite int_str; reflexivity. Qed.
Lemma entries_to_int l zs : Forall2 mesh_entry l zs -> mapM to_int l = Ok zs.
Proof. induction 1 as [|v z l zs Hv _ IH]; [reflexivity|]. cbn. rewrite (entry_to_int _ _ Hv), IH. reflexivity. Qed.
Lemma in_int64_spec z : in_int64 z = true <-> int64 z.
Proof. unfold in_int64, int64. rewrite andb_true_iff, Z.leb_le, Z.ltb_lt. tauto. Qed.
Lemma forallb_int64 zs : Forall int64 zs -> forallb in_int64 zs = true.
Proof. intros H. apply forallb_forall. intros z Hz. apply in_int64_spec. rewrite Forall_forall in H. apply H, Hz. Qed.

Section P.
Context (ev : string -> res R).
Lemma setitem_mesh d k v zs : k = "M" \/ k = "N" -> mesh_value v zs -> setitem ev d k v = Ok (put d k (PVecZ zs)).
Proof.
  intros Hk (l & -> & Hl & Hz). unfold setitem. replace (orb _ _) with true by (destruct Hk; subst; reflexivity).
  cbn [py_iter]. rewrite (entries_to_int _ _ Hl), (forallb_int64 _ Hz). reflexivity.
Qed.
(** what a successful assignment stores under its key *)
Definition stored (k : string) (v : pyval) : res pyval :=
  if orb (String.eqb k "M") (String.eqb k "N") then
    match py_iter v with
    | Err e => Err e
    | Ok l => match mapM to_int l with Err e => Err e | Ok zs => if forallb in_int64 zs then Ok (PVecZ zs) else Err EOverflow end
    end
  else if String.eqb k "L" then
    match py_iter v with
    | Err e => Err e
    | Ok l => match mapM (to_real ev) l with Err e => Err e | Ok xs => Ok (PVecR xs) end
    end
  else Ok v.
Lemma setitem_stored d k v : setitem ev d k v = match stored k v with Ok w => Ok (put d k w) | Err e => Err e end.
Proof.
  unfold setitem, stored. destruct (orb _ _).
  - destruct (py_iter v); [|reflexivity]. destruct (mapM _ _); [|reflexivity]. destruct (forallb _ _); reflexivity.
  - destruct (String.eqb k "L"); [|reflexivity]. destruct (py_iter v); [|reflexivity]. destruct (mapM _ _); reflexivity.
Qed.
(** a single assignment that succeeds *)
Definition assign1 (d : dict) (a : string * option pyval) : dict :=
  match snd a with
  | None => del d (fst a)
  | Some v => match stored (fst a) v with Ok w => put d (fst a) w | Err _ => d end
  end.
Definition succeeds (a : string * option pyval) : Prop := forall v, snd a = Some v -> exists w, stored (fst a) v = Ok w.
Lemma update_assign new : forall d, Forall succeeds (map (fun p => (fst p, Some (snd p))) new) ->
  update_items ev d new = (fold_left assign1 (map (fun p => (fst p, Some (snd p))) new) d, None).
Proof.
  induction new as [|[k v] new IH]; intros d H; [reflexivity|]. cbn [map] in H. inversion H as [|x l Hx Hl]; subst.
  cbn [update_items map fold_left]. rewrite setitem_stored. destruct (Hx v eq_refl) as [w Hw]. cbn [fst] in Hw. rewrite Hw.
  rewrite IH by exact Hl. replace (assign1 d _) with (put d k w); [reflexivity|]. unfold assign1. cbn [fst snd]. rewrite Hw. reflexivity.
Qed.
Lemma prun_assign l : forall d, Forall succeeds (assignments l) -> prun ev d l = fold_left assign1 (assignments l) d.
Proof.
  unfold prun, assignments. induction l as [|o l IH]; intros d H; [reflexivity|]. cbn [flat_map] in H.
  apply Forall_app in H. destruct H as [H1 H2]. cbn [fold_left flat_map]. rewrite fold_left_app, <- IH by exact H2. f_equal.
  destruct o as [k v|k|new]; cbn [papply assigns fold_left].
  - rewrite setitem_stored. unfold assign1. cbn [fst snd]. destruct (stored k v); reflexivity.
  - reflexivity.
  - cbn [assigns] in H1. rewrite (update_assign _ _ H1). reflexivity.
Qed.
Lemma assign_latest k l r d : latest k l r -> Forall succeeds l ->
  fold_left assign1 l d k = match r with
    | None => d k
    | Some None => None
    | Some (Some v) => match stored k v with Ok w => Some w | Err _ => None end
    end.
Proof.
  induction 1 as [|l v|l k' v r Hk Hl IH]; intros Hs; [reflexivity| |].
  - rewrite fold_left_app. cbn [fold_left]. unfold assign1 at 1. cbn [fst snd].
    apply Forall_app in Hs. destruct Hs as [_ Hs]. inversion Hs as [|x y Hx _]; subst.
    destruct v as [v|].
    + destruct (Hx v eq_refl) as [w Hw]. cbn [fst] in Hw. rewrite Hw. unfold put. rewrite String.eqb_refl. reflexivity.
    + unfold del. rewrite String.eqb_refl. reflexivity.
  - apply Forall_app in Hs. destruct Hs as [Hs1 _]. rewrite fold_left_app. cbn [fold_left]. rewrite <- (IH Hs1).
    unfold assign1 at 1. cbn [fst snd]. destruct v as [v|].
    + destruct (stored k' v); [|reflexivity]. unfold put. destruct (String.eqb_spec k k'); [congruence|reflexivity].
    + unfold del. destruct (String.eqb_spec k k'); [congruence|reflexivity].
Qed.
End P.

Lemma wrap64_id z : int64 z -> wrap64 z = z.
Proof. unfold int64, wrap64. intros H. rewrite Z.mod_small; lia. Qed.
Lemma pow_int64 z : (0 <= z <= 62)%Z -> int64 (2^z).
Proof.
  intros H. unfold int64. split; [pose proof (Z.pow_nonneg 2 z); lia|]. apply Z.pow_lt_mono_r; lia.
Qed.
Lemma two_pow_ok m : Forall (fun z => 0 <= z <= 62)%Z m -> two_pow m = Ok (PVecZ (map (fun z => 2^z)%Z m)).
Proof.
  intros H. unfold two_pow. replace (existsb _ m) with false.
  - f_equal. f_equal. apply map_ext_in. intros z Hz. rewrite Forall_forall in H. apply wrap64_id, pow_int64, H, Hz.
  - symmetry. apply not_true_is_false. intros E. apply existsb_exists in E. destruct E as (z & Hz & E). apply Z.ltb_lt in E.
    rewrite Forall_forall in H. specialize (H z Hz). lia.
Qed.

Lemma assoc_app l1 l2 k : assoc (l1 ++ l2) k = or_else (assoc l2 k) (assoc l1 k).
Proof.
  unfold assoc. rewrite fold_left_app. generalize (fold_left (fun a p => if String.eqb (fst p) k then Some (snd p) else a) l1 None) as a.
  induction l2 as [|[k' v] l2 IH]; intros a; [reflexivity|]. cbn [fold_left fst snd].
  rewrite IH. rewrite (IH (if String.eqb k' k then Some v else None)). destruct (String.eqb k' k); destruct (fold_left _ l2 None); reflexivity.
Qed.
Lemma latest_assoc l k r : latest k l r -> assoc l k = r.
Proof.
  induction 1 as [|l v|l k' v r Hk Hl IH]; [reflexivity| |]; rewrite assoc_app; cbn [assoc fold_left fst snd].
  - rewrite String.eqb_refl. reflexivity.
  - destruct (String.eqb_spec k' k); [congruence|exact IH].
Qed.
