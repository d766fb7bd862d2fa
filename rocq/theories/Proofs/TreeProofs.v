From Coq Require Import QArith List Arith Lia.
From Verif Require Import Spec.Trees Model.BS5.
Import ListNotations.

(** Complete enumeration of forests with m vertices *)
Fixpoint forests (fuel m : nat) : list (list tree) :=
  match fuel with
  | O => match m with O => [[]] | _ => [] end
  | S f => match m with
           | O => [[]]
           | _ => flat_map (fun k => flat_map (fun ch => map (cons (Node ch)) (forests f (m - k)))
                                              (forests f (k - 1))) (seq 1 m)
           end
  end.
Definition trees (n : nat) : list tree := map Node (forests n (n - 1)).

Lemma order_Node ts : order (Node ts) = S (forest_order ts).
Proof. reflexivity. Qed.

Lemma forests_complete fuel : forall ts, (forest_order ts <= fuel)%nat ->
  In ts (forests fuel (forest_order ts)).
Proof.
  induction fuel as [|f IH]; intros ts H.
  - destruct ts as [|[ch] rest]; [left; reflexivity|].
    exfalso. cbn [forest_order fold_right] in H. rewrite order_Node in H. lia.
  - destruct ts as [|[ch] rest]; [left; reflexivity|].
    assert (E : forest_order (Node ch :: rest) = (S (forest_order ch) + forest_order rest)%nat)
      by (unfold forest_order at 1; cbn [fold_right]; rewrite order_Node; reflexivity).
    rewrite E in *.
    cbn [forests Nat.add]. apply in_flat_map. exists (S (forest_order ch)). split.
    + apply in_seq. lia.
    + apply in_flat_map. exists ch. split.
      * replace (S (forest_order ch) - 1)%nat with (forest_order ch) by lia. apply IH. lia.
      * apply in_map_iff. exists rest. split; [reflexivity|].
        replace (S (forest_order ch + forest_order rest) - S (forest_order ch))%nat
          with (forest_order rest) by lia. apply IH. lia.
Qed.
Lemma trees_complete t n : order t = n -> In t (trees n).
Proof.
  destruct t as [ts]. rewrite order_Node. intros <-. unfold trees.
  apply in_map. replace (S (forest_order ts) - 1)%nat with (forest_order ts) by lia.
  apply forests_complete. lia.
Qed.
Definition checkb A b t := Qeq_bool (dot b (Phi A t) * gamma t) 1.
Definition check_all A b p := forallb (fun n => forallb (checkb A b) (trees n)) (seq 1 p).
Lemma check_all_ok A b p : check_all A b p = true -> has_order A b p.
Proof.
  intros H t Ht. unfold check_all in H. rewrite forallb_forall in H.
  assert (H1 : (1 <= order t)%nat) by (destruct t; rewrite order_Node; lia).
  specialize (H (order t) ltac:(apply in_seq; lia)). rewrite forallb_forall in H.
  specialize (H t (trees_complete t _ eq_refl)). apply Qeq_bool_iff, H.
Qed.

Lemma BS5_order5 : has_order BS5_A BS5_b 5.
Proof. apply check_all_ok. vm_compute. reflexivity. Qed.
Lemma BS5_hat_order4 : has_order BS5_A BS5_bhat 4.
Proof. apply check_all_ok. vm_compute. reflexivity. Qed.
Lemma RK4_order4 : has_order RK4_A RK4_w 4.
Proof. apply check_all_ok. vm_compute. reflexivity. Qed.
(** the orders are sharp *)
Definition tall (n : nat) : tree := Nat.iter (n - 1) (fun t => Node [t]) (Node []).
Lemma BS5_not6 : ~ has_order BS5_A BS5_b 6.
Proof.
  intros H. specialize (H (tall 6) ltac:(cbn; lia)). apply Qeq_bool_iff in H.
  vm_compute in H. discriminate.
Qed.
Lemma BS5_hat_not5 : ~ has_order BS5_A BS5_bhat 5.
Proof.
  intros H. specialize (H (tall 5) ltac:(cbn; lia)). apply Qeq_bool_iff in H.
  vm_compute in H. discriminate.
Qed.
Lemma RK4_not5 : ~ has_order RK4_A RK4_w 5.
Proof.
  intros H. specialize (H (tall 5) ltac:(cbn; lia)). apply Qeq_bool_iff in H.
  vm_compute in H. discriminate.
Qed.
