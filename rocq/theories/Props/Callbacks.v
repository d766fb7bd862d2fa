(** What the update callbacks of the demos report (C75). *)
From Coq Require Import ZArith List Bool Lia.
From Verif Require Import Model.Callbacks Proofs.CallbackProofs.
Import ListNotations.
Open Scope Z_scope.

(** everything read for a diagnostic belongs to step n; diagnostic d is made *)
Definition current (n : Z) (s : ust) : Prop := forall d a z, In (d, a, z) (seen s) -> z = n.
Definition reports (d : diag) (s : ust) : Prop := exists a z, In (d, a, z) (seen s).
Lemma reports_iff d s : reports d s <-> existsb (fun x => diag_eqb d (fst (fst x))) (seen s) = true.
Proof. apply reports_b. Qed.
Lemma current_iff n s : current n s <-> forallb (fun x => snd x =? n) (seen s) = true.
Proof. apply current_b. Qed.
Ltac nz H := match type of H with ?p <> 0 => rewrite ?(proj2 (Z.eqb_neq p 0) H) end.
(** case distinction on a guard, keeping what it means *)
Ltac hit n p := let E := fresh "E" in let D := fresh "D" in
  destruct (n mod p =? 0) eqn:E; [assert (D : (p | n)) by (apply hits_divide; assumption)
    |assert (D : ~ (p | n)) by (rewrite <- hits_divide by assumption; congruence)]; clear E.
Ltac lt a b := let E := fresh "E" in destruct (Z.ltb_spec a b) as [E|E]; [|apply Z.le_ngt in E].
Ltac onread := repeat match goal with
  | H : _ \/ _ |- _ => destruct H as [H|H]; [injection H; intros; subst; clear H|]
  | H : False |- _ => destruct H
  end.
Ltac done := eexists; split; [norm; reflexivity|]; rewrite ?current_iff, ?reports_iff; evalu; intuition congruence.

Section C75.
Context (rank0 plt : bool) (n : Z) (s : ust).

Theorem C75_TG ns ce ps : ce <> 0 -> ps <> 0 ->
  exists s', update_TG rank0 plt n ns ce ps (enter s) = Ret tt s' /\ current n s' /\
    (reports Energy s' <-> (ce | n)) /\ (reports Plot s' <-> plt = true /\ rank0 = true /\ 0 < ps /\ (ps | n)).
Proof.
  intros Hc Hp.
  unfold update_TG, hits, pos. nz Hc. nz Hp.
  hit n ce; hit n ps; lt 0 ps; destruct plt; destruct rank0; destruct ns; done.
Qed.
(** a step number that no plot is wanted for cannot be 0: % raises; only without matplotlib and when the
    energy is due the test is not reached *)
Theorem C75_TG_zero ns ce : ce <> 0 ->
  (plt = true \/ ~ (ce | n)) -> exists s', update_TG rank0 plt n ns ce 0 (enter s) = Exc ZeroDivisionError s'.
Proof.
  intros Hc. unfold update_TG, hits, pos. nz Hc.
  hit n ce; destruct plt; destruct rank0; destruct ns; intros HH; first [runs|intuition congruence].
Qed.
Theorem C75_Vortices2D pr : pr <> 0 -> fig s = true \/ n = 1 ->
  exists s', update_Vortices2D n pr (enter s) = Ret tt s' /\ current n s' /\ (reports Plot s' <-> 0 < pr /\ (pr | n)).
Proof.
  intros Hp Hf.
  unfold update_Vortices2D, hits, pos. nz Hp. destruct (Z.eqb_spec n 1) as [E|E].
  - hit n pr; lt 0 pr; done.
  - destruct Hf as [Hf|]; [|contradiction]. unfold enter. rewrite Hf. hit n pr; lt 0 pr; done.
Qed.
Theorem C75_TG2D pr : pr <> 0 -> fig s = true \/ n = 1 ->
  exists s', update_TG2D plt n pr (enter s) = Ret tt s' /\ current n s' /\ (reports Plot s' <-> plt = true /\ 0 < pr /\ (pr | n)).
Proof.
  intros Hp Hf.
  unfold update_TG2D, hits, pos. nz Hp. destruct (Z.eqb_spec n 1) as [E|E].
  - hit n pr; lt 0 pr; destruct plt; done.
  - destruct Hf as [Hf|]; [|contradiction]. unfold enter. rewrite Hf. hit n pr; lt 0 pr; destruct plt; done.
Qed.
Theorem C75_KH pr ce : pr <> 0 -> ce <> 0 -> fig s = true \/ n = 1 ->
  exists s', update_KH n pr ce (enter s) = Ret tt s' /\ current n s' /\
    (reports Energy s' <-> (ce | n)) /\ (reports Plot s' <-> 0 < pr /\ (pr | n)).
Proof.
  intros Hp Hc Hf.
  unfold update_KH, hits, pos. nz Hp. nz Hc. destruct (Z.eqb_spec n 1) as [E|E].
  - hit n pr; hit n ce; lt 0 pr; done.
  - destruct Hf as [Hf|]; [|contradiction]. unfold enter. rewrite Hf. hit n pr; hit n ce; lt 0 pr; done.
Qed.
Theorem C75_KHB pr ce : pr <> 0 -> ce <> 0 -> fig s = true \/ n = 1 ->
  exists s', update_KHB n pr ce (enter s) = Ret tt s' /\ current n s' /\
    (reports Energy s' <-> (ce | n)) /\ (reports Plot s' <-> 0 < pr /\ (pr | n)).
Proof.
  intros Hp Hc Hf.
  unfold update_KHB, hits, pos. nz Hp. nz Hc. destruct (Z.eqb_spec n 1) as [E|E].
  - hit n pr; hit n ce; lt 0 pr; done.
  - destruct Hf as [Hf|]; [|contradiction]. unfold enter. rewrite Hf. hit n pr; hit n ce; lt 0 pr; done.
Qed.
(** the first plot after a restart (first step number > 1) has no figure *)
Theorem C75_restart_plot_refuted pr ce : fig s = false -> n <> 1 -> 0 < pr -> (pr | n) -> ce <> 0 ->
  (exists s', update_KH n pr ce (enter s) = Exc NoFigure s') /\
  (exists s', update_KHB n pr ce (enter s) = Exc NoFigure s') /\
  (exists s', update_Vortices2D n pr (enter s) = Exc NoFigure s') /\
  (forall ss pe, ss <> 0 -> pe <> 0 -> exists s', update_MKM true n ce pr ss pe (enter s) = Exc NoFigure s') /\
  (forall ss, ss <> 0 -> exists s', update_RB true n ce pr ss (enter s) = Exc NoFigure s').
Proof.
  intros Hf Hn Hp Hd Hc. assert (Hp0 : pr <> 0) by lia. apply (hits_divide n pr Hp0) in Hd. apply Z.ltb_lt in Hp. apply Z.eqb_neq in Hn.
  unfold update_KH, update_KHB, update_Vortices2D, update_MKM, update_RB, hits, pos, enter. nz Hc. nz Hp0. rewrite Hd, Hp, Hn, Hf.
  split; [|split; [|split; [|split]]].
  - hit n ce; runs.
  - runs.
  - runs.
  - intros ss pe Hs He. nz Hs. nz He. rewrite Z.mod_1_r. change (1 =? 0) with false. change (0 =? 0) with true. hit n ce; hit n ss; hit n pe; runs.
  - intros ss Hs. nz Hs. hit n ce; hit n ss; runs.
Qed.
Theorem C75_Vortices ps : 0 < ps -> fig s = true \/ n = 1 ->
  exists s', update_Vortices rank0 n ps (enter s) = Ret tt s' /\ current n s' /\
    (reports Plot s' <-> rank0 = true /\ (n = 1 \/ (ps | n))).
Proof.
  intros Hp Hf. assert (Hp0 : ps <> 0) by lia. apply Z.ltb_lt in Hp.
  unfold update_Vortices, hits, pos. nz Hp0. rewrite Hp. destruct (Z.eqb_spec n 1) as [E|E].
  - hit n ps; destruct rank0; done.
  - destruct Hf as [Hf|]; [|contradiction]. unfold enter. rewrite Hf. hit n ps; destruct rank0; done.
Qed.
(** a negative number does not switch plotting off: l.57 lacks the test of l.36, and curl is not assigned *)
Theorem C75_Vortices_off_refuted ps : ps < 0 -> (ps | n) -> n <> 1 -> fig s = true ->
  exists s', update_Vortices true n ps (enter s) = Exc UnboundLocalError s'.
Proof.
  intros Hp Hd Hn Hf. assert (Hp0 : ps <> 0) by lia. apply (hits_divide n ps Hp0) in Hd. apply Z.eqb_neq in Hn.
  assert (E : (0 <? ps) = false) by (apply Z.ltb_ge; lia).
  unfold update_Vortices, hits, pos, enter. nz Hp0. rewrite Hd, Hn, E, Hf. runs.
Qed.
Theorem C75_Iso ns ce ps cs : ce <> 0 -> ps <> 0 -> cs <> 0 ->
  exists s', update_Iso rank0 plt n ns ce ps cs (enter s) = Ret tt s' /\ current n s' /\
    (reports Energy s' <-> (ce | n)) /\ (reports Plot s' <-> plt = true /\ rank0 = true /\ 0 < ps /\ (ps | n)).
Proof.
  intros Hc Hp Hs.
  unfold update_Iso, hits, pos. nz Hc. nz Hp. nz Hs.
  hit n ce; hit n ps; hit n cs; lt 0 ps; destruct plt; destruct rank0; destruct ns; done.
Qed.
(** MKM: all but the contour plot of the first step, which shows the U[0] of before the step unless the
    velocity is due *)
Theorem C75_MKM ce pr ss pe : ce <> 0 -> pr <> 0 -> ss <> 0 -> pe <> 0 -> n <> 1 -> fig s = true ->
  exists s', update_MKM rank0 n ce pr ss pe (enter s) = Ret tt s' /\ current n s' /\
    (reports Energy s' <-> (ce | n)) /\ (reports Sample s' <-> (ss | n)) /\ reports Flux s' /\
    (reports Plot s' <-> rank0 = true /\ 0 < pr /\ (pr | n)).
Proof.
  intros Hc Hp Hs He Hn Hf.
  apply Z.eqb_neq in Hn. unfold update_MKM, hits, pos, enter. nz Hc. nz Hp. nz Hs. nz He. rewrite Hn, Hf, Z.mod_1_r. change (1 =? 0) with false. change (0 =? 0) with true.
  hit n ce; hit n pr; hit n ss; hit n pe; lt 0 pr; destruct rank0; done.
Qed.
Theorem C75_MKM_first ce pr ss pe : ce <> 0 -> ss <> 0 -> pe <> 0 -> n = 1 -> 0 < pr ->
  ~ (ce | 1) -> ~ (pr | 1) -> ~ (ss | 1) ->
  exists s', update_MKM true n ce pr ss pe (enter s) = Ret tt s' /\
    (In (Plot, U0, stamp s U0) (seen s') /\ In (Plot, U1, 1) (seen s')).
Proof.
  intros Hc Hs He -> Hp H1 H2 H3. assert (Hp0 : pr <> 0) by lia. apply Z.ltb_lt in Hp.
  rewrite <- (hits_divide 1 ce Hc), <- (hits_divide 1 pr Hp0), <- (hits_divide 1 ss Hs) in *.
  apply Bool.not_true_is_false in H1, H2, H3.
  unfold update_MKM, hits, pos, enter. nz Hc. nz Hp0. nz Hs. nz He. change (1 =? 1) with true. rewrite Hp, H1, H2, H3, Z.mod_1_r. change (1 =? 0) with false. change (0 =? 0) with true.
  destruct (1 mod pe =? 0); (eexists; split; [norm; reflexivity|]; norm; auto).
Qed.
Theorem C75_Laminar ps ce : ps <> 0 -> ce <> 0 ->
  exists s', update_Laminar rank0 n ps ce (enter s) = Ret tt s' /\ current n s' /\
    (reports Energy s' <-> (ce | n)) /\ (reports Plot s' <-> rank0 = true /\ 0 < ps).
Proof.
  intros Hp Hc.
  unfold update_Laminar, hits, pos. nz Hc. nz Hp.
  hit n ce; hit n ps; lt 0 ps; destruct rank0; done.
Qed.
Theorem C75_OS ps ce : ps <> 0 -> ce <> 0 -> (fig s = true \/ plt = false \/ ps < 0 \/ (ps | n)) ->
  exists s', update_OS rank0 plt n ps ce (enter s) = Ret tt s' /\ current n s' /\ (reports Energy s' <-> (ce | n)).
Proof.
  intros Hp Hc.
  assert (E : (0 <? ps) = negb (ps <? 0)) by (destruct (Z.ltb_spec 0 ps), (Z.ltb_spec ps 0); cbn; lia).
  unfold update_OS, hits, pos, enter. nz Hc. nz Hp. rewrite E.
  hit n ce; hit n ps; lt ps 0; destruct rank0; destruct plt; destruct (fig s); intros HH;
    first [done | exfalso; intuition congruence].
Qed.

(** ** RayleighBenard *)
(** prints and plots are current; the statistics are exactly those of the last refresh *)
Theorem C75_RB ce pr ss : ce <> 0 -> pr <> 0 -> ss <> 0 -> n <> 1 -> fig s = true ->
  exists s', update_RB rank0 n ce pr ss (enter s) = Ret tt s' /\ fig s' = true /\
    (reports Energy s' <-> (ce | n)) /\ (reports Sample s' <-> (ss | n)) /\
    (reports Plot s' <-> rank0 = true /\ 0 < pr /\ (pr | n)) /\
    (forall d a z, In (d, a, z) (seen s') -> d <> Sample -> z = n) /\
    (forall a z, In (Sample, a, z) (seen s') ->
       z = stamp s' a /\ ((ce | n) \/ 0 < pr /\ (pr | n) -> z = n) /\
       (~ (ce | n) /\ ~ (0 < pr /\ (pr | n)) -> z = stamp s a)) /\
    (~ (ss | n) \/ (ce | n) \/ 0 < pr /\ (pr | n) -> stamp s' U0 = n) /\
    ((ss | n) /\ ~ (ce | n) /\ ~ (0 < pr /\ (pr | n)) -> stamp s' = stamp s).
Proof.
  intros Hc Hp Hs Hn Hf.
  apply Z.eqb_neq in Hn. unfold update_RB, hits, pos, enter. nz Hc. nz Hp. nz Hs. rewrite Hn, Hf.
  hit n ce; hit n pr; hit n ss; lt 0 pr; destruct rank0;
    (eexists; split; [norm; reflexivity|]; rewrite ?reports_iff; evalu; repeat split; intros; onread; try tauto; try congruence).
Qed.
(** the same for a call that returns, in any step and with any figures *)
Lemma RB_reads ce pr ss s' : ce <> 0 -> pr <> 0 -> ss <> 0 -> update_RB rank0 n ce pr ss (enter s) = Ret tt s' ->
  ((ss | n) -> reports Sample s') /\
  (forall a z, In (Sample, a, z) (seen s') -> z = stamp s' a) /\
  (~ (ss | n) \/ (ce | n) \/ 0 < pr /\ (pr | n) -> forall a, a <> Curl -> a <> Pres -> stamp s' a = n) /\
  ((ss | n) /\ ~ (ce | n) /\ ~ (0 < pr /\ (pr | n)) -> forall a, stamp s' a = stamp s a).
Proof.
  intros Hc Hp Hs. rewrite reports_iff. unfold update_RB, hits, pos, enter. nz Hc. nz Hp. nz Hs.
  hit n ce; hit n pr; hit n ss; lt 0 pr; destruct rank0; destruct (n =? 1); destruct (fig s); norm; intros HH; inversion HH; subst s'; clear HH; norm;
    (split; [tauto|]; split; [intros a z Hi; onread; try discriminate; reflexivity|]; split; intros Hx a; [intros Ha Hb|]; destruct a; tauto).
Qed.
End C75.

(** RayleighBenard: statistics every ss >= 2 steps are those of the step before, unless an energy print or
    a plot is due in the same step *)
Theorem C75_RB_statistics_refuted rank0 writes ce pr ss n0 k s s' : ce <> 0 -> pr <> 0 -> 2 <= ss ->
  let n := n0 + Z.of_nat (S (S k)) in
  run (fun n => update_RB rank0 n ce pr ss) writes n0 (S (S k)) s = Ret tt s' ->
  (ss | n) -> ~ (ce | n) -> ~ (0 < pr /\ (pr | n)) ->
  reports Sample s' /\ forall a z, In (Sample, a, z) (seen s') -> a <> Curl -> a <> Pres -> z = n - 1.
Proof.
  intros Hc Hp Hs n Hr H1 H2 H3. assert (Hs0 : ss <> 0) by lia.
  cbn [run] in Hr. destruct (run _ _ _ k s) as [[] s0|]; [|discriminate].
  set (m := n0 + Z.of_nat (S k)) in *. fold n in Hr. assert (En : n = m + 1) by (unfold n, m; lia).
  destruct (update_RB rank0 m ce pr ss (enter s0)) as [[] s1|] eqn:E1; [|discriminate].
  destruct (RB_reads rank0 m s0 ce pr ss s1 Hc Hp Hs0 E1) as (_ & _ & R1 & _).
  assert (Hm : ~ (ss | m)).
  { intros D. destruct (Z.divide_sub_r ss n m H1 D) as [q Hq]. assert (n - m = 1) by lia. assert (q * ss = 1) by lia.
    assert (0 < q) by nia. nia. }
  assert (G : exists s2, (forall a, a <> Curl -> a <> Pres -> stamp s2 a = m) /\
     match update_RB rank0 n ce pr ss (enter s2) with
     | Ret _ s => if writes n then match refresh n (U3 ++ [Phi]) s with
                                   | Ret _ s'0 => Ret tt {| stamp := stamp s'0; fig := fig s'0; bound := []; seen := seen s |}
                                   | Exc e s => Exc e s end else Ret tt s
     | Exc e s => Exc e s
     end = Ret tt s').
  { destruct (writes m); [|exists s1; split; [intros; apply R1; auto|exact Hr]].
    cbn [refresh U3 app seq bind refresh1 skip ret] in Hr. eexists. split; [|exact Hr].
    intros a Ha Hb. cbn [stamp]. destruct a; cbn; reflexivity || contradiction. }
  clear Hr. destruct G as (s2 & G1 & Hr).
  destruct (update_RB rank0 n ce pr ss (enter s2)) as [[] s3|] eqn:E3; [|discriminate].
  destruct (RB_reads rank0 n s2 ce pr ss s3 Hc Hp Hs0 E3) as (R3 & R4 & _ & R5).
  assert (Es : seen s' = seen s3).
  { destruct (writes n); [|injection Hr as <-; reflexivity]. cbn in Hr. injection Hr as <-. reflexivity. }
  split.
  - destruct (R3 H1) as (a & z & H). exists a, z. rewrite Es. exact H.
  - intros a z Hi Ha Hb. rewrite Es in Hi. rewrite (R4 a z Hi), (R5 (conj H1 (conj H2 H3))), (G1 a Ha Hb). lia.
Qed.
(** with statistics in every step, each velocity is sampled ce times in a row *)
Theorem C75_RB_repeats_refuted rank0 ce pr k s s' : 0 < ce -> pr < 0 ->
  run (fun n => update_RB rank0 n ce pr 1) (fun _ => false) 0 k s = Ret tt s' ->
  forall a, a <> Curl -> a <> Pres -> stamp s' a = if Z.of_nat k <? ce then stamp s a else ce * (Z.of_nat k / ce).
Proof.
  intros Hc Hp. revert s'. induction k as [|k IH]; intros s' Hr a Ha Hb.
  - injection Hr as <-. destruct (Z.ltb_spec (Z.of_nat 0) ce); [reflexivity|lia].
  - cbn [run] in Hr. destruct (run _ _ _ k s) as [[] s0|]; [|discriminate]. specialize (IH s0 eq_refl a Ha Hb).
    replace (0 + Z.of_nat (S k)) with (Z.of_nat (S k)) in Hr by lia.
    destruct (update_RB rank0 (Z.of_nat (S k)) ce pr 1 (enter s0)) as [[] s1|] eqn:E1; [|discriminate]. injection Hr as ->.
    destruct (RB_reads rank0 _ s0 ce pr 1 s' ltac:(lia) ltac:(lia) ltac:(lia) E1) as (_ & _ & R1 & R2).
    assert (Hd : (1 | Z.of_nat (S k))) by apply Z.divide_1_l.
    destruct (Z.eq_dec (Z.of_nat (S k) mod ce) 0) as [E|E].
    + apply Z.mod_divide in E; [|lia]. rewrite R1 by auto. destruct E as [q Hq].
      assert (0 < q * ce) by lia. assert (0 < q) by nia. assert (ce <= q * ce) by nia.
      rewrite Hq, Z.div_mul by lia. destruct (Z.ltb_spec (q * ce) ce); lia.
    + assert (N : ~ (ce | Z.of_nat (S k))) by (rewrite <- Z.mod_divide by lia; exact E).
      rewrite R2 by (split; [exact Hd|split; [exact N|intros [? _]; lia]]). rewrite IH.
      assert (Q : Z.of_nat (S k) / ce = Z.of_nat k / ce).
      { pose proof (Z.mod_pos_bound (Z.of_nat (S k)) ce Hc) as B. pose proof (Z.div_mod (Z.of_nat (S k)) ce ltac:(lia)) as D.
        assert (K : Z.of_nat (S k) = Z.of_nat k + 1) by lia.
        apply Z.div_unique with (Z.of_nat (S k) mod ce - 1).
        - left. revert B E. generalize (Z.of_nat (S k) mod ce). clear. intros; lia.
        - revert D K. generalize (Z.of_nat (S k) mod ce), (Z.of_nat (S k) / ce), (Z.of_nat (S k)). clear. intros; lia. }
      rewrite Q. destruct (Z.ltb_spec (Z.of_nat k) ce), (Z.ltb_spec (Z.of_nat (S k)) ce); try reflexivity; [|lia].
      assert (Z.of_nat (S k) = ce) as Ek by lia. exfalso. apply E. rewrite Ek. apply Z.mod_same. lia.
Qed.
(** a run in which it happens: steps 1 to 7, energy every 10 steps, statistics every 7: the sample of step 7 is step 6 *)
Example C75_RB_nonvacuous : exists s', run (fun n => update_RB true n 10 (-1) 7) (fun _ => false) 0 7
    (mkU (fun _ => 0) false [] []) = Ret tt s' /\ In (Sample, U0, 6) (seen s').
Proof. eexists. split; [vm_compute; reflexivity|]. vm_compute. auto 12. Qed.
Example C75_nonvacuous : exists s', update_MKM true 200 100 200 200 1000 (mkU (fun _ => 199) true [] []) = Ret tt s' /\
  In (Sample, U0, 200) (seen s') /\ In (Energy, U2, 200) (seen s') /\ In (Plot, U1, 200) (seen s').
Proof. eexists. split; [vm_compute; reflexivity|]. vm_compute. auto 20. Qed.
Print Assumptions C75_TG.
Print Assumptions C75_TG_zero.
Print Assumptions C75_Vortices2D.
Print Assumptions C75_TG2D.
Print Assumptions C75_KH.
Print Assumptions C75_KHB.
Print Assumptions C75_restart_plot_refuted.
Print Assumptions C75_Vortices.
Print Assumptions C75_Vortices_off_refuted.
Print Assumptions C75_Iso.
Print Assumptions C75_MKM.
Print Assumptions C75_MKM_first.
Print Assumptions C75_Laminar.
Print Assumptions C75_OS.
Print Assumptions C75_RB.
Print Assumptions C75_RB_statistics_refuted.
Print Assumptions C75_RB_repeats_refuted.
