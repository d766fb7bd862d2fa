(** C51, C65: the averages stored by the statistics objects of the channel demos. *)
From Coq Require Import Reals Lra Lia List String Bool Arith.
From Verif Require Import Base.Sums Base.Fin Spec.Averages Model.Stats Proofs.StatsProofs.
Import ListNotations.
Open Scope R_scope.
Open Scope list_scope.
Local Notation length := List.length.

Definition mkm_run := sruns mkm_ev mkm_created mkm_written mkm_read mkm_eqq sw0.
Definition rb_run := sruns rb_ev rb_created rb_written rb_read rb_eqq sw0.

Lemma nodup_snd {A B} (l : list (A * B)) a b p : NoDup (map snd l) -> In (a, p) l -> In (b, p) l -> a = b.
Proof.
  induction l as [|[x y] l IH]; simpl; intros Hnd Ha Hb; [contradiction|]. inversion_clear Hnd as [|? ? Hni Hnd'].
  destruct Ha as [Ha|Ha], Hb as [Hb|Hb]; [congruence| | |auto].
  - injection Ha as -> ->. apply (in_map snd) in Hb. contradiction.
  - injection Hb as -> ->. apply (in_map snd) in Ha. contradiction.
Qed.
Ltac notin := let H := fresh in intros H; simpl in H; repeat (destruct H as [H|H]; [discriminate H|]); exact H.

Lemma mkm_nodup_path : NoDup (map snd mkm_written).
Proof. simpl. repeat (apply NoDup_cons; [notin|]). apply NoDup_nil. Qed.
Lemma mkm_nodup_q : NoDup (map fst mkm_written).
Proof. simpl. repeat (apply NoDup_cons; [notin|]). apply NoDup_nil. Qed.
Lemma mkm_all_created qp : In qp mkm_written -> existsb (String.eqb (snd qp)) mkm_created = true.
Proof. simpl. intros H. repeat (destruct H as [H|H]; [subst; reflexivity|]). destruct H. Qed.
Lemma mkm_eqq_spec a b : mkm_eqq a b = true <-> a = b.
Proof.
  destruct a, b; simpl; try rewrite andb_true_iff; rewrite ?eqb3_spec; intuition congruence.
Qed.
Lemma rb_nodup_path : NoDup (map snd rb_written).
Proof. simpl. repeat (apply NoDup_cons; [notin|]). apply NoDup_nil. Qed.
Lemma rb_nodup_q : NoDup (map fst rb_written).
Proof. simpl. repeat (apply NoDup_cons; [notin|]). apply NoDup_nil. Qed.
Lemma rb_all_created qp : In qp rb_written -> existsb (String.eqb (snd qp)) rb_created = true.
Proof. simpl. intros H. repeat (destruct H as [H|H]; [subst; reflexivity|]). destruct H. Qed.
Lemma rb_eqq_spec a b : rb_eqq a b = true <-> a = b.
Proof.
  destruct a, b; simpl; try rewrite andb_true_iff; rewrite ?eqb3_spec; intuition congruence.
Qed.

(** every dataset is a quantity of the class *)
Ltac meant q := let H := fresh in intros H; injection H as <- <-; exists q; split; [simpl; tauto|reflexivity].
Lemma mkm_meaning p g : In (p, g) mkm_datasets -> exists q, In (q, p) mkm_written /\ forall s, mkm_ev q s = g s.
Proof.
  simpl. intros H.
  destruct H as [H|H]; [revert H; meant qP|]. destruct H as [H|H]; [revert H; meant (qU x0)|].
  destruct H as [H|H]; [revert H; meant (qU x1)|]. destruct H as [H|H]; [revert H; meant (qU x2)|].
  destruct H as [H|H]; [revert H; meant (qUU x0 x0)|]. destruct H as [H|H]; [revert H; meant (qUU x1 x1)|].
  destruct H as [H|H]; [revert H; meant (qUU x2 x2)|]. destruct H as [H|H]; [revert H; meant (qUU x0 x1)|].
  destruct H as [H|H]; [revert H; meant (qUU x0 x2)|]. destruct H as [H|H]; [revert H; meant (qUU x1 x2)|]. destruct H.
Qed.
Lemma rb_meaning p g : In (p, g) rb_datasets -> exists q, In (q, p) rb_written /\ forall s, rb_ev q s = g s.
Proof.
  simpl. intros H. destruct H as [H|H]; [revert H; meant rphi|]. destruct H as [H|H].
  { injection H as <- <-. exists rpp. split; [simpl; tauto|]. intros s. unfold rb_ev, sca2. destruct (sS s); reflexivity. }
  destruct H as [H|H]; [revert H; meant (rU x0)|].
  destruct H as [H|H]; [revert H; meant (rU x1)|]. destruct H as [H|H]; [revert H; meant (rU x2)|].
  destruct H as [H|H]; [revert H; meant (rUU x0 x0)|]. destruct H as [H|H]; [revert H; meant (rUU x1 x1)|].
  destruct H as [H|H]; [revert H; meant (rUU x2 x2)|]. destruct H as [H|H]; [revert H; meant (rUU x0 x1)|].
  destruct H as [H|H]; [revert H; meant (rUU x0 x2)|]. destruct H as [H|H]; [revert H; meant (rUU x1 x2)|]. destruct H.
Qed.

Section Claims.
Context (N0 Ny Nz : nat) (ops : list sop).
Hypothesis HNy : Ny <> 0%nat.
Hypothesis HNz : Nz <> 0%nat.
Hypothesis Hops : well_used N0 Ny Nz ops.

(** C51: no call fails, and every file holds the number of samples and the arithmetic means over
    all samples it stands for, whatever the order of sampling, saving, loading and resetting, the
    number of objects, runs and processes *)
Theorem C51_MKM : exists w, mkm_run ops = Some w /\
  forall name L, l_file (track ops) name = Some L -> exists f, w_files w name = Some f /\ f_num f = Some (length L) /\
    forall p g fs, In (p, g) mkm_datasets -> map g L = map Some fs ->
      exists d, f_data f p = Some d /\ forall i, (i < N0)%nat -> d i = Some (plane_mean Ny Nz fs i).
Proof.
  destruct (sruns_rel mkm_ev mkm_created mkm_written mkm_read mkm_eqq eq_refl mkm_nodup_path mkm_nodup_q mkm_all_created
     mkm_eqq_spec N0 Ny Nz HNy HNz ops sw0 log0 (worldrel0 _ _ _ _ _) Hops) as (w & E & _ & Hf).
  exists w. split; [exact E|]. intros name L HL. specialize (Hf name). unfold track in HL. rewrite HL in Hf.
  destruct Hf as (f & Ef & F1 & F2 & F3 & F4). exists f. split; [exact Ef|]. split; [exact F2|].
  intros p g fs Hin Hmap. destruct (mkm_meaning p g Hin) as (q & Hq & Hg). destruct (F4 q p Hq) as (d & Ed & Hd).
  exists d. split; [exact Ed|]. intros i Hi. rewrite (Hd i Hi). f_equal. apply avg_plane.
  rewrite <- Hmap. apply map_ext. exact Hg.
Qed.
Theorem C51_RB : exists w, rb_run ops = Some w /\
  forall name L, l_file (track ops) name = Some L -> exists f, w_files w name = Some f /\ f_num f = Some (length L) /\
    forall p g fs, In (p, g) rb_datasets -> map g L = map Some fs ->
      exists d, f_data f p = Some d /\ forall i, (i < N0)%nat -> d i = Some (plane_mean Ny Nz fs i).
Proof.
  destruct (sruns_rel rb_ev rb_created rb_written rb_read rb_eqq eq_refl rb_nodup_path rb_nodup_q rb_all_created
     rb_eqq_spec N0 Ny Nz HNy HNz ops sw0 log0 (worldrel0 _ _ _ _ _) Hops) as (w & E & _ & Hf).
  exists w. split; [exact E|]. intros name L HL. specialize (Hf name). unfold track in HL. rewrite HL in Hf.
  destruct Hf as (f & Ef & F1 & F2 & F3 & F4). exists f. split; [exact Ef|]. split; [exact F2|].
  intros p g fs Hin Hmap. destruct (rb_meaning p g Hin) as (q & Hq & Hg). destruct (F4 q p Hq) as (d & Ed & Hd).
  exists d. split; [exact Ed|]. intros i Hi. rewrite (Hd i Hi). f_equal. apply avg_plane.
  rewrite <- Hmap. apply map_ext. exact Hg.
Qed.
(** the arrays returned by get_stats with one process *)
Theorem C51_MKM_returned : exists w, mkm_run ops = Some w /\
  forall n L name, l_obj (track ops) n = Some (L, name) -> L <> [] ->
    exists o, w_objs w n = Some o /\ o_num o = length L /\ (o_R o = 1%nat ->
      forall q p g fs, In (q, p) mkm_written -> In (p, g) mkm_datasets -> map g L = map Some fs ->
      forall i, (i < N0)%nat -> returned o q i = Some (plane_mean Ny Nz fs i)).
Proof.
  destruct (sruns_rel mkm_ev mkm_created mkm_written mkm_read mkm_eqq eq_refl mkm_nodup_path mkm_nodup_q mkm_all_created
     mkm_eqq_spec N0 Ny Nz HNy HNz ops sw0 log0 (worldrel0 _ _ _ _ _) Hops) as (w & E & Ho & _).
  exists w. split; [exact E|]. intros n L name HL HN. specialize (Ho n). unfold track in HL. rewrite HL in Ho.
  destruct Ho as (o & Eo & ((G1 & G2 & G3 & m & G4 & G5) & O1 & O2 & O3) & _). exists o. split; [exact Eo|]. split; [exact O1|].
  intros HR q p g fs Hq Hp Hmap i Hi. rewrite HR in *. destruct (G5 0%nat) as (N1 & S1); [lia|].
  unfold returned. rewrite O3; [|apply (in_map fst _ _ Hq)|lia|lia]. rewrite S1. unfold ndiv, Nd. rewrite O1, G1, G2.
  assert (length L <> 0)%nat by (destruct L; simpl; congruence).
  replace (length L * Ny * Nz =? 0)%nat with false by (symmetry; apply Nat.eqb_neq; nia).
  f_equal. change (avg mkm_ev Ny Nz q L i = plane_mean Ny Nz fs i). apply avg_plane. rewrite <- Hmap. apply map_ext.
  destruct (mkm_meaning p g Hp) as (q' & Hq' & Hg).
  assert (q = q') as ->; [|exact Hg].
  exact (nodup_snd _ _ _ _ mkm_nodup_path Hq Hq').
Qed.
End Claims.

(** The hypotheses can be met: sampling on two processes, continued by a second run on one process *)
Definition smp (a : R) : sample := mkSample (fun _ _ _ _ => a) None.
Definition ex_ops : list sop :=
  [New 0 2 (fun _ => 1%nat) (fun r => r) 1 1 2 "s" None; Sample 0 (smp 1); Sample 0 (smp 2);
   New 1 1 (fun _ => 2%nat) (fun _ => 0%nat) 1 1 2 "t" (Some "s"%string); Sample 1 (smp 6)].
Example C51_example : well_used 2 1 1 ex_ops /\ l_file (track ex_ops) "s" = Some [smp 1; smp 2; smp 6] /\
  exists w f d, mkm_run ex_ops = Some w /\ w_files w "s"%string = Some f /\ f_data f "Average/U" = Some d /\ d 1%nat = Some 3.
Proof.
  assert (H : well_used 2 1 1 ex_ops).
  { unfold well_used, ex_ops. simpl. repeat split; try discriminate.
    - exists 1%nat. split; [reflexivity|]. intros r Hr. split; lia.
    - exists 2%nat. split; [reflexivity|]. intros r Hr. split; lia.
    - intros f Hf. injection Hf as <-. discriminate. }
  split; [exact H|]. split; [reflexivity|].
  destruct (C51_MKM 2 1 1 ex_ops ltac:(lia) ltac:(lia) H) as (w & E & HF).
  destruct (HF "s"%string _ eq_refl) as (f & Ef & _ & Hd).
  destruct (Hd "Average/U"%string (vel x0) (map (fun a _ _ _ => a) [1; 2; 6])) as (d & Ed & Hi); [simpl; auto|reflexivity|].
  exists w, f, d. repeat split; auto. rewrite (Hi 1%nat) by lia. f_equal. unfold plane_mean. simpl. field.
Qed.

(** C65: where the averages go wrong *)
(** row i of a dataset of a file after a run *)
Definition stored_row (w : option (sworld mkmq)) (name path : string) (i : nat) : option num :=
  match w with
  | Some w => match w_files w name with Some f => match f_data f path with Some d => Some (d i) | None => None end | None => None end
  | None => None
  end.
(** planes dealt out unevenly (4 planes on 3 processes, as the FFT library does): the slices
    rank*N .. (rank+1)*N are not the planes of the rank *)
Definition uN (r : nat) : nat := match r with 0 => 2 | _ => 1 end%nat.
Definition ustart (r : nat) : nat := match r with 0 => 0 | 1 => 2 | _ => 3 end%nat.
Definition usmp : sample := mkSample (fun _ i _ _ => INR (i + 1)) None.
Definition u_ops : list sop := [New 0 3 uN ustart 1 1 4 "s" None; Sample 0 usmp].
Theorem C65_uneven_planes_refuted :
  stored_row (mkm_run u_ops) "s" "Average/U" 3 = Some (Some 0) /\ plane_mean 1 1 [sU usmp x0] 3 = 4.
Proof. split; [vm_compute; reflexivity|]. unfold plane_mean; simpl. field. Qed.
(** a statistics file written without samples (get_stats after reset_stats): what is loaded from
    it is not a number and stays so *)
Definition n_ops : list sop := [New 0 1 (fun _ => 1%nat) (fun _ => 0%nat) 1 1 1 "s" None; Sample 0 (smp 1); Reset 0; Get 0;
   New 1 1 (fun _ => 1%nat) (fun _ => 0%nat) 1 1 1 "t" (Some "s"%string); Sample 1 (smp 1)].
Theorem C65_save_after_reset_refuted : stored_row (mkm_run n_ops) "s" "Average/U" 0 = Some None.
Proof. vm_compute; reflexivity. Qed.
(** samples without pressure count as pressure 0: the mean of the only pressure sample, 4, is not stored *)
Definition p_ops : list sop := [New 0 1 (fun _ => 1%nat) (fun _ => 0%nat) 1 1 1 "s" None;
  Sample 0 (mkSample (fun _ _ _ _ => 0) (Some (fun _ _ _ => 4))); Sample 0 (smp 0)].
Theorem C65_missing_pressure_refuted : stored_row (mkm_run p_ops) "s" "Average/P" 0 = Some (Some 2).
Proof.
  transitivity (Some (Some ((0 + (0 + (0 + 4))) / INR 2))); [vm_compute; reflexivity|]. do 2 f_equal. simpl. field.
Qed.
(** a mesh given by --N instead of --M: the datasets have 2**M[0] rows and the first write fails *)
Theorem C65_mesh_from_N_refuted : mkm_run [New 0 1 (fun _ => 6%nat) (fun _ => 0%nat) 1 1 4 "s" None; Sample 0 (smp 1)] = None.
Proof. vm_compute; reflexivity. Qed.

Print Assumptions C51_MKM.
Print Assumptions C51_RB.
Print Assumptions C51_MKM_returned.
Print Assumptions C65_uneven_planes_refuted.
Print Assumptions C65_save_after_reset_refuted.
Print Assumptions C65_missing_pressure_refuted.
Print Assumptions C65_mesh_from_N_refuted.
