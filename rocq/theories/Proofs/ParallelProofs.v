(** The ranks of solve() make the same collective calls and the same decisions. *)
From Coq Require Import Reals Lra List Bool Arith Lia.
From Verif Require Import Base.Sums Spec.Mpi Model.Integrators Model.Parallel Proofs.MpiProofs.
Import ListNotations.
Open Scope R_scope.

Section P.
Context {S M : Type} (net : nat -> (nat -> M) -> nat -> M) (n : nat).
Hypothesis Hn : (0 < n)%nat.
Notation wp := (wp net n).

Lemma wp_phases (phs : list (phase S M)) (P : (nat -> S) -> Prop) : (forall s, P s) -> forall s, wp P (fun i => run_phases i phs (s i)).
Proof.
  intros HP. induction phs as [|p phs IH]; intros s; simpl.
  - apply wp_return. apply HP.
  - eapply (wp_coll _ _ _ _ (fun i => RXch (ph_tag p) (ph_send p i (s i))) _
       (fun i => run_phases i phs (ph_recv p i (s i) (net (ph_tag p) (fun j => ph_send p j (s j)) i)))).
    + intros i Hi. reflexivity.
    + intros i Hi. eexists. split; [apply (ans_xch net n _ i (ph_tag p) (fun j => ph_send p j (s j))); reflexivity|reflexivity].
    + apply IH.
Qed.
Lemma wp_phases_then {A} (phs : list (phase S M)) (P : (nat -> A) -> Prop) (f : nat -> S -> prog M A) (s : nat -> S) : (forall s, wp P (fun i => f i (s i))) ->
  wp P (fun i => bind (run_phases i phs (s i)) (f i)).
Proof. intros H. eapply wp_bind; [apply (wp_phases phs (fun _ => True)); auto|]. intros; apply H. Qed.

Context (rhs_ph : list (phase S M)).
Section Ad.
Context (d : adaptive_code S).
Lemma wp_stages tstep dt is : forall s, wp (fun _ => True) (fun i => stages_prog rhs_ph d i tstep dt is (s i)).
Proof.
  induction is as [|i0 is IH]; intros s; simpl; [apply wp_return; auto|].
  destruct (orb _ _); [|apply IH].
  apply (wp_phases_then rhs_ph _ (fun i s => stages_prog rhs_ph d i tstep dt is (ad_store d i i0 s)) (fun i => ad_form d i i0 dt (s i))).
  intros s'. apply (IH (fun i => ad_store d i i0 (s' i))).
Qed.
Definition totals (s : nat -> S) (ks : list nat) : list R := map (fun k => RsumL (seq 0 n) (fun i => ad_nsq d i k (s i))) ks.
Lemma wp_reduce s ks : forall acc accR, acc 0%nat = map Some accR ->
  wp (fun l => l 0%nat = map Some (accR ++ totals s ks)) (fun i => reduce_prog d i ks (s i) (acc i) : prog M _).
Proof.
  induction ks as [|k ks IH]; intros acc accR H; simpl.
  - apply wp_return. rewrite app_nil_r. exact H.
  - eapply (wp_coll _ _ _ _ (fun i => RReduce OpSum (ad_nsq d i k (s i))) _
      (fun i => reduce_prog d i ks (s i) (acc i ++ [if Nat.eqb i 0 then Some (RsumL (seq 0 n) (fun i => ad_nsq d i k (s i))) else None]))).
    + intros i Hi. reflexivity.
    + intros i Hi. eexists. split; [apply (ans_reduce net n _ i OpSum (fun i => ad_nsq d i k (s i))); reflexivity|reflexivity].
    + eapply wp_mono; [|apply (IH _ (accR ++ [RsumL (seq 0 n) (fun i => ad_nsq d i k (s i))]))].
      * intros l Hl. rewrite Hl. rewrite <- app_assoc. reflexivity.
      * simpl. rewrite H, map_app. reflexivity.
Qed.
Lemma all_some_map l : all_some (map Some l) = Some l.
Proof. induction l as [|x l IH]; simpl; [reflexivity|]. rewrite IH. reflexivity. Qed.
Definition est_global (s : nat -> S) : R := est_value (totals s (seq 0 (ad_comps d))) (ad_size d 0).
Lemma wp_est s : wp (fun e => forall i, (i < n)%nat -> e i = est_global s) (fun i => est_prog d i (s i) : prog M _).
Proof.
  unfold est_prog. eapply wp_bind.
  - apply (wp_reduce s (seq 0 (ad_comps d)) (fun _ => []) []). reflexivity.
  - intros l Hl. simpl in Hl.
    set (x := fun i => if Nat.eqb i 0 then Some (est_global s) else None).
    apply (wp_ext _ _ _ (fun i => Coll (RBcast (x i)) (fun v => match v with VBcast e => Ret e | _ => Crash end))).
    { intros i Hi. unfold x. destruct (Nat.eqb_spec i 0) as [->|]; [|reflexivity]. rewrite Hl, all_some_map. reflexivity. }
    eapply (wp_coll _ _ _ _ (fun i => RBcast (x i)) _ (fun i => Ret (est_global s))).
    + intros; reflexivity.
    + intros i Hi. eexists. split; [apply (ans_bcast net n _ i x (est_global s)); reflexivity|reflexivity].
    + apply wp_return. auto.
Qed.
Definition same {A B} (a : nat -> A * B) : Prop := exists x, forall i, (i < n)%nat -> fst (a i) = x.
Lemma wp_adaptive fuel tstep : forall dt facmax hist s,
  wp same (fun i => adaptive_prog rhs_ph d fuel i tstep dt facmax hist (s i)).
Proof.
  induction fuel as [|fuel IH]; intros dt facmax hist s; simpl.
  - apply wp_return. exists (hist, None). reflexivity.
  - eapply wp_bind.
    { apply (wp_stages tstep dt (seq 0 (ad_s d)) (fun i => if ad_fsal d then ad_rotate d i (s i) else s i)). }
    intros s1 _. eapply wp_bind; [apply (wp_est (fun i => ad_new d i dt (s1 i)))|].
    intros e He.
    set (est := est_global (fun i => ad_new d i dt (s1 i))) in *.
    apply (wp_ext _ _ _ (fun i => if ad_adaptive d then
        if Rlt_dec 1 est then adaptive_prog rhs_ph d fuel i tstep (dt * factor facmax est) 1 (hist ++ [(dt, est)]) (ad_reject d i (ad_new d i dt (s1 i)))
        else Ret (hist ++ [(dt, est)], Some (dt * factor facmax est, dt), ad_accept d i (ad_new d i dt (s1 i)))
      else Ret (hist ++ [(dt, est)], Some (dt, dt), ad_accept d i (ad_new d i dt (s1 i))))).
    { intros i Hi. rewrite (He i Hi). reflexivity. }
    destruct (ad_adaptive d).
    + destruct (Rlt_dec 1 est).
      * apply (IH _ _ _ (fun i => ad_reject d i (ad_new d i dt (s1 i)))).
      * apply wp_return. eexists; intros; simpl; reflexivity.
    + apply wp_return. eexists; intros; simpl; reflexivity.
Qed.
End Ad.
Lemma wp_fixed local tstep dt is : forall s, wp (fun _ => True) (fun i => fixed_prog rhs_ph local i tstep dt is (s i)).
Proof.
  induction is as [|i0 is IH]; intros s; simpl; [apply wp_return; auto|].
  apply (wp_phases_then rhs_ph _ (fun i s => fixed_prog rhs_ph local i tstep dt is (local i i0 tstep dt s))).
  intros s'. apply (IH (fun i => local i i0 tstep dt (s' i))).
Qed.
Lemma wp_integrate g fuel tstep dt s : wp same (fun i => integrate_prog rhs_ph g fuel i tstep dt (s i)).
Proof.
  destruct g as [d|m local]; simpl; [apply wp_adaptive|].
  eapply wp_bind; [apply wp_fixed|]. intros s' _. apply wp_return. exists ([], Some (dt, dt)). reflexivity.
Qed.

Lemma wp_kill (f : file_code S M) tstep (s : nat -> S) : wp (fun k => exists b, forall i, (i < n)%nat -> k i = b) (fun i => kill_prog f i tstep (s i) : prog M _).
Proof.
  unfold kill_prog. eapply (wp_coll _ _ _ _ (fun i => RAllreduce (if fc_seen f i tstep (s i) then 1 else 0)%nat) _
     (fun i => Ret (Nat.ltb 0 (fold_right (fun j x => (if fc_seen f j tstep (s j) then 1 else 0) + x)%nat 0%nat (seq 0 n))))).
  - intros; reflexivity.
  - intros i Hi. eexists. split; [apply (ans_allreduce net n _ i (fun i => if fc_seen f i tstep (s i) then 1 else 0)%nat); reflexivity|reflexivity].
  - apply wp_return. eexists; intros; simpl; reflexivity.
Qed.
Lemma wp_hdf5 (f : file_code S M) opened t tstep (s : nat -> S) : wp same (fun i => hdf5_prog f i opened t tstep (s i)).
Proof.
  unfold hdf5_prog.
  eapply (wp_bind _ _ (fun _ => True)).
  { destruct opened; [apply wp_return; auto|apply wp_phases; auto]. }
  intros s1 _. eapply (wp_bind _ _ (fun _ => True)).
  { destruct (Nat.eqb _ 0); [apply wp_phases; auto|apply wp_return; auto]. }
  intros s2 _. eapply wp_bind; [apply wp_kill|]. intros k (b & Hk).
  apply (wp_ext _ _ _ (fun i => if orb (Nat.eqb (tstep mod fc_ck f) 0) b
      then bind (run_phases i (fc_ckpt f t tstep) (s2 i)) (fun s => Ret (b, s)) else Ret (b, s2 i))).
  { intros i Hi. rewrite (Hk i Hi). reflexivity. }
  destruct (orb _ _).
  - apply (wp_phases_then _ _ (fun i s => Ret (b, s))). intros s3. apply wp_return. exists b. reflexivity.
  - apply wp_return. exists b. reflexivity.
Qed.
Lemma wp_reduces {A} (P : (nat -> A) -> Prop) ops : forall (xs : nat -> list R) (p : nat -> prog M A),
  (forall i, (i < n)%nat -> length (xs i) = length ops) -> wp P p -> wp P (fun i => reduces (combine ops (xs i)) (p i)).
Proof.
  induction ops as [|op ops IH]; intros xs p Hl Hp; simpl.
  - exact Hp.
  - set (h := fun i => hd 0 (xs i)). set (tl := fun i => List.tl (xs i)).
    apply (wp_ext _ _ _ (fun i => reduces ((op, h i) :: combine ops (tl i)) (p i))).
    { intros i Hi. specialize (Hl i Hi). unfold h, tl. destruct (xs i); [discriminate|reflexivity]. }
    simpl. eapply (wp_coll _ _ _ _ (fun i => RReduce op (h i)) _ (fun i => reduces (combine ops (tl i)) (p i))).
    + intros; reflexivity.
    + intros i Hi. eexists. split; [apply (ans_reduce net n _ i op h); reflexivity|]. reflexivity.
    + apply IH; [|exact Hp]. intros i Hi. specialize (Hl i Hi). unfold tl. destruct (xs i); simpl in *; lia.
Qed.
Lemma wp_four {A} (P : (nat -> A) -> Prop) o1 o2 o3 o4 (a b c d : nat -> R) (p : nat -> prog M A) : wp P p ->
  wp P (fun i => reduces [(o1, a i); (o2, b i); (o3, c i); (o4, d i)] (p i)).
Proof. intros H. apply (wp_reduces P [o1; o2; o3; o4] (fun i => [a i; b i; c i; d i]) p); auto. Qed.
Lemma wp_profile {A} (P : (nat -> A) -> Prop) m : forall (items : nat -> list (R * R)) (p : nat -> prog M A),
  (forall i, (i < n)%nat -> length (items i) = m) -> wp P p -> wp P (fun i => profile_prog (items i) (p i)).
Proof.
  induction m as [|m IH]; intros items p Hl Hp.
  - apply (wp_ext _ _ _ p); [|exact Hp]. intros i Hi. specialize (Hl i Hi). destruct (items i); [reflexivity|discriminate].
  - set (h := fun i => hd (0, 0) (items i)). set (tl := fun i => List.tl (items i)).
    apply (wp_ext _ _ _ (fun i => reduces [(OpMin, fst (h i)); (OpMax, fst (h i)); (OpMin, snd (h i)); (OpMax, snd (h i))] (profile_prog (tl i) (p i)))).
    { intros i Hi. specialize (Hl i Hi). unfold h, tl. destruct (items i) as [|[x y] l]; [discriminate|reflexivity]. }
    apply wp_four. apply IH; [|exact Hp]. intros i Hi. specialize (Hl i Hi). unfold tl. destruct (items i); simpl in *; lia.
Qed.

Context (c : solve_code S M) (rnd : R -> R) (eps T : R).
(** with make_profile: all ranks have called equally many of the listed methods *)
Hypothesis Hprof : forall f, sc_profile c = Some f -> exists m, forall i s, length (f i s) = m.

Lemma wp_finish dt_in t tstep opened hist s : wp same (fun i => finish_prog c i dt_in t tstep opened hist (s i)).
Proof.
  unfold finish_prog, final_prog.
  apply (wp_ext _ _ _ (fun i => reduces [(OpMin, fst (sc_times c i (s i))); (OpMin, snd (sc_times c i (s i)));
                                         (OpMax, fst (sc_times c i (s i))); (OpMax, snd (sc_times c i (s i)))]
      (let p := bind (run_phases i (sc_regression c) (s i)) (fun s =>
       if opened then bind (run_phases i (fc_close (sc_file c)) s) (fun s => Ret (mkDec Finished t dt_in tstep hist, s))
       else Ret (mkDec NoFile t dt_in tstep hist, s)) in
      match sc_profile c with Some items => profile_prog (items i (s i)) p | None => p end))).
  { intros i Hi. destruct (sc_times c i (s i)); reflexivity. }
  apply wp_four. cbv zeta.
  assert (H : wp same (fun i => bind (run_phases i (sc_regression c) (s i)) (fun s =>
       if opened then bind (run_phases i (fc_close (sc_file c)) s) (fun s => Ret (mkDec Finished t dt_in tstep hist, s))
       else Ret (mkDec NoFile t dt_in tstep hist, s)))).
  { apply (wp_phases_then _ _ (fun i s => if opened then bind (run_phases i (fc_close (sc_file c)) s) (fun s => Ret (mkDec Finished t dt_in tstep hist, s))
       else Ret (mkDec NoFile t dt_in tstep hist, s))). intros s1. destruct opened.
    - apply (wp_phases_then _ _ (fun i s => Ret (mkDec Finished t dt_in tstep hist, s))). intros s2. apply wp_return. eexists; intros; simpl; reflexivity.
    - apply wp_return. eexists; intros; simpl; reflexivity. }
  destruct (sc_profile c) as [f|] eqn:E; [|exact H]. destruct (Hprof f eq_refl) as (m & Hm).
  apply (wp_profile _ m (fun i => f i (s i))); auto.
Qed.
Lemma wp_loop fuel afuel dt_in : forall t dt tstep opened hist s,
  wp same (fun i => loop_prog rhs_ph c rnd eps T fuel afuel i dt_in t dt tstep opened hist (s i)).
Proof.
  induction fuel as [|fuel IH]; intros t dt tstep opened hist s; simpl.
  - apply wp_return. eexists; intros; simpl; reflexivity.
  - destruct (Rle_dec _ _) as [Hle|]; [|apply wp_finish].
    eapply wp_bind; [apply wp_integrate|]. intros r ([tr res] & Hr).
    set (s1 := fun i => snd (r i)).
    apply (wp_ext _ _ _ (fun i => match res with
      | None => Ret (mkDec OutOfFuel t dt tstep (hist ++ [tr]), s1 i)
      | Some (dt, took) =>
        bind (run_phases i (sc_update c (rnd (t + took)) (Datatypes.S tstep)) (s1 i)) (fun s =>
        bind (hdf5_prog (sc_file c) i opened (rnd (t + took)) (Datatypes.S tstep) s) (fun r =>
        let '(kill, s) := r in
        if kill then Ret (mkDec Killed (rnd (t + took)) dt (Datatypes.S tstep) (hist ++ [tr]), s)
        else
          let s := sc_tick c i s in
          let '(brk, dt) := sc_end c (rnd (t + took)) dt in
          let s := sc_rot c i s in
          if brk then finish_prog c i dt_in (rnd (t + took)) (Datatypes.S tstep) true (hist ++ [tr]) s
          else loop_prog rhs_ph c rnd eps T fuel afuel i dt_in (rnd (t + took)) dt (Datatypes.S tstep) true (hist ++ [tr]) s))
      end)).
    { intros i Hi. specialize (Hr i Hi). unfold s1. destruct (r i) as [[tr' res'] s']. simpl in Hr. injection Hr as -> ->. reflexivity. }
    destruct res as [[dt' took]|].
    + set (t' := rnd (t + took)).
      eapply (wp_bind _ _ (fun _ => True)); [apply wp_phases; auto|]. intros s2 _.
      eapply wp_bind; [apply wp_hdf5|]. intros r2 (kill & Hk).
      set (s3 := fun i => snd (r2 i)).
      apply (wp_ext _ _ _ (fun i => if kill then Ret (mkDec Killed t' dt' (Datatypes.S tstep) (hist ++ [tr]), s3 i)
         else if fst (sc_end c t' dt')
          then finish_prog c i dt_in t' (Datatypes.S tstep) true (hist ++ [tr]) (sc_rot c i (sc_tick c i (s3 i)))
          else loop_prog rhs_ph c rnd eps T fuel afuel i dt_in t' (snd (sc_end c t' dt')) (Datatypes.S tstep) true (hist ++ [tr]) (sc_rot c i (sc_tick c i (s3 i))))).
      { intros i Hi. specialize (Hk i Hi). unfold s3. destruct (r2 i) as [k' s']. simpl in Hk. subst k'. destruct kill; [reflexivity|].
        destruct (sc_end c t' dt'); reflexivity. }
      destruct kill; [apply wp_return; eexists; intros; simpl; reflexivity|].
      destruct (fst (sc_end c t' dt')).
      * apply (wp_finish dt_in t' _ true _ (fun i => sc_rot c i (sc_tick c i (s3 i)))).
      * apply (IH t' _ _ true _ (fun i => sc_rot c i (sc_tick c i (s3 i)))).
    + apply wp_return. eexists; intros; simpl; reflexivity.
Qed.
End P.
