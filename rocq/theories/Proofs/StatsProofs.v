(** Correctness of the statistics objects of the channel demos. *)
From Coq Require Import Reals Lra Lia List String Bool Arith.
From Verif Require Import Base.Sums Base.Fin Spec.Averages Model.Stats.
Import ListNotations.
Open Scope R_scope.
Open Scope list_scope.
Local Notation length := List.length.

Lemma write_rows_at R n N v d : (forall r, (r < R)%nat -> N r = n) ->
  forall r i, (r < R)%nat -> (i < n)%nat -> write_rows R N v d (r * n + i)%nat = v r i.
Proof.
  intros HN. induction R as [|R' IH]; intros r i Hr Hi; [lia|].
  simpl write_rows. rewrite (HN R') by lia.
  destruct (Nat.eq_dec r R') as [->|Hne].
  - replace (R' * n <=? R' * n + i)%nat with true by (symmetry; apply Nat.leb_le; lia).
    replace (R' * n + i <? n + R' * n)%nat with true by (symmetry; apply Nat.ltb_lt; nia).
    cbn [andb]. replace (R' * n + i - R' * n)%nat with i by lia. reflexivity.
  - replace (R' * n <=? r * n + i)%nat with false by (symmetry; apply Nat.leb_gt; nia).
    simpl. apply IH; [intros; apply HN; lia|lia|auto].
Qed.
Lemma fits_even R n N size : (forall r, (r < R)%nat -> N r = n) -> (R * n <= size)%nat -> fits R N size = true.
Proof.
  intros HN H. unfold fits. apply forallb_forall. intros r Hr. apply in_seq in Hr. apply Nat.leb_le.
  rewrite HN by lia. nia.
Qed.
Lemma divmod_plane I R n : (I < R * n)%nat -> exists r i, (r < R)%nat /\ (i < n)%nat /\ I = (r * n + i)%nat.
Proof.
  intros H. assert (n <> 0)%nat by (intros ->; lia). exists (I / n)%nat, (I mod n)%nat.
  split; [apply Nat.div_lt_upper_bound; lia|]. split; [apply Nat.mod_upper_bound; auto|].
  pose proof (Nat.div_mod I n). lia.
Qed.

Section Correct.
Context {Q : Type} (ev : Q -> sample -> option gfield) (created : list string) (written read : list (Q * string)) (eqq : Q -> Q -> bool).
Hypothesis Hread : read = written.
Hypothesis Hpath : NoDup (map snd written).
Hypothesis Hq : NoDup (map fst written).
Hypothesis Hcr : forall qp, In qp written -> existsb (String.eqb (snd qp)) created = true.
Hypothesis Heqq : forall a b, eqq a b = true <-> a = b.
Context (N0 Ny Nz : nat) (HNy : Ny <> 0%nat) (HNz : Nz <> 0%nat).

Definition total (q : Q) (L : list sample) (I : nat) : R :=
  RsumL L (fun s => match ev q s with Some f => Rsum Ny (fun j => Rsum Nz (fun k => f I j k)) | None => 0 end).
Definition geom (o : stats Q) : Prop :=
  o_Ny o = Ny /\ o_Nz o = Nz /\ o_M o = N0 /\
  exists n, (o_R o * n)%nat = N0 /\ forall r, (r < o_R o)%nat -> o_N o r = n /\ o_start o r = (r * n)%nat.
Definition objrel (o : stats Q) (L : list sample) (name : string) : Prop :=
  geom o /\ o_num o = length L /\ o_name o = name /\
  forall q r i, In q (map fst written) -> (r < o_R o)%nat -> (i < o_N o r)%nat -> o_acc o q r i = Some (total q L (o_start o r + i)%nat).
Definition avg (q : Q) (L : list sample) (I : nat) : R := total q L I / INR (length L * Ny * Nz).
Definition filerel (f : sfile) (L : list sample) : Prop :=
  f_size f = N0 /\ f_num f = Some (length L) /\ L <> [] /\
  forall q p, In (q, p) written -> exists d, f_data f p = Some d /\ forall I, (I < N0)%nat -> d I = Some (avg q L I).
Definition worldrel (w : sworld Q) (l : slog) : Prop :=
  (forall n, match l_obj l n with
     | Some (L, name) => exists o, w_objs w n = Some o /\ objrel o L name /\ (o_open o = true -> l_file l name <> None)
     | None => w_objs w n = None end) /\
  (forall n, match l_file l n with Some L => exists f, w_files w n = Some f /\ filerel f L | None => True end).

Lemma write_fold o n (l : list (Q * string)) : forall f, NoDup (map snd l) ->
  fits (o_R o) (o_N o) (f_size f) = true ->
  (forall qp, In qp l -> f_data f (snd qp) <> None) ->
  exists f', fold_left (write_path o n) l (Some f) = Some f' /\ f_size f' = f_size f /\ f_num f' = f_num f /\
    (forall q p, In (q, p) l -> exists d, f_data f' p = Some (write_rows (o_R o) (o_N o) (fun r i => ndiv (o_acc o q r i) n) d)) /\
    (forall p, ~ In p (map snd l) -> f_data f' p = f_data f p).
Proof.
  induction l as [|[q p] l IH]; intros f Hnd Hf Hd.
  - exists f. simpl. repeat split; auto. intros ? ? [].
  - change (fold_left (write_path o n) ((q, p) :: l) (Some f)) with (fold_left (write_path o n) l (write_path o n (Some f) (q, p))).
    pose proof (Hd (q, p) (or_introl eq_refl)) as Hp. simpl in Hp. destruct (f_data f p) as [d|] eqn:Ed; [|congruence].
    inversion_clear Hnd as [|? ? Hni Hnd'].
    set (f1 := mkSfile (f_size f) (fun p' => if String.eqb p' p
                     then Some (write_rows (o_R o) (o_N o) (fun r i => ndiv (o_acc o q r i) n) d) else f_data f p') (f_num f)).
    assert (W : write_path o n (Some f) (q, p) = Some f1) by (unfold write_path; simpl; rewrite Ed, Hf; reflexivity).
    rewrite W.
    destruct (IH f1 Hnd') as (f' & E1 & E2 & E3 & E4 & E5).
    + exact Hf.
    + intros qp Hin. unfold f1; simpl. destruct (String.eqb_spec (snd qp) p); [discriminate|]. apply Hd. right; auto.
    + exists f'. split; [exact E1|]. split; [exact E2|]. split; [exact E3|]. split.
      * intros q' p' [Heq|Hin]; [|eauto]. injection Heq as <- <-.
        rewrite (E5 p) by exact Hni. unfold f1; simpl. rewrite String.eqb_refl. eauto.
      * intros p' Hn. simpl in Hn. rewrite E5 by tauto. unfold f1; simpl. destruct (String.eqb_spec p' p); [subst; tauto|reflexivity].
Qed.

Lemma get_stats_rel fs o L name : objrel o L name -> L <> [] ->
  (o_open o = true -> exists f L', fs name = Some f /\ filerel f L') ->
  exists f o', get_stats created written fs o = Some (fun n => if String.eqb n name then Some f else fs n, o') /\
    filerel f L /\ objrel o' L name.
Proof.
  intros (Hg & Hn & Hna & Ha) HL Hop. unfold get_stats. rewrite Hna.
  destruct Hg as (G1 & G2 & G3 & n & G4 & G5).
  set (f0 := if o_open o then fs name else Some (create_statsfile created o)).
  assert (Hf0 : exists g, f0 = Some g /\ f_size g = N0 /\ forall qp, In qp written -> f_data g (snd qp) <> None).
  { unfold f0. destruct (o_open o).
    - destruct Hop as (f & L' & E & F1 & F2 & F3 & F4); auto. exists f. split; [exact E|]. split; [exact F1|].
      intros [q p] Hin. destruct (F4 q p Hin) as (d & E' & _). simpl. congruence.
    - exists (create_statsfile created o). split; [reflexivity|]. split; [exact G3|]. intros qp Hin. simpl. rewrite (Hcr _ Hin). discriminate. }
  destruct Hf0 as (g & Eg & Sg & Dg). rewrite Eg.
  destruct (write_fold o (Nd o) written g Hpath) as (f' & E1 & E2 & E3 & E4 & _); auto.
  { apply (fits_even _ n); [intros; apply G5; auto|]. lia. }
  rewrite E1. eexists; eexists. split; [reflexivity|]. split.
  - split; [simpl; congruence|]. split; [simpl; congruence|]. split; [exact HL|].
    intros q p Hin. destruct (E4 q p Hin) as (d & Ed). eexists. split; [exact Ed|].
    intros I HI. rewrite <- G4 in HI. destruct (divmod_plane _ _ _ HI) as (r & i & Hr & Hi & ->).
    rewrite (write_rows_at _ n) by (auto; intros; apply G5; auto).
    destruct (G5 r Hr) as (N1 & S1).
    rewrite Ha; [|apply (in_map fst _ _ Hin)|exact Hr|congruence]. rewrite S1.
    unfold ndiv, Nd, avg. rewrite Hn, G1, G2.
    assert (length L <> 0)%nat by (destruct L; simpl; congruence).
    replace (length L * Ny * Nz =? 0)%nat with false by (symmetry; apply Nat.eqb_neq; nia). reflexivity.
  - unfold objrel, geom. simpl. split; [|auto]. repeat split; auto. exists n; auto.
Qed.

Lemma accumulate_rel o L name s : objrel o L name -> objrel (accumulate ev o s) (L ++ [s]) name.
Proof.
  intros (Hg & Hn & Hna & Ha). split; [exact Hg|]. split; [simpl; rewrite app_length, Hn; simpl; lia|]. split; [exact Hna|].
  intros q r i Hin Hr Hi. simpl in *. unfold total. rewrite RsumL_app. fold (total q L (o_start o r + i)).
  rewrite (Ha q r i) by auto. destruct Hg as (G1 & G2 & _). rewrite G1, G2. simpl.
  destruct (ev q s); simpl; f_equal; ring.
Qed.

Lemma read_fold f n (l : list (Q * string)) : forall o, NoDup (map fst l) ->
  fits (o_R o) (o_N o) (f_size f) = true ->
  (forall qp, In qp l -> f_data f (snd qp) <> None) ->
  exists o', fold_left (fun o' qp => read_path f n o' eqq qp) l (Some o) = Some o' /\
    o_R o' = o_R o /\ o_N o' = o_N o /\ o_start o' = o_start o /\ o_Ny o' = o_Ny o /\ o_Nz o' = o_Nz o /\ o_M o' = o_M o /\
    o_num o' = o_num o /\ o_name o' = o_name o /\ o_open o' = o_open o /\
    (forall q p d r i, In (q, p) l -> f_data f p = Some d -> o_acc o' q r i = nmul (d (r * o_N o r + i)%nat) n) /\
    (forall q, ~ In q (map fst l) -> forall r i, o_acc o' q r i = o_acc o q r i).
Proof.
  induction l as [|[q p] l IH]; intros o Hnd Hf Hd.
  - exists o. simpl. repeat split; auto. intros ? ? ? ? ? [].
  - change (fold_left (fun o' qp => read_path f n o' eqq qp) ((q, p) :: l) (Some o))
      with (fold_left (fun o' qp => read_path f n o' eqq qp) l (read_path f n (Some o) eqq (q, p))).
    pose proof (Hd (q, p) (or_introl eq_refl)) as Hp. simpl in Hp. destruct (f_data f p) as [d|] eqn:Ed; [|congruence].
    inversion_clear Hnd as [|? ? Hni Hnd'].
    set (o1 := mkStats (o_R o) (o_N o) (o_start o) (o_Ny o) (o_Nz o) (o_M o) (o_num o)
               (fun q' r i => if eqq q' q then nmul (d (r * o_N o r + i)%nat) n else o_acc o q' r i) (o_name o) (o_open o)).
    assert (W : read_path f n (Some o) eqq (q, p) = Some o1) by (unfold read_path; simpl; rewrite Ed, Hf; reflexivity).
    rewrite W.
    destruct (IH o1 Hnd') as (o' & E1 & E2 & E3 & E4 & E5 & E6 & E7 & E8 & E9 & E10 & E11 & E12).
    + exact Hf.
    + intros qp Hin. apply Hd. right; auto.
    + exists o'. split; [exact E1|]. do 9 (split; [assumption|]). split.
      * intros q' p' d' r i [Heq|Hin] Ed'.
        { injection Heq as <- <-. rewrite E12 by exact Hni. unfold o1; simpl. rewrite (proj2 (Heqq q q) eq_refl). congruence. }
        { exact (E11 q' p' d' r i Hin Ed'). }
      * intros q' Hn r i. simpl in Hn. rewrite E12 by tauto. unfold o1; simpl.
        destruct (eqq q' q) eqn:Eq; [apply Heqq in Eq; subst; tauto|reflexivity].
Qed.

Lemma fromfile_rel fs o name f L : geom o -> fs name = Some f -> filerel f L ->
  exists o', fromfile read eqq fs o name = Some o' /\ objrel o' L name /\ o_open o' = true.
Proof.
  intros (G1 & G2 & G3 & n & G4 & G5) Ef (F1 & F2 & F3 & F4). unfold fromfile. rewrite Ef, F2, Hread.
  set (o1 := mkStats _ _ _ _ _ _ _ _ _ _).
  destruct (read_fold f (Nd o1) written o1 Hq) as (o' & E1 & E2 & E3 & E4 & E5 & E6 & E7 & E8 & E9 & E10 & E11 & _).
  - apply (fits_even _ n); [intros; apply G5; auto|]. simpl. lia.
  - intros [q p] Hin. destruct (F4 q p Hin) as (d & E & _). simpl. congruence.
  - exists o'. split; [exact E1|]. split; [|rewrite E10; reflexivity]. split.
    + unfold geom. rewrite E2, E3, E4, E5, E6, E7. simpl. repeat split; auto. exists n; auto.
    + split; [rewrite E8; reflexivity|]. split; [rewrite E9; reflexivity|].
      intros q r i Hin Hr Hi. rewrite E2 in Hr. rewrite E3 in Hi. simpl in Hr, Hi.
      apply in_map_iff in Hin as ([q' p] & <- & Hin). simpl. destruct (F4 q' p Hin) as (d & Ed & Hd).
      rewrite (E11 q' p d r i Hin Ed). simpl o_N. destruct (G5 r Hr) as (N1 & S1). rewrite N1 in *.
      rewrite Hd by nia. rewrite E4. simpl o_start. rewrite S1.
      unfold nmul, avg, Nd, o1; simpl. rewrite G1, G2. f_equal.
      assert (length L <> 0)%nat by (destruct L; simpl; congruence). field. apply not_0_INR. nia.
Qed.

Lemma worldrel_set_file w l n o L f name : worldrel w l ->
  objrel o L name -> filerel f L -> L <> [] ->
  worldrel (setobj w n o (fun m => if String.eqb m name then Some f else w_files w m)) (log_save (log_obj l n L name) n).
Proof.
  intros (Ho & Hf) Hob Hfi HL. unfold log_save, log_obj; simpl. rewrite Nat.eqb_refl. split; simpl.
  - intros m. destruct (Nat.eqb_spec m n) as [->|Hm].
    + exists o. repeat split; try apply Hob. rewrite String.eqb_refl. discriminate.
    + specialize (Ho m). destruct (l_obj l m) as [[L' n']|]; [|exact Ho]. destruct Ho as (o' & E & R1 & R2).
      exists o'. split; [exact E|]. split; [exact R1|]. intros H. destruct (String.eqb n' name); [discriminate|auto].
  - intros m. destruct (String.eqb m name).
    + exists f. split; [reflexivity|exact Hfi].
    + apply Hf.
Qed.
Lemma worldrel_set w l n o L name : worldrel w l -> objrel o L name -> (o_open o = true -> l_file l name <> None) ->
  worldrel (setobj w n o (w_files w)) (log_obj l n L name).
Proof.
  intros (Ho & Hf) Hob Hop. split; simpl.
  - intros m. destruct (Nat.eqb_spec m n) as [->|Hm]; [exists o; auto|]. apply Ho.
  - exact Hf.
Qed.
Lemma sstep_rel w l op : worldrel w l -> ok1 N0 Ny Nz l op ->
  exists w', sstep ev created written read eqq w op = Some w' /\ worldrel w' (track1 l op).
Proof.
  intros Hw Hok. pose proof Hw as (Ho & Hf). destruct op as [n R N start ny nz M name from|n s|n|n|n f]; simpl in Hok |- *.
  - destruct Hok as (-> & -> & -> & (m & Hm & Hr) & Hfr).
    assert (Hg : geom (new_stats R N start Ny Nz N0 name)).
    { unfold geom; simpl. repeat split; auto. exists m; auto. }
    destruct from as [f|].
    + specialize (Hf f). specialize (Hfr f eq_refl). unfold log_load. destruct (l_file l f) as [L|] eqn:El; [|congruence].
      destruct Hf as (sf & E & Hfi). destruct (fromfile_rel _ _ _ _ _ Hg E Hfi) as (o' & E' & R1 & R2). rewrite E'.
      eexists. split; [reflexivity|]. apply worldrel_set; auto. congruence.
    + eexists. split; [reflexivity|]. apply worldrel_set; auto; [|discriminate].
      split; [exact Hg|]. split; [reflexivity|]. split; [reflexivity|]. intros. reflexivity.
  - pose proof (Ho n) as Hn. destruct (l_obj l n) as [[L name]|] eqn:El; [|congruence].
    destruct Hn as (o & E & R1 & R2). rewrite E. unfold call.
    assert (HL : L ++ [s] <> []) by (destruct L; discriminate).
    destruct (get_stats_rel (w_files w) (accumulate ev o s) (L ++ [s]) name) as (f & o' & E1 & E2 & E3); auto using accumulate_rel.
    { intros H. specialize (R2 H). specialize (Hf name). destruct (l_file l name) as [L'|]; [|congruence].
      destruct Hf as (f & Ef & Hfi). eauto. }
    rewrite E1. eexists. split; [reflexivity|]. apply worldrel_set_file; auto.
  - destruct Hok as (s & L & name & El). pose proof (Ho n) as Hn. rewrite El in Hn.
    destruct Hn as (o & E & R1 & R2). rewrite E.
    destruct (get_stats_rel (w_files w) o (s :: L) name) as (f & o' & E1 & E2 & E3); auto; [discriminate| |].
    { intros H. specialize (R2 H). specialize (Hf name). destruct (l_file l name) as [L'|]; [|congruence].
      destruct Hf as (f & Ef & Hfi). eauto. }
    rewrite E1. eexists. split; [reflexivity|].
    pose proof (worldrel_set_file w l n o' (s :: L) f name Hw E3 E2 ltac:(discriminate)) as (W1 & W2).
    unfold log_save in *. rewrite El. simpl in *. rewrite Nat.eqb_refl in *. simpl in *. split; simpl.
    + intros m. specialize (W1 m). destruct (Nat.eqb_spec m n) as [Em|Hm]; [rewrite Em, El|]; exact W1.
    + exact W2.
  - pose proof (Ho n) as Hn. destruct (l_obj l n) as [[L name]|] eqn:El; [|congruence].
    destruct Hn as (o & E & R1 & R2). rewrite E. eexists. split; [reflexivity|]. apply worldrel_set; auto.
    destruct R1 as (Hg & _ & Hna & _). split; [exact Hg|]. split; [reflexivity|]. split; [exact Hna|]. intros. reflexivity.
  - destruct Hok as (Hok1 & Hok2). pose proof (Ho n) as Hn. destruct (l_obj l n) as [[L name]|] eqn:El; [|congruence].
    destruct Hn as (o & E & R1 & R2). rewrite E. specialize (Hf f). unfold log_load. destruct (l_file l f) as [L'|] eqn:Ef; [|congruence].
    destruct Hf as (sf & Ef' & Hfi). destruct (fromfile_rel _ _ _ _ _ (proj1 R1) Ef' Hfi) as (o' & E' & R3 & R4). rewrite E'.
    eexists. split; [reflexivity|]. apply worldrel_set; auto. congruence.
Qed.

Lemma sruns_rel ops : forall w l, worldrel w l -> ok_from N0 Ny Nz l ops ->
  exists w', sruns ev created written read eqq w ops = Some w' /\ worldrel w' (fold_left track1 ops l).
Proof.
  induction ops as [|op ops IH]; intros w l Hw Hok; simpl.
  - eauto.
  - destruct Hok as (H1 & H2). destruct (sstep_rel w l op Hw H1) as (w' & E & Hw'). rewrite E. auto.
Qed.
Lemma worldrel0 : worldrel sw0 log0.
Proof. split; intros n; simpl; auto. Qed.

Lemma avg_plane q L fs i : map (ev q) L = map Some fs -> avg q L i = plane_mean Ny Nz fs i.
Proof.
  intros H. assert (Hlen : length L = length fs) by (rewrite <- (map_length (ev q) L), H, map_length; reflexivity).
  unfold avg, plane_mean. rewrite !mult_INR, Hlen. f_equal. unfold total.
  clear Hlen. revert fs H. induction L as [|s L IH]; intros [|f fs] H; simpl in *; try discriminate; auto.
  injection H as H1 H2. rewrite H1, (IH fs H2). reflexivity.
Qed.
End Correct.
