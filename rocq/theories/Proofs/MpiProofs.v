(** Lock-step execution of collective programs, and its relation to arbitrary schedules. *)
From Coq Require Import Reals List Arith Lia FunctionalExtensionality.
From Verif Require Import Base.Sums Spec.Mpi.
Import ListNotations.

Section Lock.
Context {M : Type} (net : nat -> (nat -> M) -> nat -> M) (n : nat).
Hypothesis Hn : (0 < n)%nat.

(** all ranks pass the same sequence of collective calls and return values satisfying P *)
Inductive wp {A} (P : (nat -> A) -> Prop) : (nat -> prog M A) -> Prop :=
  | wp_ret ps a : (forall i, (i < n)%nat -> ps i = Ret (a i)) -> P a -> wp P ps
  | wp_coll ps q k ps' : (forall i, (i < n)%nat -> ps i = Coll (q i) (k i)) ->
      (forall i, (i < n)%nat -> exists r, answer net n q i r /\ ps' i = k i r) -> wp P ps' -> wp P ps.

(** lock-step trace of length K *)
Inductive trace {A} (a : nat -> A) : nat -> (nat -> nat -> prog M A) -> Prop :=
  | tr_0 t : (forall i, (i < n)%nat -> t 0%nat i = Ret (a i)) -> trace a 0 t
  | tr_S K t q k : (forall i, (i < n)%nat -> t 0%nat i = Coll (q i) (k i)) ->
      (forall i, (i < n)%nat -> exists r, answer net n q i r /\ t 1%nat i = k i r) ->
      trace a K (fun m => t (S m)) -> trace a (S K) t.

Lemma wp_trace {A} (P : (nat -> A) -> Prop) ps : wp P ps ->
  exists a K t, P a /\ trace a K t /\ (forall i, t 0%nat i = ps i).
Proof.
  induction 1 as [ps a H HP|ps q k ps' H1 H2 H3 (a & K & t & HP & Ht & H0)].
  - exists a, 0%nat, (fun _ => ps). split; [exact HP|]. split; [constructor; auto|auto].
  - exists a, (S K), (fun m => match m with O => ps | S m => t m end). split; [exact HP|]. split; [|reflexivity].
    apply (tr_S _ _ _ q k); auto. intros i Hi. destruct (H2 i Hi) as (r & Hr & E). exists r. split; [exact Hr|]. rewrite H0. exact E.
Qed.

Lemma trace_at {A} (a : nat -> A) K t : trace a K t ->
  (forall i, (i < n)%nat -> t K i = Ret (a i)) /\
  (forall m, (m < K)%nat -> exists q k, (forall i, (i < n)%nat -> t m i = Coll (q i) (k i)) /\
     forall i, (i < n)%nat -> exists r, answer net n q i r /\ t (S m) i = k i r).
Proof.
  induction 1 as [t H|K t q k H1 H2 H3 [IH1 IH2]].
  - split; [exact H|]. intros m Hm; lia.
  - split; [exact IH1|]. intros [|m] Hm; [exists q, k; auto|]. apply (IH2 m). lia.
Qed.

Lemma answer_fun (q q' : nat -> req M) i r r' : (forall j, (j < n)%nat -> q j = q' j) -> (i < n)%nat ->
  answer net n q i r -> answer net n q' i r' ->
  r = r' \/ exists tag f f', r = VXch (net tag f i) /\ r' = VXch (net tag f' i) /\ (forall j, (j < n)%nat -> f j = f' j).
Proof.
  intros E Hi H H'. destruct H as [op f H|f v H Hv|f H|tag f H]; destruct H' as [op' f' H'|f' v' H' Hv'|f' H'|tag' f' H'];
    try (exfalso; pose proof (H 0%nat Hn) as G; rewrite (E 0%nat Hn), (H' 0%nat Hn) in G; discriminate).
  - left. assert (op = op') as <- by (pose proof (H 0%nat Hn) as G; rewrite (E 0%nat Hn), (H' 0%nat Hn) in G; congruence).
    assert (Ef : forall j, (j < n)%nat -> f j = f' j).
    { intros j Hj. pose proof (H j Hj) as G. rewrite (E j Hj), (H' j Hj) in G. congruence. }
    destruct (Nat.eqb i 0); [|reflexivity]. do 2 f_equal.
    assert (Ex : forall l, (forall j, In j l -> (j < n)%nat) ->
      RsumL l f = RsumL l f' /\ fold_right (fun i x => Rmin (f i) x) (f 0%nat) l = fold_right (fun i x => Rmin (f' i) x) (f' 0%nat) l /\
      fold_right (fun i x => Rmax (f i) x) (f 0%nat) l = fold_right (fun i x => Rmax (f' i) x) (f' 0%nat) l).
    { induction l as [|j l IH]; intros Hl; simpl; [rewrite (Ef 0%nat Hn); auto|].
      destruct IH as (I1 & I2 & I3); [intros; apply Hl; right; auto|]. rewrite (Ef j) by (apply Hl; left; auto).
      rewrite I1, I2, I3. auto. }
    destruct (Ex (seq 0 n)) as (I1 & I2 & I3); [intros j Hj; apply in_seq in Hj; lia|].
    destruct op; simpl; auto.
  - left. f_equal. pose proof (H 0%nat Hn) as G. rewrite (E 0%nat Hn), (H' 0%nat Hn) in G. congruence.
  - left. f_equal.
    assert (Ex : forall l, (forall j, In j l -> (j < n)%nat) ->
      fold_right (fun j x => f j + x)%nat 0%nat l = fold_right (fun j x => f' j + x)%nat 0%nat l).
    { induction l as [|j l IH]; intros Hl; simpl; auto. rewrite IH by (intros; apply Hl; right; auto). f_equal.
      assert (Hj : (j < n)%nat) by (apply Hl; left; auto). pose proof (H j Hj) as G. rewrite (E j Hj), (H' j Hj) in G. congruence. }
    apply Ex. intros j Hj; apply in_seq in Hj; lia.
  - right. assert (tag = tag') as <- by (pose proof (H 0%nat Hn) as G; rewrite (E 0%nat Hn), (H' 0%nat Hn) in G; congruence).
    exists tag, f, f'. repeat split; auto. intros j Hj. pose proof (H j Hj) as G. rewrite (E j Hj), (H' j Hj) in G. congruence.
Qed.

(** what a redistribution delivers depends on the messages of the n ranks only *)
Hypothesis net_local : forall tag f f' i, (forall j, (j < n)%nat -> f j = f' j) -> net tag f i = net tag f' i.

Lemma answer_det (q q' : nat -> req M) i r r' : (forall j, (j < n)%nat -> q j = q' j) -> (i < n)%nat ->
  answer net n q i r -> answer net n q' i r' -> r = r'.
Proof.
  intros E Hi H H'. destruct (answer_fun q q' i r r' E Hi H H') as [->|(tag & f & f' & -> & -> & Ef)]; [reflexivity|].
  f_equal. apply net_local. exact Ef.
Qed.

Section Any.
Context {A : Type} (a : nat -> A) (K : nat) (t : nat -> nat -> prog M A).
Hypothesis Ht : trace a K t.

Definition inv (c : aconf M A) : Prop :=
  (forall i, (i < n)%nat -> (a_pos c i <= K)%nat /\ a_prog c i = t (a_pos c i) i) /\
  (forall m j q, (j < n)%nat -> a_log c m j = Some q -> (m < K)%nat /\ (m <= a_pos c j)%nat /\ exists k, t m j = Coll q k) /\
  (forall m j, (j < n)%nat -> (m < a_pos c j)%nat -> a_log c m j <> None).
(** number of steps made *)
Definition steps_of (c : aconf M A) : nat :=
  list_sum (map (fun i => a_pos c i + (if a_log c (a_pos c i) i then S (a_pos c i) else a_pos c i))%nat (seq 0 n)).

Lemma list_sum_set (f g : nat -> nat) l i : NoDup l -> In i l -> (forall j, j <> i -> g j = f j) -> g i = S (f i) ->
  list_sum (map g l) = S (list_sum (map f l)).
Proof.
  intros Hnd Hin Hne Hi. induction l as [|j l IH]; [destruct Hin|]. inversion_clear Hnd as [|? ? Hni Hnd']. simpl.
  destruct Hin as [->|Hin].
  - rewrite Hi. rewrite (map_ext_in g f l); [lia|]. intros b Hb. apply Hne. intros ->. contradiction.
  - rewrite IH by auto. rewrite (Hne j) by (intros ->; contradiction). lia.
Qed.

Lemma inv_step c c' : inv c -> astep net n c c' -> inv c' /\ steps_of c' = S (steps_of c).
Proof.
  intros (I1 & I2 & I3) Hs. destruct (trace_at _ _ _ Ht) as (TK & Tm).
  assert (Hpos : forall i q k, (i < n)%nat -> a_prog c i = Coll q k -> (a_pos c i < K)%nat).
  { intros i q k Hi Hp. destruct (I1 i Hi) as (Hle & E). destruct (Nat.eq_dec (a_pos c i) K) as [Eq|]; [|lia].
    rewrite Hp, Eq, (TK i Hi) in E. discriminate. }
  assert (Leave : forall i r q k, (i < n)%nat -> a_prog c i = Coll q k -> a_log c (a_pos c i) i <> None -> t (S (a_pos c i)) i = k r ->
     inv (mkAconf (set (a_prog c) i (k r)) (set (a_pos c) i (S (a_pos c i))) (a_log c)) /\
     steps_of (mkAconf (set (a_prog c) i (k r)) (set (a_pos c) i (S (a_pos c i))) (a_log c)) = S (steps_of c)).
  { intros i r q k Hi Hp Hl Hk. pose proof (Hpos i q k Hi Hp) as HK.
    assert (Hlog : a_log c (S (a_pos c i)) i = None).
    { destruct (a_log c (S (a_pos c i)) i) as [q'|] eqn:E; [|reflexivity]. destruct (I2 _ _ _ Hi E) as (_ & G & _). lia. }
    split; [split; [|split]|].
    - intros j Hj. unfold set; simpl. destruct (Nat.eqb_spec j i) as [->|Hne]; [split; [lia|symmetry; exact Hk]|]. apply I1; auto.
    - simpl. intros m j q' Hj Hq. destruct (I2 m j q' Hj Hq) as (G1 & G2 & G3). split; [exact G1|]. split; [|exact G3].
      unfold set. destruct (Nat.eqb_spec j i) as [->|]; lia.
    - simpl. intros m j Hj Hm. unfold set in Hm. destruct (Nat.eqb_spec j i) as [->|]; [|apply I3; auto].
      destruct (Nat.eq_dec m (a_pos c i)) as [->|]; [exact Hl|]. apply I3; auto; lia.
    - unfold steps_of; simpl. apply (list_sum_set _ _ _ i); [apply seq_NoDup|apply in_seq; lia| |].
      + intros j Hj. unfold set. destruct (Nat.eqb_spec j i); [contradiction|reflexivity].
      + unfold set. rewrite Nat.eqb_refl, Hlog. destruct (a_log c (a_pos c i) i); [lia|congruence]. }
  destruct Hs as [i q k Hi Hp Hl|i q k qs r Hi Hp Hl Ha|i op x k Hi H0 Hp Hl|i x k v Hi Hp Hl Hv].
  - pose proof (Hpos i q k Hi Hp) as HK. destruct (I1 i Hi) as (_ & E). split; [split; [|split]|]; simpl.
    + exact I1.
    + intros m j q' Hj. unfold set. destruct (Nat.eqb_spec m (a_pos c i)) as [->|]; [|apply I2; auto].
      destruct (Nat.eqb_spec j i) as [->|]; [|apply I2; auto]. intros Hq. injection Hq as <-.
      split; [exact HK|]. split; [lia|]. exists k. congruence.
    + intros m j Hj Hm. unfold set. destruct (Nat.eqb_spec m (a_pos c i)) as [->|]; [|apply I3; auto].
      destruct (Nat.eqb_spec j i) as [->|]; [discriminate|apply I3; auto].
    + unfold steps_of; simpl. apply (list_sum_set _ _ _ i); [apply seq_NoDup|apply in_seq; lia| |].
      * intros j Hj. unfold set. destruct (Nat.eqb_spec (a_pos c j) (a_pos c i)) as [Eq|]; [|reflexivity].
        destruct (Nat.eqb_spec j i); [contradiction|]. rewrite Eq. reflexivity.
      * unfold set. rewrite !Nat.eqb_refl, Hl. lia.
  - apply (Leave i r q k Hi Hp); [rewrite (Hl i Hi); discriminate|].
    pose proof (Hpos i q k Hi Hp) as HK. destruct (Tm _ HK) as (q0 & k0 & T1 & T2).
    destruct (T2 i Hi) as (r0 & R1 & R2). destruct (I1 i Hi) as (_ & E). rewrite Hp, (T1 i Hi) in E. injection E as _ E.
    rewrite R2, E. f_equal. apply (answer_det q0 qs i); auto. intros j Hj.
    destruct (I2 _ j _ Hj (Hl j Hj)) as (_ & _ & k' & G). rewrite (T1 j Hj) in G. congruence.
  - apply (Leave i _ _ k Hi Hp); [rewrite Hl; discriminate|].
    pose proof (Hpos i _ k Hi Hp) as HK. destruct (Tm _ HK) as (q0 & k0 & T1 & T2).
    destruct (T2 i Hi) as (r0 & R1 & R2). destruct (I1 i Hi) as (_ & E). rewrite Hp, (T1 i Hi) in E. injection E as E1 E.
    rewrite R2, E. f_equal. destruct R1 as [op' f H|f v H Hv|f H|tag f H]; try (rewrite (H i Hi) in E1; discriminate).
    destruct (Nat.eqb_spec i 0); [contradiction|reflexivity].
  - apply (Leave i _ _ k Hi Hp); [rewrite Hl; discriminate|].
    pose proof (Hpos i _ k Hi Hp) as HK. destruct (Tm _ HK) as (q0 & k0 & T1 & T2).
    destruct (T2 i Hi) as (r0 & R1 & R2). destruct (I1 i Hi) as (_ & E). rewrite Hp, (T1 i Hi) in E. injection E as E1 E.
    destruct (I2 _ 0%nat _ Hn Hv) as (_ & _ & k' & G). rewrite (T1 0%nat Hn) in G. injection G as G _.
    rewrite R2, E. f_equal. destruct R1 as [op' f H|f v' H Hv'|f H|tag f H]; try (rewrite (H i Hi) in E1; discriminate).
    f_equal. rewrite (H 0%nat Hn) in G. congruence.
Qed.

Lemma minimum (f : nat -> nat) : exists i, (i < n)%nat /\ forall j, (j < n)%nat -> (f i <= f j)%nat.
Proof.
  revert Hn. clear. induction n as [|m IH]; intros H; [lia|]. destruct m as [|m].
  - exists 0%nat. split; [lia|]. intros j Hj. replace j with 0%nat by lia. lia.
  - destruct IH as (i & Hi & Hm); [lia|]. destruct (le_lt_dec (f i) (f (S m))) as [Hc|Hc].
    + exists i. split; [lia|]. intros j Hj. destruct (Nat.eq_dec j (S m)) as [->|]; [auto|]. apply Hm; lia.
    + exists (S m). split; [lia|]. intros j Hj. destruct (Nat.eq_dec j (S m)) as [->|]; [lia|]. specialize (Hm j ltac:(lia)). lia.
Qed.
Lemma all_or_one (P : nat -> bool) m : (forall j, (j < m)%nat -> P j = true) \/ exists j, (j < m)%nat /\ P j = false.
Proof.
  induction m as [|m [IH|(j & Hj & E)]]; [left; intros; lia| |right; exists j; split; [lia|auto]].
  destruct (P m) eqn:E; [left|right; exists m; auto]. intros j Hj. destruct (Nat.eq_dec j m) as [->|]; [auto|]. apply IH; lia.
Qed.

Lemma inv_progress c : inv c -> (forall i, (i < n)%nat -> a_prog c i = Ret (a i)) \/ exists c', astep net n c c'.
Proof.
  intros (I1 & I2 & I3). destruct (trace_at _ _ _ Ht) as (TK & Tm).
  destruct (minimum (a_pos c)) as (i & Hi & Hmin). destruct (Nat.eq_dec (a_pos c i) K) as [Eq|Hne].
  - left. intros j Hj. destruct (I1 j Hj) as (Hle & E). specialize (Hmin j Hj). rewrite E. replace (a_pos c j) with K by lia. auto.
  - right. assert (HK : (a_pos c i < K)%nat) by (destruct (I1 i Hi); lia).
    destruct (Tm _ HK) as (q & k & T1 & T2).
    destruct (all_or_one (fun j => match a_log c (a_pos c i) j with Some _ => true | None => false end) n) as [Hall|(j & Hj & Hl)].
    + destruct (T2 i Hi) as (r & R1 & R2). eexists. eapply (leave net n c i (q i) (k i) q r Hi); [|intros j Hj|exact R1].
      * destruct (I1 i Hi) as (_ & E). rewrite E. auto.
      * specialize (Hall j Hj). destruct (a_log c (a_pos c i) j) as [q'|] eqn:E; [|discriminate].
        destruct (I2 _ _ _ Hj E) as (_ & _ & k' & G). rewrite (T1 j Hj) in G. congruence.
    + destruct (a_log c (a_pos c i) j) as [q'|] eqn:E; [discriminate|].
      assert (Ej : a_pos c j = a_pos c i).
      { specialize (Hmin j Hj). destruct (Nat.eq_dec (a_pos c j) (a_pos c i)); [auto|]. exfalso. apply (I3 (a_pos c i) j Hj); [lia|auto]. }
      destruct (I1 j Hj) as (_ & Ep). eexists. apply (enter net n c j (q j) (k j) Hj); [rewrite Ep, Ej; auto|rewrite Ej; auto].
Qed.
End Any.

Theorem wp_always {A} (P : (nat -> A) -> Prop) ps : wp P ps -> exists a, P a /\ always_returns net n ps a.
Proof.
  intros H. destruct (wp_trace P ps H) as (a & K & t & HP & Ht & H0). exists a. split; [exact HP|].
  assert (Inv : forall m c, asteps net n m (astart ps) c -> inv K t c /\ steps_of c = m).
  { intros m c Hs. remember (astart ps) as c0 eqn:E0. induction Hs as [c|m c c' c'' Hs IH Hstep].
    - subst c. split.
      + split; [|split]; simpl.
        * intros i Hi. split; [lia|symmetry; apply H0].
        * discriminate.
        * intros; lia.
      + unfold steps_of; simpl. induction (seq 0 n); simpl; auto.
    - destruct (IH E0) as (I & E). destruct (inv_step a K t Ht c' c'' I Hstep) as (I' & E'). split; [exact I'|lia]. }
  exists (n * (S (2 * K)))%nat. intros m c Hs. destruct (Inv m c Hs) as (I & E). split; [|apply (inv_progress a K t Ht c I)].
  destruct I as (I1 & _). rewrite <- E. unfold steps_of.
  assert (G : forall l, (forall j, In j l -> (j < n)%nat) ->
    (list_sum (map (fun i => a_pos c i + (if a_log c (a_pos c i) i then S (a_pos c i) else a_pos c i)) l) <= length l * S (2 * K))%nat).
  { induction l as [|j l IH]; intros Hl; simpl; [lia|]. specialize (IH (fun b Hb => Hl b (or_intror Hb))).
    destruct (I1 j (Hl j (or_introl eq_refl))) as (Hle & _). destruct (a_log c (a_pos c j) j); simpl in *; lia. }
  specialize (G (seq 0 n)). rewrite seq_length in G. apply G. intros j Hj. apply in_seq in Hj. lia.
Qed.

(** composition *)
Lemma wp_ext {A} (P : (nat -> A) -> Prop) ps ps' : (forall i, (i < n)%nat -> ps i = ps' i) -> wp P ps -> wp P ps'.
Proof.
  intros E H. destruct H as [ps a H HP|ps q k ps1 H1 H2 H3].
  - apply (wp_ret _ _ a); auto. intros i Hi. rewrite <- E; auto.
  - apply (wp_coll _ _ q k ps1); auto. intros i Hi. rewrite <- E; auto.
Qed.
Lemma wp_bind {A B} (Q : (nat -> A) -> Prop) (P : (nat -> B) -> Prop) ps (f : nat -> A -> prog M B) :
  wp Q ps -> (forall a, Q a -> wp P (fun i => f i (a i))) -> wp P (fun i => bind (ps i) (f i)).
Proof.
  intros H Hf. induction H as [ps a H HQ|ps q k ps' H1 H2 H3 IH].
  - apply (wp_ext _ (fun i => f i (a i))); [|auto]. intros i Hi. rewrite (H i Hi). reflexivity.
  - apply (wp_coll _ _ q (fun i r => bind (k i r) (f i)) (fun i => bind (ps' i) (f i))); auto.
    + intros i Hi. rewrite (H1 i Hi). reflexivity.
    + intros i Hi. destruct (H2 i Hi) as (r & R1 & R2). exists r. split; [exact R1|]. rewrite R2. reflexivity.
Qed.
Lemma wp_mono {A} (P Q : (nat -> A) -> Prop) ps : (forall a, P a -> Q a) -> wp P ps -> wp Q ps.
Proof. intros HPQ H. induction H; [eapply wp_ret; eauto|eapply wp_coll; eauto]. Qed.
Lemma wp_return {A} (P : (nat -> A) -> Prop) a : P a -> wp P (fun i => Ret (a i)).
Proof. intros H. apply (wp_ret _ _ a); auto. Qed.
End Lock.
