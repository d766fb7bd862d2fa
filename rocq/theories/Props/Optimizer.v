(** Properties C32 and C58: dispatch to optimised kernels. *)
From Coq Require Import String List Bool Arith Lia.
From Verif Require Import Spec.Dispatch Model.Optimizer.
Import ListNotations.
Open Scope string_scope.

(** the names tried, in order *)
Definition candidates (name : string) (dim : nat) (solver : string) : list string :=
  [(if Nat.eqb dim 2 then name ++ "_2D" else name); name ++ "_" ++ solver].
Definition isusable (o : pyobj) : Prop := truthy o = true.

(** ** C32: for every registry, with config.mesh absent as in the shipped code: the wrapper runs the
    first usable candidate of the module registered for (optimization, precision), and the numpy
    function in every other case, including every missing or malformed setting. *)
Theorem C32_dispatch : forall glob opt prec dim solver name md,
  glob (opt ++ "_" ++ prec) = Some md ->
  let c := mkConfig glob (Some opt) (Some prec) (Some dim) (Some solver) None in
  (forall o, optimizer c name = Kernel o <-> first_usable md isusable (candidates name dim solver) o) /\
  (optimizer c name = Numpy <-> none_usable md isusable (candidates name dim solver)).
Proof.
  intros glob opt prec dim solver name md Hm c.
  unfold optimizer, lookup_fun, c, bind. cbn [c_optimization c_precision c_globals c_dim c_solver c_mesh]. rewrite Hm.
  unfold candidates. set (n1 := if Nat.eqb dim 2 then name ++ "_2D" else name). set (n2 := name ++ "_" ++ solver).
  replace (if Nat.eqb dim 2 then getattr md (name ++ "_2D") else getattr md name) with (getattr md n1)
    by (unfold n1; destruct (Nat.eqb dim 2); reflexivity).
  assert (G : forall n, truthy (getattr md n) = true -> md n = Some (getattr md n)).
  { intros n. unfold getattr. destruct (md n); [reflexivity|discriminate]. }
  assert (B : forall n, truthy (getattr md n) = false -> forall o, md n = Some o -> ~ isusable o).
  { intros n Hn o Ho. unfold getattr in Hn. rewrite Ho in Hn. unfold isusable. congruence. }
  assert (U : forall n o, md n = Some o -> getattr md n = o) by (intros n o Ho; unfold getattr; rewrite Ho; reflexivity).
  assert (cases : forall b n a, [n1; n2] = (b ++ n :: a)%list -> (b = [] /\ n = n1) \/ (b = [n1] /\ n = n2)).
  { intros [|x [|y b]] n a E; injection E; intros; subst; auto. destruct b; discriminate. }
  destruct (truthy (getattr md n1)) eqn:E1; [|destruct (truthy (getattr md n2)) eqn:E2]; rewrite ?E1.
  - split.
    + intros o. split.
      * intros H; injection H; intros <-. exists [], n1, [n2]. repeat split; auto; intros m o' [].
      * intros (b & n & a & E & Ho & Hu & Hb). destruct (cases _ _ _ E) as [[-> ->]|[-> ->]].
        -- rewrite (U _ _ Ho). reflexivity.
        -- exfalso. apply (Hb n1 (getattr md n1) (or_introl eq_refl) (G _ E1)). exact E1.
    + split; [discriminate|]. intros H. exfalso. apply (H n1 _ (or_introl eq_refl) (G _ E1)). exact E1.
  - split.
    + intros o. split.
      * intros H; injection H; intros <-. exists [n1], n2, []. repeat split; auto.
        intros m o' [<-|[]]. apply B, E1.
      * intros (b & n & a & E & Ho & Hu & Hb). destruct (cases _ _ _ E) as [[-> ->]|[-> ->]].
        -- exfalso. exact (B _ E1 _ Ho Hu).
        -- rewrite (U _ _ Ho). reflexivity.
    + split; [discriminate|]. intros H. exfalso. apply (H n2 _ (or_intror (or_introl eq_refl)) (G _ E2)). exact E2.
  - split.
    + intros o. split; [discriminate|].
      intros (b & n & a & E & Ho & Hu & Hb). destruct (cases _ _ _ E) as [[-> ->]|[-> ->]]; exfalso;
        [exact (B _ E1 _ Ho Hu)|exact (B _ E2 _ Ho Hu)].
    + split; [|reflexivity]. intros _ n o [<-|[<-|[]]]; apply B; assumption.
Qed.

(** Whatever is missing or malformed, decorating never raises: it falls back to numpy. *)
Theorem C32_fallback : forall c name,
  (c_optimization c = None \/ c_precision c = None \/ c_dim c = None \/
   (exists o p, c_optimization c = Some o /\ c_precision c = Some p /\ c_globals c (o ++ "_" ++ p) = None)) ->
  optimizer c name = Numpy.
Proof.
  intros c name H. unfold optimizer, lookup_fun, bind.
  destruct H as [H|[H|[H|(o & p & H1 & H2 & H3)]]].
  - rewrite H. reflexivity.
  - rewrite H. destruct (c_optimization c); reflexivity.
  - rewrite H. destruct (c_optimization c); [|reflexivity]. destruct (c_precision c); [|reflexivity].
    destruct (c_globals _ _); reflexivity.
  - rewrite H1, H2, H3. reflexivity.
Qed.

(** With config.mesh absent the object selected is never None, for every configuration and registry. *)
Theorem C32_never_missing : forall c name o, c_mesh c = None -> optimizer c name = Kernel o -> truthy o = true.
Proof.
  intros c name o Hm. unfold optimizer, lookup_fun, bind. rewrite Hm.
  destruct (c_optimization c); [|discriminate]. destruct (c_precision c); [|discriminate].
  destruct (c_globals _ _); [|discriminate]. destruct (c_dim c); [|discriminate].
  set (f := if Nat.eqb n0 2 then _ else _). destruct (truthy f) eqn:E.
  - rewrite E. intros H; injection H; intros <-. exact E.
  - destruct (c_solver c); [|discriminate].
    destruct (truthy (getattr n (name ++ "_" ++ s1))) eqn:E2; [|discriminate].
    intros H; injection H; intros <-. exact E2.
Qed.

(** The guarantee rests on config.mesh raising: were the attribute present (as the code intends), a
    function without any optimised version would be replaced by a call to None. *)
Theorem C32_mesh_attribute_refuted : exists c name,
  c_mesh c = Some "triplyperiodic" /\ c_globals c = shipped_globals true true true true /\
  optimizer c name = Kernel PyNone /\ call (optimizer c name) 5 = RaisesTypeError.
Proof.
  exists (mkConfig (shipped_globals true true true true) (Some "cython") (Some "double") (Some 3) (Some "VV") (Some "triplyperiodic")), "add_linear".
  repeat split; reflexivity.
Qed.

(** The generic kernel is never used in two dimensions: a module offering only [name] leaves numpy. *)
Theorem C32_2D_ignores_generic : forall glob opt prec solver name md,
  glob (opt ++ "_" ++ prec) = Some md -> md (name ++ "_2D") = None -> md (name ++ "_" ++ solver) = None ->
  optimizer (mkConfig glob (Some opt) (Some prec) (Some 2) (Some solver) None) name = Numpy.
Proof.
  intros glob opt prec solver name md Hm H1 H2.
  apply (C32_dispatch glob opt prec 2 solver name md Hm). intros n o Hin Ho. unfold candidates in Hin.
  change (Nat.eqb 2 2) with true in Hin. cbv iota in Hin. destruct Hin as [<-|[<-|[]]]; congruence.
Qed.

(** numexpr is registered under a key that is never looked up for a valid precision: selecting it
    always runs numpy. *)
Theorem C32_numexpr_unused : forall hc hn hx hp prec solver dim name,
  prec = "double" \/ prec = "single" ->
  optimizer (shipped_config hc hn hx hp "numexpr" prec solver dim) name = Numpy.
Proof.
  intros hc hn hx hp prec solver dim name [->| ->]; apply C32_fallback; right; right; right;
  [exists "numexpr", "double"|exists "numexpr", "single"]; repeat split; destruct hc, hn, hx, hp; reflexivity.
Qed.

(** In the shipped package every selected object is a function, for all settings, solver names,
    dimensions, function names and any subset of importable modules. *)
Theorem C32_shipped_callable : forall hc hn hx hp opt prec solver dim name o,
  optimizer (shipped_config hc hn hx hp opt prec solver dim) name = Kernel o -> exists ps, o = PyFun ps.
Proof.
  intros hc hn hx hp opt prec solver dim name o H.
  unfold optimizer, lookup_fun, bind, shipped_config in H. cbn [c_optimization c_precision c_globals c_dim c_solver c_mesh] in H.
  unfold shipped_globals in H.
  assert (G : forall t n, getattr (ns_of t) n = PyNone \/ exists ps, getattr (ns_of t) n = PyFun ps).
  { intros t n. unfold getattr, ns_of. destruct (find t n); eauto. }
  assert (Fin : forall t, match (if truthy (if Nat.eqb dim 2 then getattr (ns_of t) (name ++ "_2D") else getattr (ns_of t) name)
       then Some (if Nat.eqb dim 2 then getattr (ns_of t) (name ++ "_2D") else getattr (ns_of t) name)
       else Some (getattr (ns_of t) (name ++ "_" ++ solver))) with
     | Some f => if truthy f then Some f else None | None => None end = Some o -> exists ps, o = PyFun ps).
  { intros t. set (f := if Nat.eqb dim 2 then _ else _).
    assert (Hf : f = PyNone \/ exists ps, f = PyFun ps) by (unfold f; destruct (Nat.eqb dim 2); apply G).
    destruct Hf as [->|(ps & ->)]; cbn [truthy].
    - destruct (G t (name ++ "_" ++ solver)) as [->|(ps & ->)]; cbn [truthy]; [discriminate|]. intros E; injection E; intros <-; eauto.
    - intros E; injection E; intros <-; eauto. }
  repeat match type of H with context [if ?b then Some (ns_of ?t) else _] => destruct b end;
  try discriminate;
  match type of H with (match ?x with Some _ => _ | None => _ end) = _ => destruct x eqn:E; [|discriminate] end;
  injection H; intros <-; eapply Fin; exact E.
Qed.

(** Every decorated function of every solver, under every shipped optimization and precision, accepts
    the arguments it is called with, with one exception: ForwardEuler under cython. *)
Definition accepts (hc hn hx hp : bool) (opt prec : string) (entry : string * nat * list (string * nat)) : bool :=
  let '(name, nargs, solvers) := entry in
  forallb (fun sd => match call (optimizer (shipped_config hc hn hx hp opt prec (fst sd) (snd sd)) name) nargs with
                     | RaisesTypeError => false | _ => true end) solvers.
Theorem C32_arguments : forall hc hn hx hp opt prec name nargs solvers,
  In opt ["cython"; "numba"; "pythran"; ""] -> In prec ["double"; "single"] ->
  In (name, nargs, solvers) decorated ->
  (accepts hc hn hx hp opt prec (name, nargs, solvers) = false <-> (opt = "cython" /\ hc = true /\ name = "ForwardEuler")).
Proof.
  intros hc hn hx hp opt prec name nargs solvers Ho Hp Hd.
  assert (H : forallb (fun opt => forallb (fun prec => forallb (fun e =>
      Bool.eqb (negb (accepts hc hn hx hp opt prec e))
               (String.eqb opt "cython" && hc && String.eqb (fst (fst e)) "ForwardEuler")) decorated)
      ["double"; "single"]) ["cython"; "numba"; "pythran"; ""] = true)
    by (destruct hc, hn, hx, hp; vm_compute; reflexivity).
  rewrite forallb_forall in H. specialize (H opt Ho). rewrite forallb_forall in H. specialize (H prec Hp).
  rewrite forallb_forall in H. specialize (H _ Hd). cbn [fst] in H. apply Bool.eqb_prop in H.
  split.
  - intros E. rewrite E in H. cbn in H. symmetry in H. apply andb_prop in H. destruct H as [H H3].
    apply andb_prop in H. destruct H as [H1 H2]. apply String.eqb_eq in H1. apply String.eqb_eq in H3. auto.
  - intros (-> & -> & ->). destruct (accepts true hn hx hp "cython" prec ("ForwardEuler", nargs, solvers)) eqn:E; [|reflexivity].
    discriminate H.
Qed.
(** so selecting cython together with the ForwardEuler integrator fails at the first step *)
Theorem C32_cython_ForwardEuler_refuted :
  call (optimizer (shipped_config true true true true "cython" "double" "NS" 3) "ForwardEuler") 5 = RaisesTypeError /\
  call (optimizer (shipped_config true true true true "cython" "double" "NS2D" 2) "ForwardEuler") 5 = RaisesTypeError.
Proof. split; reflexivity. Qed.

(** Which version runs, for the default solvers (non-triviality) *)
Example C32_examples :
  optimizer (shipped_config true true true true "numba" "double" "NS" 3) "cross1" = Kernel (PyFun ["c"; "a"; "b"]) /\
  optimizer (shipped_config true true true true "numba" "double" "NS2D" 2) "cross1" = Numpy /\
  optimizer (shipped_config true true true true "cython" "double" "Bq2D" 2) "add_pressure_diffusion" =
    Kernel (PyFun ["du"; "ur_hat"; "p_hat"; "k_over_k2"; "k"; "ksq"; "nu"; "Ri"; "Pr"]) /\
  optimizer (shipped_config true true true true "pythran" "single" "MHD" 3) "add_pressure_diffusion" = Numpy /\
  optimizer (shipped_config true true true true "" "double" "NS" 3) "RK4" = Numpy /\
  optimizer (shipped_config false true true true "cython" "double" "NS" 3) "RK4" = Numpy.
Proof. repeat split; reflexivity. Qed.

(** ** C58: the choice is made once per process.  After any sequence of get_solver calls the functions
    of spectralDNS.maths are those chosen by the first configuration. *)
Lemma import_keep c : forall k n w, cached k n = Some w -> forall m, cached (import_function c k m) n = Some w.
Proof.
  intros k n w H m. unfold import_function. destruct (cached k m) eqn:E; [exact H|].
  cbn. destruct (String.eqb m n) eqn:E2; [|exact H]. apply String.eqb_eq in E2. congruence.
Qed.
Lemma imports_keep c l : forall k n w, cached k n = Some w -> cached (fold_left (import_function c) l k) n = Some w.
Proof. induction l as [|m l IH]; intros k n w H; [exact H|]. simpl. apply IH, import_keep, H. Qed.
Theorem C58_first_wins : forall c cs name, In name maths_functions ->
  cached (session (c :: cs)) name = Some (optimizer c name).
Proof.
  intros c cs name Hn. unfold session. simpl.
  assert (H0 : cached (get_solver_import [] c) name = Some (optimizer c name)).
  { cbn in Hn. destruct Hn as [<-|[<-|[<-|[<-|[<-|[]]]]]]; reflexivity. }
  revert H0. generalize (get_solver_import [] c). induction cs as [|d cs IH]; intros k H0; [exact H0|].
  simpl. apply IH. apply imports_keep. exact H0.
Qed.
(** hence a later solver of another dimension gets the wrong kernel *)
Theorem C58_own_choice_refuted : exists c1 c2,
  c1 = shipped_config true true true true "numba" "double" "NS" 3 /\
  c2 = shipped_config true true true true "numba" "double" "NS2D" 2 /\
  optimizer c2 "cross1" = Numpy /\
  cached (session [c1; c2]) "cross1" = Some (Kernel (PyFun ["c"; "a"; "b"])).
Proof. do 2 eexists. split; [reflexivity|]. split; [reflexivity|]. split; reflexivity. Qed.
(** without optimization (the default) every solver of the session runs numpy *)
Theorem C58_numpy_session : forall cs name, cs <> [] -> In name maths_functions ->
  (forall c, In c cs -> exists hc hn hx hp prec s d, c = shipped_config hc hn hx hp "" prec s d) ->
  cached (session cs) name = Some Numpy.
Proof.
  intros [|c cs] name Hne Hn Hc; [contradiction|]. rewrite C58_first_wins by exact Hn. f_equal.
  destruct (Hc c (or_introl eq_refl)) as (hc & hn & hx & hp & prec & s & d & ->).
  apply C32_fallback. right; right; right. exists "", prec. repeat split.
Qed.

Print Assumptions C32_dispatch.
Print Assumptions C32_fallback.
Print Assumptions C32_never_missing.
Print Assumptions C32_mesh_attribute_refuted.
Print Assumptions C32_2D_ignores_generic.
Print Assumptions C32_numexpr_unused.
Print Assumptions C32_shipped_callable.
Print Assumptions C32_arguments.
Print Assumptions C32_cython_ForwardEuler_refuted.
Print Assumptions C58_first_wins.
Print Assumptions C58_own_choice_refuted.
Print Assumptions C58_numpy_session.
