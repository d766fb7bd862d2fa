(** Evaluation of the update callbacks. *)
From Coq Require Import ZArith List Bool Lia.
From Verif Require Import Model.Callbacks.
Import ListNotations.
Open Scope Z_scope.

Definition diag_eqb (a b : diag) : bool :=
  match a, b with Energy, Energy | Plot, Plot | Sample, Sample | Flux, Flux => true | _, _ => false end.
Lemma diag_eqb_eq a b : diag_eqb a b = true <-> a = b.
Proof. destruct a, b; cbn; split; congruence. Qed.

Lemma reports_b d (l : list (diag * arr * Z)) :
  (exists a z, In (d, a, z) l) <-> existsb (fun x => diag_eqb d (fst (fst x))) l = true.
Proof.
  rewrite existsb_exists. split.
  - intros (a & z & H). exists (d, a, z). split; [exact H|]. apply diag_eqb_eq. reflexivity.
  - intros (((d' & a) & z) & H & E). apply diag_eqb_eq in E. cbn in E. subst d'. exists a, z. exact H.
Qed.
Lemma current_b n (l : list (diag * arr * Z)) :
  (forall d a z, In (d, a, z) l -> z = n) <-> forallb (fun x => snd x =? n) l = true.
Proof.
  rewrite forallb_forall. split.
  - intros H ((d & a) & z) Hi. apply Z.eqb_eq. exact (H d a z Hi).
  - intros H d a z Hi. specialize (H _ Hi). apply Z.eqb_eq in H. exact H.
Qed.
Lemma hits_divide n p : p <> 0 -> (n mod p =? 0) = true <-> (p | n).
Proof. intros H. rewrite Z.eqb_eq. apply Z.mod_divide. exact H. Qed.
Lemma hits_nz n p s : p <> 0 -> hits n p s = Ret (n mod p =? 0) s.
Proof. intros H. unfold hits. destruct (Z.eqb_spec p 0); [contradiction|reflexivity]. Qed.
Lemma hits_0 n s : hits n 0 s = Exc ZeroDivisionError s.
Proof. reflexivity. Qed.

(** evaluates a callback once every guard is a variable *)
Ltac norm := cbv -[Z.modulo Z.eqb Z.ltb Z.divide Z.lt iff not Z.opp Z.add].
Ltac runs := eexists; norm; reflexivity.
Ltac evalu := norm; rewrite ?Z.eqb_refl; cbv beta iota.
