(** Textbook notion: first usable binding among a list of candidate names. *)
From Coq Require Import List.
Import ListNotations.
Section First.
Context {N O : Type} (binding : N -> option O) (usable : O -> Prop).
(** [first_usable ns o]: some name of ns is bound to the usable object o and no earlier name is bound
    to a usable object *)
Definition first_usable (ns : list N) (o : O) : Prop :=
  exists before n after, ns = before ++ n :: after /\ binding n = Some o /\ usable o /\
    forall m o', In m before -> binding m = Some o' -> ~ usable o'.
Definition none_usable (ns : list N) : Prop := forall n o, In n ns -> binding n = Some o -> ~ usable o.
End First.
