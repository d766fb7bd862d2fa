(** Minimum, maximum and consecutive differences of finite sequences of reals. *)
From Coq Require Import Reals List.
Import ListNotations.
Open Scope R_scope.

Definition is_min (x : R) (l : list R) : Prop := In x l /\ forall y, In y l -> x <= y.
Definition is_max (x : R) (l : list R) : Prop := In x l /\ forall y, In y l -> y <= x.
(** c1 - c0, c2 - c1, ... *)
Fixpoint durations (c0 : R) (cs : list R) : list R :=
  match cs with [] => [] | c :: cs => (c - c0) :: durations c cs end.
