(** Collective communication: the programs of n ranks, every interleaving of which is considered.

    A rank computes locally and deterministically up to its next collective call.  The k-th call of
    every rank must be the same operation (with the same reduction operator, resp. the same array
    redistribution [tag]); if not, the ranks wait for each other for ever.  A rank enters a call
    (posts its argument) and leaves it later with a result; it may leave when all ranks have
    entered, and also earlier if its result does not need the others (MPI leaves this open). *)
From Coq Require Import Reals List Arith.
From Verif Require Import Base.Sums.
Import ListNotations.
Open Scope R_scope.

Inductive rop := OpSum | OpMin | OpMax.
Definition rop_eqb (a b : rop) : bool :=
  match a, b with OpSum, OpSum => true | OpMin, OpMin => true | OpMax, OpMax => true | _, _ => false end.

Section Mpi.
Context {M : Type}.                  (* messages: pieces of arrays *)
Inductive req :=
  | RReduce (op : rop) (x : R)       (* comm.reduce(x, op, root=0) *)
  | RBcast (x : option R)            (* comm.bcast(x, root=0); None unless the rank has a value *)
  | RAllreduce (x : nat)             (* comm.allreduce(x) *)
  | RXch (tag : nat) (m : M).        (* any other collective, e.g. Alltoallw of a transform, collective file access *)
Inductive resp :=
  | VReduce (x : option R)           (* None on other ranks than 0 *)
  | VBcast (x : R)
  | VAllreduce (x : nat)
  | VXch (m : M).
Inductive prog (A : Type) :=
  | Ret (a : A)
  | Coll (q : req) (k : resp -> prog A)
  | Crash.                           (* an exception on this rank only *)
Arguments Ret {A}. Arguments Coll {A}. Arguments Crash {A}.

(** what the redistribution [tag] delivers to rank i, given the messages of all ranks *)
Context (net : nat -> (nat -> M) -> nat -> M).
Context (n : nat).                   (* number of ranks *)

Definition reduction (op : rop) (f : nat -> R) : R :=
  match op with
  | OpSum => RsumL (seq 0 n) f
  | OpMin => fold_right (fun i x => Rmin (f i) x) (f 0%nat) (seq 0 n)
  | OpMax => fold_right (fun i x => Rmax (f i) x) (f 0%nat) (seq 0 n)
  end.
(** all ranks make the same call, with these arguments; the result of rank i *)
Inductive answer (qs : nat -> req) (i : nat) : resp -> Prop :=
  | ans_reduce op f : (forall j, (j < n)%nat -> qs j = RReduce op (f j)) ->
      answer qs i (VReduce (if Nat.eqb i 0 then Some (reduction op f) else None))
  | ans_bcast f v : (forall j, (j < n)%nat -> qs j = RBcast (f j)) -> f 0%nat = Some v -> answer qs i (VBcast v)
  | ans_allreduce f : (forall j, (j < n)%nat -> qs j = RAllreduce (f j)) ->
      answer qs i (VAllreduce (fold_right (fun j x => f j + x)%nat 0%nat (seq 0 n)))
  | ans_xch tag f : (forall j, (j < n)%nat -> qs j = RXch tag (f j)) -> answer qs i (VXch (net tag f i)).

(** rank i is in its (a_pos i)-th call; a_log k j: what rank j passed to its k-th call *)
Record aconf (A : Type) := mkAconf { a_prog : nat -> prog A; a_pos : nat -> nat; a_log : nat -> nat -> option req }.
Arguments mkAconf {A}. Arguments a_prog {A}. Arguments a_pos {A}. Arguments a_log {A}.
Definition astart {A} (ps : nat -> prog A) : aconf A := mkAconf ps (fun _ => 0%nat) (fun _ _ => None).
Definition set {B} (f : nat -> B) (i : nat) (x : B) : nat -> B := fun j => if Nat.eqb j i then x else f j.

Inductive astep {A} (c : aconf A) : aconf A -> Prop :=
  | enter i q k : (i < n)%nat -> a_prog c i = Coll q k -> a_log c (a_pos c i) i = None ->
      astep c (mkAconf (a_prog c) (a_pos c) (set (a_log c) (a_pos c i) (set (a_log c (a_pos c i)) i (Some q))))
  | leave i q k qs r : (i < n)%nat -> a_prog c i = Coll q k ->
      (forall j, (j < n)%nat -> a_log c (a_pos c i) j = Some (qs j)) -> answer qs i r ->
      astep c (mkAconf (set (a_prog c) i (k r)) (set (a_pos c) i (S (a_pos c i))) (a_log c))
  | leave_reduce i op x k : (i < n)%nat -> i <> 0%nat -> a_prog c i = Coll (RReduce op x) k ->
      a_log c (a_pos c i) i = Some (RReduce op x) ->
      astep c (mkAconf (set (a_prog c) i (k (VReduce None))) (set (a_pos c) i (S (a_pos c i))) (a_log c))
  | leave_bcast i x k v : (i < n)%nat -> a_prog c i = Coll (RBcast x) k ->
      a_log c (a_pos c i) i = Some (RBcast x) -> a_log c (a_pos c i) 0%nat = Some (RBcast (Some v)) ->
      astep c (mkAconf (set (a_prog c) i (k (VBcast v))) (set (a_pos c) i (S (a_pos c i))) (a_log c)).
Inductive asteps {A} : nat -> aconf A -> aconf A -> Prop :=
  | as_0 c : asteps 0 c c
  | as_S m c c' c'' : asteps m c c' -> astep c' c'' -> asteps (S m) c c''.

(** Whatever the schedule: the execution is finite, it cannot stop before all ranks have
    returned, and the results are these. *)
Definition always_returns {A} (ps : nat -> prog A) (a : nat -> A) : Prop :=
  exists B, forall m c, asteps m (astart ps) c ->
    (m <= B)%nat /\ ((forall i, (i < n)%nat -> a_prog c i = Ret (a i)) \/ exists c', astep c c').
(** a schedule after which no rank can go on although not all have returned *)
Definition can_deadlock {A} (ps : nat -> prog A) : Prop :=
  exists m c, asteps m (astart ps) c /\ (forall c', ~ astep c c') /\ exists i, (i < n)%nat /\ forall a, a_prog c i <> Ret a.
End Mpi.
Arguments req : clear implicits.
Arguments resp : clear implicits.
Arguments prog : clear implicits.
Arguments Ret {M A}. Arguments Coll {M A}. Arguments Crash {M A}.
Arguments mkAconf {M A}. Arguments a_prog {M A}. Arguments a_pos {M A}. Arguments a_log {M A}.
Arguments aconf : clear implicits.

(** one program after the other *)
Fixpoint bind {M A B} (p : prog M A) (f : A -> prog M B) : prog M B :=
  match p with Ret a => f a | Coll q k => Coll q (fun r => bind (k r) f) | Crash => Crash end.
