(** Vocabulary of the statements about complete runs. *)
From Coq Require Import Reals.
From Verif Require Import Base.Cplx Base.Sums Base.Fin Spec.Fourier Spec.RungeKutta.
Open Scope R_scope.

Section Env.
Context {D I ctx E : Type}.
Notation V := (D -> I -> C).
(** a set of states closed under real linear combinations *)
Definition subspace (P : V -> Prop) : Prop :=
  P (fun _ _ => C0) /\ forall u c v, P u -> P v -> P (plus u c v).
(** a stateful right hand side (buffers [ctx], output array) that computes the function [f] *)
Definition computes (ComputeRHS : ctx -> V -> V -> V * ctx) (f : V -> V) : Prop :=
  forall c r u, fst (ComputeRHS c r u) = f u.
(** the user's update() never leads out of P / never changes the solution array *)
Definition update_keeps (upd : R -> nat -> V * V * ctx * E -> V * V * ctx * E) (P : V -> Prop) : Prop :=
  forall t n u r c e, P u -> P (fst (fst (fst (upd t n (u, r, c, e))))).
Definition update_readonly (upd : R -> nat -> V * V * ctx * E -> V * V * ctx * E) : Prop :=
  forall t n u r c e, fst (fst (fst (upd t n (u, r, c, e)))) = u.
(** no kill file is ever found *)
Definition never_killed (out : R -> nat -> V -> ctx * E -> ctx * E * bool) : Prop :=
  forall t n u c e, snd (out t n u (c, e)) = false.
End Env.

(** the modes removed by a 0/1 mask ([None]: masking is off) *)
Definition masked {D I} (m : option (I -> bool)) (i : D) (k : I) : Prop :=
  match m with None => False | Some f => f k = false end.
(** v and m have the same mean values *)
Definition mean_is {D I} (K : D -> I -> R) (m v : D -> I -> C) : Prop :=
  forall i k, is_mean K k -> v i k = m i k.

(** velocity and magnetic rows of the MHD arrays, velocity rows of the Boussinesq arrays *)
Definition velo {I} (v : ax6 -> I -> C) : ax3 -> I -> C := fun i => v (inl i).
Definition magn {I} (v : ax6 -> I -> C) : ax3 -> I -> C := fun i => v (inr i).
Definition velo2 {I} (v : axb -> I -> C) : ax2 -> I -> C := fun i => v (Some i).
