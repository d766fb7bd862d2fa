(** Right hand sides with parameters that a callback may change between two steps. *)
From Coq Require Import Reals.
From Verif Require Import Base.Cplx Model.Maths Model.Integrators Model.Solve Model.Run.
Open Scope R_scope.

Section Spec.
Context {D I ctx P E : Type}.
Notation V := (svec D I).
(** [ComputeRHS] computes F p, where p = par c is kept somewhere in the context (viscosity,
    source term, ...) and is not changed by the evaluation *)
Definition computes_with (ComputeRHS : ctx -> V -> V -> V * ctx) (par : ctx -> P) (F : P -> V -> V) : Prop :=
  forall c r u, fst (ComputeRHS c r u) = F (par c) u /\ par (snd (ComputeRHS c r u)) = par c.
(** writing the output does not change the parameters *)
Definition output_keeps (out : R -> nat -> V -> ctx * E -> ctx * E * bool) (par : ctx -> P) : Prop :=
  forall t n u c e, par (fst (fst (out t n u (c, e)))) = par c.
(** the parameters in force at the top of the loop *)
Definition param (par : ctx -> P) (w : world D I ctx E) : P := par (s_ctx (w_st w)).
(** in the pass from s to s' the integrator produced v, and update, called with v and the parameters of s,
    left the solution and the parameters of s' *)
Definition handed (par : ctx -> P) (upd : R -> nat -> V * V * ctx * E -> V * V * ctx * E)
    (s s' : lstate (world D I ctx E)) (v : V) : Prop :=
  exists r c e r' c' e', upd (l_t s') (l_tstep s') (v, r, c, e) = (solution (l_w s'), r', c', e') /\
    par c = param par (l_w s) /\ param par (l_w s') = par c'.
End Spec.
