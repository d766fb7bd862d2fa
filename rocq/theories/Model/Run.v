(** A complete simulation: solve() (Model/Solve.v) with the integrator closure created at
    __init__.py:88 (Model/Integrate.v) and an arbitrary solver ComputeRHS.

    The world seen by the time loop is the integrator's arrays plus everything else
    (files, arrays of the user's script), of arbitrary type [E]. *)
From Coq Require Import Reals List.
From Verif Require Import Base.Cplx Base.Sums Base.Fin Model.Maths Model.Integrators Model.Integrate Model.Solve.
Open Scope R_scope.

Section Run.
Context {D I ctx E : Type}.
Notation V := (svec D I).

Record world := mkWorld { w_st : istate D I ctx; w_env : E }.

(** The solver's solution array (context.u: U_hat for NS/NS2D, W_hat for VV, UB_hat for
    MHD, Ur_hat for Bq2D), as left in the context. *)
(** NS.py:58 *)
Definition solution (w : world) : V := s_u0 (w_st w).

Context (ComputeRHS : ctx -> V -> V -> V * ctx) (est_of : V -> V -> V -> R).
(** solver.update(context): may change the solution, the rhs array dU, the solver's
    buffers and everything outside, but not the arrays captured by the integrator closure *)
Context (user_update : R -> nat -> V * V * ctx * E -> V * V * ctx * E).
(** context.hdf5file.update: transforms the solution into output arrays; may change the
    solver's buffers and the files; true = killed *)
Context (output : R -> nat -> V -> ctx * E -> ctx * E * bool).

(** __init__.py:96 u, params.dt, dt_took = integrate() *)
Definition run_integrate (fuel : nat) (g : integ) (dt : R) (tstep : nat) (w : world)
    : option (world * R * R) :=
  match integrate ComputeRHS est_of fuel g dt tstep (w_st w) with
  | None => None
  | Some (st, dt, took) => Some (mkWorld st (w_env w), dt, took)
  end.

(** __init__.py:101 *)
Definition run_update (t : R) (tstep : nat) (w : world) : world :=
  let st := w_st w in
  let '(u, rhs, c, e) := user_update t tstep (s_u0 st, s_rhs st, s_ctx st, w_env w) in
  mkWorld (mkIstate u (s_u1 st) (s_u2 st) rhs (s_fY st) (s_off st) c) e.

(** __init__.py:103 *)
Definition run_output (t : R) (tstep : nat) (w : world) : world * bool :=
  let st := w_st w in
  let '(c, e, kill) := output t tstep (s_u0 st) (s_ctx st, w_env w) in
  (mkWorld (mkIstate (s_u0 st) (s_u1 st) (s_u2 st) (s_rhs st) (s_fY st) (s_off st) c) e, kill).

(** one pass of the time loop of a periodic solver *)
(** __init__.py:94-112 *)
Definition run_iter (rnd : R -> R) (T : R) (fuel : nat) (g : integ) :=
  iter rnd eps12 T (run_integrate fuel g) run_update run_output (end_of_tstep_NS rnd eps12 T).
(** __init__.py:94-112 *)
Definition run_reach (rnd : R -> R) (T : R) (fuel : nat) (g : integ) :=
  reach rnd eps12 T (run_integrate fuel g) run_update run_output (end_of_tstep_NS rnd eps12 T).
(** __init__.py:96-103 *)
Definition run_stepped (rnd : R -> R) (T : R) (fuel : nat) (g : integ) :=
  stepped rnd eps12 T (run_integrate fuel g) run_update run_output (end_of_tstep_NS rnd eps12 T).
(** __init__.py:69-123 *)
Definition run_solve (rnd : R -> R) (T : R) (fuel : nat) (g : integ) :=
  solve rnd eps12 T (run_integrate fuel g) run_update run_output (end_of_tstep_NS rnd eps12 T).

(** A state at the call of solve(): integrator closure freshly created from the context's
    arrays (solution u0, rhs array and buffers of any content). *)
(** __init__.py:82-92 *)
Definition at_start (s : lstate world) (u0 : V) : Prop :=
  exists rhs c e, l_w s = mkWorld (init_istate u0 rhs c) e.

(** [s] is a state observed during solve() called in [s0]: at the top of the loop after any
    number of steps, or right after a step that ended the run. *)
(** __init__.py:94-112 *)
Definition observed (rnd : R -> R) (T : R) (fuel : nat) (g : integ) (s0 s : lstate world) : Prop :=
  exists n s1, run_reach rnd T fuel g s0 n s1 /\ (s = s1 \/ run_stepped rnd T fuel g s1 s).
End Run.
Arguments world D I ctx E : clear implicits.
