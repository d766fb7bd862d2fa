(** Model of spectralDNS/utilities/__init__.py, class Timer.
    time() is an arbitrary sequence of readings; arithmetic is exact. *)
From Coq Require Import Reals List.
Import ListNotations.
Open Scope R_scope.

(** utilities/__init__.py:27-31 *)
Record timer := mkTimer { fastest_timestep : R; slowest_timestep : R; tm_t0 : R; tm_tic : R }.

(** utilities/__init__.py, Timer.__init__: fastest = 1e8, slowest = 0, t0 = time(), tic = t0 *)
(** utilities/__init__.py:27-31 *)
Definition timer_init (now : R) : timer := mkTimer (10^8) 0 now now.

(** Timer.__call__: dt = time() - self.t0; Python's min(dt, fastest), max(dt, slowest)
    return the first argument on ties, which is the same number. *)
(** utilities/__init__.py:33-39 *)
Definition timer_call (now : R) (tm : timer) : timer :=
  let dt := now - tm_t0 tm in
  mkTimer (Rmin dt (fastest_timestep tm)) (Rmax dt (slowest_timestep tm)) now (tm_tic tm).

(** the timer of one rank after Timer() at reading [c0] and one call per reading in [cs] *)
(** utilities/__init__.py:27-39; __init__.py:82, 105 *)
Definition timer_run (c0 : R) (cs : list R) : timer :=
  fold_left (fun tm c => timer_call c tm) cs (timer_init c0).

(** comm.reduce(x, op, root=0) of the values of ranks 0, 1, ...: rank 0 gets the fold, the others None *)
(** utilities/__init__.py:59-62 *)
Definition mpi_reduce (op : R -> R -> R) (v0 : R) (vs : list R) : R := fold_left op vs v0.

(** Timer.final on all ranks ([tm0] = rank 0): the pairs fast and slow printed by rank 0
    when verbose.  toc = time() - tic is the printed total. *)
(** utilities/__init__.py:58-62 *)
Definition timer_final (tm0 : timer) (tms : list timer) : (R * R) * (R * R) :=
  let reduce op f := mpi_reduce op (f tm0) (map f tms) in
  ((reduce Rmin fastest_timestep, reduce Rmin slowest_timestep),
   (reduce Rmax fastest_timestep, reduce Rmax slowest_timestep)).
(** utilities/__init__.py:64 *)
Definition timer_toc (now : R) (tm : timer) : R := now - tm_tic tm.
