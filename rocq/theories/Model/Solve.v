(** Model of spectralDNS/__init__.py:69-123 [solve] and of the two end_of_tstep
    functions.  Arithmetic on times goes through a rounding function [rnd]
    (identity for exact arithmetic, Flocq's rounding for binary64).

    The integrator, solver.update and context.hdf5file.update are arbitrary
    functions on a world state [W] (solver context, files, ...).
    Simplifications: profiling (l.107-109, 118-119) and printing are not modelled;
    the callbacks may change [W] but not params.t, params.dt, params.tstep, params.T. *)
From Coq Require Import Reals List Bool.
Import ListNotations.
Open Scope R_scope.

(** Observable calls made by solve(), in order (the log is kept newest first). *)
(** __init__.py:96-123 *)
Inductive event :=
  | EvIntegrate (dt : R) (tstep : nat)      (* integrate(): params.dt and params.tstep seen *)
  | EvUpdate (t : R) (tstep : nat)          (* solver.update(context) *)
  | EvHdf5 (t : R) (tstep : nat)            (* context.hdf5file.update(params, **context) *)
  | EvTimer                                 (* solver.timer() *)
  | EvRegression                            (* solver.regression_test(context) *)
  | EvClose.                                (* context.hdf5file.close() *)

Section Solve.
Context {W : Type} (rnd : R -> R) (eps T : R).     (* eps = the literal 1e-12 *)
Context (integrate : R -> nat -> W -> option (W * R * R)).   (* None: the call raised *)
Context (update : R -> nat -> W -> W).
Context (hdf5_update : R -> nat -> W -> W * bool).   (* true: killed, sys.exit(1) *)
Context (end_of_tstep : R -> R -> W -> bool * R * W). (* t, dt, context |-> (break?, dt, context) *)

(** __init__.py:92-114 *)
Record lstate := mkL {
  l_t : R; l_dt : R; l_tstep : nat; l_w : W;
  l_open : bool;                  (* hdf5file.cfile is not None *)
  l_log : list event }.

(** __init__.py:94-112 *)
Inductive iter_result :=
  | Stop (s : lstate)             (* loop condition false *)
  | Break (s : lstate)            (* end_of_tstep returned True *)
  | Cont (s : lstate)
  | Kill (s : lstate)             (* sys.exit(1) inside hdf5file.update *)
  | Raise (s : lstate).           (* exception inside integrate() *)

(** __init__.py:94-112, one evaluation of the while condition and body *)
Definition iter (s : lstate) : iter_result :=
  if Rle_dec (rnd (l_t s + l_dt s)) (rnd (T + eps)) then                     (* l.94 *)
    match integrate (l_dt s) (l_tstep s) (l_w s) with                       (* l.96 *)
    | None => Raise s
    | Some (w, dt, dt_took) =>
        let log := EvIntegrate (l_dt s) (l_tstep s) :: l_log s in
        let t := rnd (l_t s + dt_took) in                                    (* l.98 *)
        let tstep := S (l_tstep s) in                                        (* l.99 *)
        let w := update t tstep w in                                         (* l.101 *)
        let log := EvUpdate t tstep :: log in
        let '(w, kill) := hdf5_update t tstep w in                           (* l.103 *)
        let log := EvHdf5 t tstep :: log in
        if kill then Kill (mkL t dt tstep w true log)
        else
          let log := EvTimer :: log in                                       (* l.105 *)
          let '(brk, dt, w) := end_of_tstep t dt w in                        (* l.111 *)
          let s := mkL t dt tstep w true log in
          if brk then Break s else Cont s
    end
  else Stop s.

(** __init__.py:114-123, after the loop; hdf5file.close() raises AttributeError
    ('NoneType' object has no attribute 'f', HDF5File.py:102) when hdf5file.update
    was never called. *)
Inductive outcome :=
  | Returned (s : lstate)
  | CloseFailed (s : lstate)      (* AttributeError from hdf5file.close() *)
  | Exited (s : lstate)           (* SystemExit(1); params.dt is not restored *)
  | Raised (s : lstate).

(** __init__.py:114-123 *)
Definition finish (dt_in : R) (s : lstate) : outcome :=
  let s := mkL (l_t s) dt_in (l_tstep s) (l_w s) (l_open s) (EvRegression :: l_log s) in
  if l_open s then Returned (mkL (l_t s) (l_dt s) (l_tstep s) (l_w s) true (EvClose :: l_log s))
  else CloseFailed s.

(** The while loop with explicit fuel; [None] = not finished within [fuel] iterations. *)
(** __init__.py:94-123 *)
Fixpoint loop (fuel : nat) (dt_in : R) (s : lstate) : option outcome :=
  match fuel with
  | O => None
  | S fuel =>
      match iter s with
      | Stop s | Break s => Some (finish dt_in s)
      | Kill s => Some (Exited s)
      | Raise s => Some (Raised s)
      | Cont s => loop fuel dt_in s
      end
  end.

(** __init__.py:69-123 solve *)
Definition solve (fuel : nat) (s : lstate) : option outcome := loop fuel (l_dt s) s.

(** States at the top of the while loop reached from [s0] (after 0, 1, 2, ... steps). *)
(** __init__.py:94-112 *)
Inductive reach (s0 : lstate) : nat -> lstate -> Prop :=
  | reach_0 : reach s0 0 s0
  | reach_S n s s' : reach s0 n s -> iter s = Cont s' -> reach s0 (S n) s'.

(** States right after a completed step (whatever happens next). *)
(** __init__.py:96-111 *)
Definition stepped (s s' : lstate) : Prop :=
  iter s = Cont s' \/ iter s = Break s' \/ iter s = Kill s'.
End Solve.
Arguments lstate W : clear implicits.
Arguments outcome W : clear implicits.
Arguments mkL {W}.

(** spectralinit.py:56-62 (KMMRK3, KMMRK3_RB), CoupledRK3.py:139-145.
    The variants of KMM.py:147-155, KMM_RB.py:63-69, KMMr.py:148-156 and
    Coupled.py:131-139 additionally rotate buffers of the context: [rotate]. *)
Definition end_of_tstep_channel {W} (rotate : W -> W) (t dt : R) (w : W) : bool * R * W :=
  (false, dt, rotate w).

(** NS.py:112-122 (also MHD, which imports it by name, and VV, NS2D, Bq2D, which
    import everything from NS) *)
Definition end_of_tstep_NS {W} (rnd : R -> R) (eps T : R) (t dt : R) (w : W) : bool * R * W :=
  if Rlt_dec (Rabs (rnd (t - T))) eps then (true, dt, w)                (* l.115-116 *)
  else if Rlt_dec (Rabs (rnd (rnd (t + dt) - T))) eps then (false, rnd (T - t), w)
  else if Rle_dec (rnd (T + eps)) (rnd (t + dt)) then (false, rnd (T - t), w)
  else (false, dt, w).                                                  (* l.118-122 *)

(** The literal 1e-12, exactly *)
(** __init__.py:94, NS.py:115-119 *)
Definition eps12 : R := / 10^12.
