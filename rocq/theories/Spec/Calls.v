(** Call sequences used in statements: the calls solve() makes, and repeated calls of an
    integrator closure. *)
From Coq Require Import Reals List.
From Verif Require Import Base.Cplx Base.Fin Model.Maths Model.Integrators Model.Integrate Model.Solve.
Import ListNotations.
Open Scope R_scope.

(** steps of a run, newest first: (dt offered to the integrator, step actually taken);
    [total]: time passed *)
Definition total (h : list (R * R)) : R := fold_right (fun p a => snd p + a) 0 h.
(** the calls made by these steps, newest first: per step integrate, update, hdf5file.update,
    timer, in this order, each seeing the right t and tstep *)
Fixpoint hist_log (t0 : R) (n0 : nat) (h : list (R * R)) : list event :=
  match h with
  | [] => []
  | (dt, took) :: h' =>
      let n := (n0 + length h')%nat in
      let t := t0 + total ((dt, took) :: h') in
      EvTimer :: EvHdf5 t (S n) :: EvUpdate t (S n) :: EvIntegrate dt n :: hist_log t0 n0 h'
  end.

Section Calls.
Context {D I ctx : Type}.
Notation V := (svec D I).
(** The closure returned by getintegrator called once for every element of [dts] (params.dt at
    that call), with params.tstep = ts, ts+1, ...; the right hand side may differ from call to
    call in its buffers only. *)
Fixpoint calls (ComputeRHS : ctx -> V -> V -> V * ctx) (est : V -> V -> V -> R) (fuel : nat) (g : integ)
    (dts : list R) (ts : nat) (st : istate D I ctx) : option (istate D I ctx) :=
  match dts with
  | [] => Some st
  | dt :: dts =>
      match integrate ComputeRHS est fuel g dt ts st with
      | None => None
      | Some (st', _, _) => calls ComputeRHS est fuel g dts (S ts) st'
      end
  end.
End Calls.

(** a right hand side that records the fields it is called with *)
Definition logging {D I} (f : svec D I -> svec D I) (c : list (svec D I)) (r u : svec D I) : svec D I * list (svec D I) := (f u, c ++ [u]).
