(** getintegrator, integrators.py:177-239: selection of the integrator. *)
From Coq Require Import Reals List.
From Verif Require Import Base.Cplx Base.Sums Base.Fin Model.Maths Model.Integrators Model.BS5.
Open Scope R_scope.

Section Est.
Context {D I : Type} (F : fin D).
(** integrators.py:87 sc = aTOL + max(|u0|, |u0_new|)*rTOL *)
Definition sc_of (aTOL rTOL : R) (u0 u0_new : svec D I) : D -> I -> R :=
  fun i k => aTOL + Rmax (Cabs (u0 i k)) (Cabs (u0_new i k)) * rTOL.
(** integrators.py:92 local part: np.sum(np.power(np.abs(err[k]/sc[k]), 2)) over the modes of this rank *)
Definition nsquared (modes : list I) (sc : D -> I -> R) (err : svec D I) (i : D) : R :=
  RsumL modes (fun k => Rsqr (Cabs (err i k) / sc i k)).
(** integrators.py:88-99 on one rank: est = max_k sqrt(nsquared[k]) / sqrt(prod(T.shape)).
    [size] = prod(T.shape(True)).  The maximum over components (at least one) of
    non-negative numbers is folded from 0. *)
Definition est2 (modes : list I) (size aTOL rTOL : R) (u0 u0_new err : svec D I) : R :=
  fold_right Rmax 0 (map (fun i => sqrt (nsquared modes (sc_of aTOL rTOL u0 u0_new) err i)) (elems F))
  / sqrt size.
End Est.

Section Get.
Context {D I ctx : Type}.
Notation V := (svec D I).
Context (ComputeRHS : ctx -> V -> V -> V * ctx) (est_of : V -> V -> V -> R).

(** The closure [func] returned by getintegrator; [None] = still retrying after [fuel] attempts. *)
(** integrators.py:188-239 *)
Definition integrate (fuel : nat) (g : integ) (dt : R) (tstep : nat) (st : istate D I ctx)
    : option (istate D I ctx * R * R) :=
  match g with
  | IRK4 => Some (RK4 ComputeRHS dt st)                     (* l.183-191 *)
  | IForwardEuler => Some (ForwardEuler ComputeRHS dt st)   (* l.229-233 *)
  | IAB2 => Some (AB2 ComputeRHS dt tstep st)               (* l.235-239 *)
  | IBS5 adaptive =>                                        (* l.193-227 *)
      adaptiveRK ComputeRHS bs5_A bs5_b bs5_bhat bs5_s est_of fuel true adaptive tstep dt st
  end.
End Get.
