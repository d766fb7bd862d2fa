(** Model of get_divergence of spectralDNS/solvers/Coupled.py (the same text in CoupledRK3.py).

    [project(div(U_hat), FST)] of shenfun: inner products of the divergence with the Dirichlet functions, then the mass
    matrix is solved.  [vdu], [vu] are the matrices (v, u') and (v, u), [sol] the solver of [vu]; [bwd] is backward of FST. *)
From Coq Require Import Reals.
From Verif Require Import Base.Cplx Base.Fin Model.KMM.
Open Scope R_scope.

Section Div.
Context (K1 K2 : nat -> R) (vdu vu sol : col -> col) (mask : option (nat -> nat -> R)).
(** Coupled.py:158 *)
Definition div_rhs (u : vfld) : fld := fun j k =>
  cadd (cadd (vdu (u x0 j k)) (csc (Ci * RtoC (K1 j))%C (vu (u x1 j k)))) (csc (Ci * RtoC (K2 k))%C (vu (u x2 j k))).
(** Coupled.py:158, the solve *)
Definition div_hat (u : vfld) : fld := fun j k => sol (div_rhs u j k).
(** Coupled.py:157-163 *)
Definition get_divergence_c {X : Type} (bwd : fld -> X -> R) (u : vfld) : X -> R :=
  let d := div_hat u in
  let d := match mask with None => d | Some m => fun j k => rsc (m j k) (d j k) end in      (* l.159-160 *)
  bwd d.
End Div.
