(** Model of demo/TG2D.py: initial field and regression test of the Taylor-Green demo of
    the NS2D solver.  [update] only plots.  The comm.reduce of partial sums is modelled as
    one sum over all mesh points (C46 treats the splitting over processes). *)
From Coq Require Import Reals List.
From Verif Require Import Base.Cplx Base.Sums Base.Fin Model.Maths Model.NS.
Open Scope R_scope.

Section TG2D.
Context {I X : Type} (T : transf I X) (mesh : ax2 -> X -> R) (pts : list X) (dx L : ax2 -> R).

(** demo/TG2D.py:12-15: U[0] = sin(X[0])*cos(X[1]), U[1] = -sin(X[1])*cos(X[0]),
    then set_velocity (NS.py:101-104) *)
Definition tg_init (U : pvec ax2 X) : svec ax2 I :=
  let U := upd F2 U a0 (fun x => sin (mesh a0 x) * cos (mesh a1 x)) in
  let U := upd F2 U a1 (fun x => - sin (mesh a1 x) * cos (mesh a0 x)) in
  fwdV T U.

(** demo/TG2D.py:44, 47: sum(U*U)*dx[0]*dx[1]/L[0]/L[1]/2 *)
Definition tg_energy (U : pvec ax2 X) : R :=
  RsumL (elems F2) (fun i => RsumL pts (fun x => U i x * U i x)) * dx a0 * dx a1 / L a0 / L a1 / 2.

(** demo/TG2D.py:39-50 regression_test: the printed value k-ke *)
Definition tg_error (nu t : R) (U_hat : svec ax2 I) : R :=
  let U := bwdV T U_hat in                                                              (* l.43 *)
  let k := tg_energy U in                                                               (* l.44 *)
  let U := upd F2 U a0 (fun x => - sin (mesh a1 x) * cos (mesh a0 x) * exp (- 2 * nu * t)) in (* l.45 *)
  let U := upd F2 U a1 (fun x => sin (mesh a0 x) * cos (mesh a1 x) * exp (- 2 * nu * t)) in   (* l.46 *)
  let ke := tg_energy U in                                                              (* l.47 *)
  k - ke.
End TG2D.
