(** Model of spectralDNS/solvers/NS2D.py (imports everything else from NS.py). *)
From Coq Require Import Reals List.
From Verif Require Import Base.Cplx Base.Sums Base.Fin Model.Maths Model.NS.
Open Scope R_scope.

(** Buffers of the 2D solver. *)
(** NS.py:55, NS2D.py:40-41 *)
Record ns2buf (I X : Type) := mkNs2buf {
  u_dealias2 : pvec ax2 X;      (* context.u_dealias *)
  curl_dealias2 : pfield X;     (* work[(u_dealias[0], 0, False)], NS2D.py:40 *)
  curl_hat2 : sfield I;         (* work[(rhs[0], 0, False)], NS2D.py:41 *)
  P_hat2 : sfield I }.
Arguments mkNs2buf {I X}. Arguments u_dealias2 {I X}. Arguments curl_dealias2 {I X}.
Arguments curl_hat2 {I X}. Arguments P_hat2 {I X}.

(** NS2D.py:39-48 Conv for convection = "Vortex" (the only implemented form;
    NS2D.py:34-35 raises NotImplementedError for the others). *)
Definition Conv2 {I X} (T : transf I X) (K : ax2 -> I -> R) (rhs u_hat : svec ax2 I)
    (b : ns2buf I X) : svec ax2 I * ns2buf I X :=
  let curl_hat := cross2_2d K u_hat in                              (* l.43 *)
  let curl_dealias := bwd T curl_hat in                             (* l.44 *)
  let ud := bwdV T u_hat in                                         (* l.45 *)
  let rhs := upd F2 rhs a0 (fwd T (fun x => ud a1 x * curl_dealias x)) in      (* l.46 *)
  let rhs := upd F2 rhs a1 (fwd T (fun x => - ud a0 x * curl_dealias x)) in    (* l.47 *)
  (rhs, mkNs2buf ud curl_dealias curl_hat (P_hat2 b)).

(** NS.py:219-261 ComputeRHS with the 2D Conv and two components. *)
Definition ComputeRHS_NS2D {I X} (T : transf I X) (K : ax2 -> I -> R)
    (mask : option (I -> bool)) (nu : R) (Source : svec ax2 I)
    (b : ns2buf I X) (rhs u_hat : svec ax2 I) : svec ax2 I * ns2buf I X :=
  let '(rhs, b) := Conv2 T K rhs u_hat b in
  let '(rhs, P) := finish_rhs F2 K mask nu Source rhs u_hat in
  (rhs, mkNs2buf (u_dealias2 b) (curl_dealias2 b) (curl_hat2 b) P).
