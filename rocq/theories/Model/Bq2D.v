(** Model of spectralDNS/solvers/Bq2D.py (2D Boussinesq).  Rows of Ur_hat ([axb]):
    [Some a0], [Some a1] = velocity, [None] = density. *)
From Coq Require Import Reals List.
From Verif Require Import Base.Cplx Base.Sums Base.Fin Model.Maths Model.NS Model.NS2D.
Import ListNotations.
Open Scope R_scope.

(** Buffers: ur_dealias (Bq2D.py:57), work[(ur_dealias[0],0,False)] (l.109),
    work[(rhs,0,True)] (l.110, zeroed on request), P_hat (l.54) *)
Record bqbuf (I X : Type) := mkBqbuf {
  ur_dealias : pvec axb X; bcurl : pfield X; F_tmp : svec axb I; P_hatb : sfield I }.
Arguments mkBqbuf {I X}. Arguments ur_dealias {I X}. Arguments bcurl {I X}.
Arguments F_tmp {I X}. Arguments P_hatb {I X}.

Section Bq.
Context {I X : Type} (T : transf I X) (K : ax2 -> I -> R).
Notation vecb := (svec axb I).
Notation buf := (bqbuf I X).

(** Bq2D.py:108-125 Conv ("Vortex"; others raise NotImplementedError, l.103-104) *)
Definition Conv_Bq (rhs ur_hat : vecb) (b : buf) : vecb * buf :=
  let Ft : vecb := fun _ _ => C0 in                                     (* l.110 *)
  let ur := bwdV T ur_hat in                                            (* l.112 *)
  let Ft := upd Fb Ft (Some a0) (cross2_2d K (fun i => ur_hat (Some i))) in          (* l.117 *)
  let curl := bwd T (Ft (Some a0)) in                                   (* l.118 *)
  let rhs := upd Fb rhs (Some a0) (fwd T (fun x => ur (Some a1) x * curl x)) in      (* l.119 *)
  let rhs := upd Fb rhs (Some a1) (fwd T (fun x => - ur (Some a0) x * curl x)) in    (* l.120 *)
  let Ft := upd Fb Ft (Some a0) (fwd T (fun x => ur (Some a0) x * ur None x)) in     (* l.122 *)
  let Ft := upd Fb Ft (Some a1) (fwd T (fun x => ur (Some a1) x * ur None x)) in     (* l.123 *)
  let rhs := upd Fb rhs None
       (fun k => (- Ci * (RtoC (K a0 k) * Ft (Some a0) k + RtoC (K a1 k) * Ft (Some a1) k))%C) in (* l.124 *)
  (rhs, mkBqbuf ur curl Ft (P_hatb b)).

(** Bq2D.py:130-147 add_pressure_diffusion; returns (rhs, P_hat) *)
Definition add_pressure_diffusion_Bq (rhs ur_hat : vecb) (K2 : I -> R) (KoK2 : ax2 -> I -> R)
    (nu Ri Pr : R) : vecb * sfield I :=
  let rho := ur_hat None in
  let P := fun k => CsumL (elems F2) (fun i => (rhs (Some i) k * RtoC (KoK2 i k))%C) in  (* l.136 *)
  let P := fun k => (P k - RtoC Ri * rho k * RtoC (KoK2 a1 k))%C in                      (* l.137 *)
  let rhs := fold_left (fun r i => upd Fb r (Some i) (fun k => (r (Some i) k - P k * RtoC (K i k))%C))
                       (elems F2) rhs in                                                 (* l.140-141 *)
  let rhs := upd Fb rhs (Some a0) (fun k => (rhs (Some a0) k - RtoC (nu * K2 k) * ur_hat (Some a0) k)%C) in
  let rhs := upd Fb rhs (Some a1) (fun k => (rhs (Some a1) k - (RtoC (nu * K2 k) * ur_hat (Some a1) k
                                                                + RtoC Ri * rho k))%C) in
  let rhs := upd Fb rhs None (fun k => (rhs None k - RtoC (nu * K2 k) * rho k / RtoC Pr)%C) in
  (rhs, P).                                                                              (* l.144-147 *)

(** Bq2D.py:149-176 ComputeRHS *)
Definition ComputeRHS_Bq (mask : option (I -> bool)) (nu Ri Pr : R) (b : buf)
    (rhs ur_hat : vecb) : vecb * buf :=
  let '(rhs, b) := Conv_Bq rhs ur_hat b in
  let rhs := mask_nyquist mask rhs in
  let '(rhs, P) := add_pressure_diffusion_Bq rhs ur_hat (K2_of F2 K) (K_over_K2_of F2 K) nu Ri Pr in
  (rhs, mkBqbuf (ur_dealias b) (bcurl b) (F_tmp b) P).
End Bq.
