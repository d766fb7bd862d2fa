(** Model of demo/RayleighBenard.py:17-30, initialize, for the solvers KMM_RB and KMMRK3_RB.

    The random numbers are a parameter.  [fw], [bw] are FRB.forward and FRB.backward between a field at the points
    (x, y, z) of the channel and the coefficients; [m] is the 0/1 array of mask_nyquist(). *)
From Coq Require Import Reals.
From Verif Require Import Base.Cplx Base.Fin Model.KMM Model.KMMRB.
Open Scope R_scope.

Section Init.
Context {X : Type} (xn : X -> R) (rand : X -> R).
Context (fw : (X -> R) -> fld) (bw : fld -> X -> R) (m : nat -> nat -> R).

(** RayleighBenard.py:22; [xn] is X[0] *)
Definition RB_phi : X -> R := fun p => 0.5 * (1 - xn p) + 0.005 * rand p * (1 - xn p) * (1 + xn p).
(** RayleighBenard.py:23-26 *)
Definition RB_phi_hat : fld :=
  let h := fw RB_phi in
  let h : fld := fun j k => rsc (m j k) (h j k) in
  let p := bw h in
  fw p.
(** RayleighBenard.py:28-30: KMM_RB *)
Definition RB_initialize (s : rbst) : rbst := mkRB (base s) RB_phi_hat RB_phi_hat RB_phi_hat (Nt s) (Nt0 s).
(** RayleighBenard.py:28: KMMRK3_RB *)
Definition RB_initialize_rk (s : rkrb) : rkrb := mkRkRB (rbase s) RB_phi_hat (rN0 s).
End Init.

(** Which wall the first entry of bc=(1, 0) (KMM_RB.py:18, KMMRK3_RB.py:18) belongs to, and which wall the coefficient
    [-2] belongs to, is decided by shenfun; both are parameters. *)
(** KMM_RB.py:18 *)
Inductive wall := Upper | Lower.      (* x = 1, x = -1 *)
(** KMM_RB.py:18: the temperature at a wall *)
Definition bc_value (first : wall) (w : wall) : R :=
  match first, w with Upper, Upper | Lower, Lower => 1 | _, _ => 0 end.
(** KMM_RB.py:81-82: coefficients [-2] and [-1] of the mean mode *)
Definition stored (first second_last : wall) : R * R :=
  match second_last with
  | Upper => (bc_value first Upper, bc_value first Lower)
  | Lower => (bc_value first Lower, bc_value first Upper)
  end.
