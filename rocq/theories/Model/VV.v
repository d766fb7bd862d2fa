(** Model of spectralDNS/solvers/VV.py (velocity-vorticity solver). *)
From Coq Require Import Reals List.
From Verif Require Import Base.Cplx Base.Sums Base.Fin Model.Maths Model.NS.
Open Scope R_scope.

(** Buffers: u_dealias, work[(spectral vec,0)], work[(spectral vec,1)],
    work[(u_dealias,0)], work[(u_dealias,1)].  Entries requested with
    fillzero=True (VV.py:64,93,94) are zeroed on request. *)
Record vvbuf (I X : Type) := mkVvbuf {
  vud : pvec ax3 X; vs0 : svec ax3 I; vs1 : svec ax3 I; vp0 : pvec ax3 X; vp1 : pvec ax3 X }.
Arguments mkVvbuf {I X}. Arguments vud {I X}. Arguments vs0 {I X}. Arguments vs1 {I X}.
Arguments vp0 {I X}. Arguments vp1 {I X}.

Section VV.
Context {I X : Type} (T : transf I X) (K KoK2 : ax3 -> I -> R).
Notation vec := (svec ax3 I).
Notation buf := (vvbuf I X).

(** VV.py:64-65: v_hat = work[(w_hat,1,True)]; v_hat = cross2(v_hat, K_over_K2, w_hat) *)
Definition velocity_hat (w_hat : vec) : vec := cross2 (fun _ _ => C0) KoK2 w_hat.

(** VV.py:52-67 compute_velocity(U, w_hat, ...), with U = u_dealias as at VV.py:96 *)
Definition compute_velocity_ud (w_hat : vec) (b : buf) : buf :=
  let v_hat := velocity_hat w_hat in
  mkVvbuf (bwdV T v_hat) (vs0 b) v_hat (vp0 b) (vp1 b).

(** VV.py:92-100 Conv for "Vortex" (others raise NotImplementedError, VV.py:87-88) *)
Definition ConvVV (rhs w_hat : vec) (b : buf) : vec * buf :=
  let b := mkVvbuf (vud b) (vs0 b) (vs1 b) (fun _ _ => 0) (vp1 b) in        (* l.93 *)
  let b := mkVvbuf (vud b) (fun _ _ => C0) (vs1 b) (vp0 b) (vp1 b) in       (* l.94 *)
  let b := compute_velocity_ud w_hat b in                                   (* l.96 *)
  let b := mkVvbuf (vud b) (vs0 b) (vs1 b) (bwdV T w_hat) (vp1 b) in        (* l.97 *)
  let d := cross1 Rmult Rminus (vp1 b) (vud b) (vp0 b) in                   (* l.98, NS.py:133-135 *)
  let b := mkVvbuf (vud b) (fwdV T d) (vs1 b) (vp0 b) d in
  (cross2 rhs K (vs0 b), b).                                                (* l.99 *)

(** VV.py:105-110 add_linear *)
Definition add_linear_VV (rhs w_hat : vec) (nu : R) (K2 : I -> R) (Source : vec) : vec :=
  let rhs := fun i k => (rhs i k - RtoC (nu * K2 k) * w_hat i k)%C in
  fun i k => (rhs i k + Source i k)%C.

(** VV.py:112-146 ComputeRHS *)
Definition ComputeRHS_VV (K2 : I -> R) (mask : option (I -> bool)) (nu : R) (Source : vec)
    (b : buf) (rhs w_hat : vec) : vec * buf :=
  let '(rhs, b) := ConvVV rhs w_hat b in
  let rhs := mask_nyquist mask rhs in
  (add_linear_VV rhs w_hat nu K2 Source, b).

(** VV.py:74-78 get_divergence, in spectral space: U_hat = cross2(U_hat, K, W_hat);
    1j*(K.U_hat).  Overwrites context.U_hat; returns (div_hat, new U_hat). *)
Definition get_divergence_VV (U_hat W_hat : vec) : sfield I * vec :=
  let U_hat := cross2 U_hat K W_hat in
  (get_divergence_hat F3 K U_hat, U_hat).
End VV.
