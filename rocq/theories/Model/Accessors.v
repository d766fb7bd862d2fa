(** Model of the functions by which users read and set the fields of the periodic solvers:
    NS.py:86-110, NS2D.py:20-30, VV.py:69-83, MHD.py:84-87, Bq2D.py:85-99, of the functions that
    refresh the arrays of the results file (NS.py:83-84, VV.py:47-50, MHD.py:80-82, Bq2D.py:81-83,
    TG.py:152-156), and of which of them can be called with the context of which solver. *)
From Coq Require Import Reals List String Bool.
From Verif Require Import Base.Cplx Base.Sums Base.Fin Model.Maths Model.NS Model.VV.
Import ListNotations.
Open Scope R_scope.

Section Periodic.
Context {I X : Type} (T : transf I X).

(** NS.py:91-94 *)
Definition get_velocity_NS {D} (U_hat : svec D I) : pvec D X := bwdV T U_hat.
(** NS.py:86-89 and compute_curl, NS.py:124-129; [wk] = work[(U_hat, 0, False)] *)
Definition get_curl_NS (K : ax3 -> I -> R) (wk U_hat : svec ax3 I) : pvec ax3 X :=
  let curl_hat := cross2 wk K U_hat in
  bwdV T curl_hat.
(** NS2D.py:20-24; returns (curl, W_hat) *)
Definition get_curl_NS2D (K : ax2 -> I -> R) (U_hat : svec ax2 I) : pfield X * sfield I :=
  let W_hat := cross2_2d K U_hat in
  (bwd T W_hat, W_hat).
(** NS.py:106-110, NS2D.py:26-30 *)
Definition get_divergence_NS {D} (F : fin D) (K : D -> I -> R) (U_hat : svec D I) : pfield X :=
  bwd T (get_divergence_hat F K U_hat).
(** NS.py:96-99 *)
Definition get_pressure_NS (P_hat : sfield I) : pfield X := bwd T (get_pressure_hat P_hat).
(** NS.py:101-104; returns the new U_hat *)
Definition set_velocity_NS {D} (U : pvec D X) : svec D I := fwdV T U.

(** VV.py:69-72 with compute_velocity, VV.py:52-67 *)
Definition get_velocity_VV (KoK2 : ax3 -> I -> R) (W_hat : svec ax3 I) : pvec ax3 X :=
  bwdV T (velocity_hat KoK2 W_hat).
(** VV.py:80-83 *)
Definition get_curl_VV (W_hat : svec ax3 I) : pvec ax3 X := bwdV T W_hat.
(** VV.py:74-78; returns (div_u, U_hat) *)
Definition get_divergence_VV_p (K : ax3 -> I -> R) (U_hat W_hat : svec ax3 I) : pfield X * svec ax3 I :=
  let '(div_hat, U_hat) := get_divergence_VV K U_hat W_hat in
  (bwd T div_hat, U_hat).
(** NS.py:101-104, inherited by VV: sets U_hat; returns (U_hat, W_hat) *)
Definition set_velocity_VV (U : pvec ax3 X) (U_hat W_hat : svec ax3 I) : svec ax3 I * svec ax3 I :=
  (fwdV T U, W_hat).

(** MHD.py:84-87 with U_hat = UB_hat[:3], MHD.py:66 *)
Definition get_divergence_MHD (K : ax3 -> I -> R) (UB_hat : svec ax6 I) : pfield X :=
  bwd T (get_divergence_hat F3 K (fun i => UB_hat (inl i))).

(** Bq2D.py:85-88 *)
Definition get_Ur (Ur_hat : svec axb I) : pvec axb X := bwdV T Ur_hat.
(** Bq2D.py:90-93; returns (rho, Ur) *)
Definition get_rho (Ur : pvec axb X) (Ur_hat : svec axb I) : pfield X * pvec axb X :=
  let Ur := upd Fb Ur None (bwd T (Ur_hat None)) in
  (Ur None, Ur).
(** Bq2D.py:95-99; returns (U, Ur) *)
Definition get_velocity_Bq (Ur : pvec axb X) (Ur_hat : svec axb I) : pvec ax2 X * pvec axb X :=
  let Ur := upd Fb Ur (Some a0) (bwd T (Ur_hat (Some a0))) in
  let Ur := upd Fb Ur (Some a1) (bwd T (Ur_hat (Some a1))) in
  (fun i => Ur (Some i), Ur).
(** NS2D.py:20-30 as inherited by Bq2D (Bq2D.py:9), with U_hat = Ur_hat[:2], Bq2D.py:63 *)
Definition get_curl_Bq (K : ax2 -> I -> R) (Ur_hat : svec axb I) : pfield X * sfield I :=
  get_curl_NS2D K (fun i => Ur_hat (Some i)).
Definition get_divergence_Bq (K : ax2 -> I -> R) (Ur_hat : svec axb I) : pfield X :=
  get_divergence_NS F2 K (fun i => Ur_hat (Some i)).
End Periodic.

(** ** Which function a solver module has, and whether solver.f( **context) can be called *)
(** the modules solvers/NS.py:1, NS2D.py:1, VV.py:1, MHD.py:1, Bq2D.py:1 *)
Inductive solver := SNS | SNS2D | SVV | SMHD | SBq2D.
(** NS.py:86-110, Bq2D.py:85-99 *)
Inductive accessor := GetVelocity | GetCurl | GetPressure | SetVelocity | GetDivergence | GetUr | GetRho.
Open Scope string_scope.

(** The required parameters of the function found in the module's namespace, [None] if there is none.
    NS2D and VV start with "from .NS import *" (NS2D.py:9, VV.py:19), Bq2D with "from .NS2D import *"
    (Bq2D.py:9); MHD imports only end_of_tstep from NS (MHD.py:11). *)
(** NS.py:86-106, NS2D.py:20-26, VV.py:69-80, MHD.py:84, Bq2D.py:85-95 *)
Definition signature (s : solver) (a : accessor) : option (list string) :=
  match s, a with
  | SNS, GetCurl => Some ["curl"; "U_hat"; "work"; "VT"; "K"]
  | (SNS | SNS2D), GetVelocity => Some ["U"; "U_hat"; "VT"]
  | (SNS | SNS2D | SVV | SBq2D), GetPressure => Some ["P"; "P_hat"; "T"]
  | (SNS | SNS2D | SVV | SBq2D), SetVelocity => Some ["U"; "U_hat"; "VT"]
  | (SNS | SNS2D | SBq2D), GetDivergence => Some ["T"; "K"; "U_hat"; "mask"]
  | (SNS2D | SBq2D), GetCurl => Some ["curl"; "W_hat"; "U_hat"; "work"; "T"; "K"]
  | SVV, GetVelocity => Some ["W_hat"; "U"; "work"; "VT"; "K_over_K2"]
  | SVV, GetDivergence => Some ["T"; "K"; "U_hat"; "W_hat"]
  | SVV, GetCurl => Some ["curl"; "W_hat"; "VT"]
  | SMHD, GetDivergence => Some ["T"; "K"; "U_hat"]
  | SBq2D, GetUr => Some ["Ur"; "Ur_hat"]
  | SBq2D, GetRho => Some ["Ur"; "Ur_hat"]
  | SBq2D, GetVelocity => Some ["Ur"; "Ur_hat"]
  | _, _ => None
  end.

(** the names in the context (those that occur in the signatures) *)
(** NS.py:12-72 *)
Definition keys_NS : list string :=
  ["T"; "VT"; "Tp"; "VTp"; "mask"; "X"; "K"; "K2"; "K_over_K2"; "U"; "U_hat"; "P"; "P_hat"; "u_dealias"; "u";
   "dU"; "curl"; "Source"; "work"; "hdf5file"].
(** NS.py:72, NS2D.py:13-18, VV.py:23-39 (del c.P, c.P_hat), MHD.py:13-77, Bq2D.py:11-78 *)
Definition context_keys (s : solver) : list string :=
  match s with
  | SNS => keys_NS
  | SNS2D => keys_NS ++ ["W_hat"]
  | SVV => filter (fun x => negb (x =? "P") && negb (x =? "P_hat"))%bool keys_NS ++ ["W_hat"]
  | SMHD => ["T"; "VT"; "VM"; "Tp"; "VTp"; "VMp"; "mask"; "X"; "K"; "K2"; "K_over_K2"; "UB"; "P"; "curl"; "UB_hat";
             "P_hat"; "dU"; "Source"; "ub_dealias"; "ZZ_hat"; "U"; "U_hat"; "B"; "B_hat"; "u"; "hdf5file"]
  | SBq2D => ["T"; "VT"; "VM"; "Tp"; "VTp"; "VMp"; "mask"; "X"; "K"; "K2"; "K_over_K2"; "Ur"; "Ur_hat"; "P"; "P_hat";
              "curl"; "W_hat"; "ur_dealias"; "rho"; "rho_hat"; "U"; "U_hat"; "u"; "dU"; "work"; "hdf5file"]
  end.

Inductive outcome := Done | AttributeError | TypeError.
(** solver.f( **context): a missing function is an AttributeError, a missing argument a TypeError *)
(** NS.py:83-84 *)
Definition call (s : solver) (a : accessor) : outcome :=
  match signature s a with
  | None => AttributeError
  | Some req => if forallb (fun r => existsb (String.eqb r) (context_keys s)) req then Done else TypeError
  end.
(** a sequence of calls, stopped by the first exception *)
(** TG.py:152-156 *)
Fixpoint call_all (s : solver) (l : list accessor) : outcome :=
  match l with
  | [] => Done
  | a :: l => match call s a with Done => call_all s l | e => e end
  end.
(** the functions called when the results file is written: NS.py:83-84, VV.py:48-50, the latter two transform directly
    (MHD.py:80-82, Bq2D.py:81-83) *)
Definition update_components (s : solver) : list accessor :=
  match s with
  | SNS | SNS2D => [GetVelocity; GetPressure]
  | SVV => [GetVelocity; GetCurl]
  | SMHD | SBq2D => []
  end.
(** TG.py:152-158: the demo replaces it by its own, for every solver *)
Definition update_components_TG : list accessor := [GetVelocity; GetPressure; GetCurl].
