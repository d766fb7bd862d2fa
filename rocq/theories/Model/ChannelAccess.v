(** Model of the functions by which users read the fields of the channel solvers:
    which of them can be called with the context of which solver (KMM.py:157-231, KMMr.py:158-233,
    Coupled.py:141-163, CoupledRK3.py:147-169), what get_convection leaves in the context, and
    KMM.get_pressure (KMM.py:178-218). *)
From Coq Require Import Reals List String Bool Arith.
From Verif Require Import Base.Cplx Base.Sums Base.Fin Model.KMM Model.Coupled Model.Accessors.
Import ListNotations.
Open Scope R_scope.
Open Scope string_scope.

(** the modules solvers/KMM.py:1, KMMr.py:1, KMMRK3.py:1, KMM_RB.py:1, KMMRK3_RB.py:1, Coupled.py:1, CoupledRK3.py:1 *)
Inductive chsolver := SKMM | SKMMr | SKMMRK3 | SKMM_RB | SKMMRK3_RB | SCoupled | SCoupledRK3.
(** KMM.py:157-231, 266 *)
Inductive chaccessor := ChVelocity | ChSetVelocity | ChCurl | ChConvection | ChDivergence | ChDerivatives.

(** the required parameters of the function in the module's namespace; KMMRK3, KMM_RB and KMMRK3_RB take those of KMM
    ("from .KMM import *", KMMRK3.py:8, KMM_RB.py:8, "from .KMMRK3 import *", KMMRK3_RB.py:8) *)
(** KMM.py:157-266, KMMr.py:158-264, Coupled.py:141-157, CoupledRK3.py:147-163 *)
Definition ch_signature (s : chsolver) (a : chaccessor) : option (list string) :=
  match s, a with
  | (SCoupled | SCoupledRK3), ChVelocity => Some ["U"; "U_hat"]
  | (SCoupled | SCoupledRK3), ChSetVelocity => Some ["U_hat"; "U"]
  | (SCoupled | SCoupledRK3), ChConvection =>
      Some ["H_hat"; "U_hat"; "K"; "VFSp"; "VCp"; "FSTp"; "FCTp"; "work"; "u_dealias"; "curl_dealias"; "curl_hat"; "mat"; "la"]
  | (SCoupled | SCoupledRK3), ChDivergence => Some ["U_hat"; "FST"; "mask"]
  | (SCoupled | SCoupledRK3), (ChCurl | ChDerivatives) => None
  | _, ChVelocity => Some ["U"; "U_hat"; "VFS"]
  | _, ChSetVelocity => Some ["U_hat"; "U"; "VFS"]
  | SKMMr, ChCurl => Some ["curl"; "U_hat"; "g"; "work"; "FCTp"; "FSTp"; "FSBp"; "Kx"]
  | _, ChCurl => Some ["curl"; "U_hat"; "g"; "K"; "FCTp"; "FSTp"; "FSBp"; "work"]
  | SKMMr, ChConvection =>
      Some ["H_hat"; "U_hat"; "g"; "Kx"; "VFSp"; "FSTp"; "FSBp"; "FCTp"; "work"; "mat"; "la"; "u_dealias"]
  | _, ChConvection =>
      Some ["H_hat"; "U_hat"; "g"; "K"; "VFSp"; "FSTp"; "FSBp"; "FCTp"; "work"; "mat"; "la"; "u_dealias"]
  | SKMMr, ChDivergence => Some ["U"; "U_hat"; "FST"; "K"; "Kx"; "work"; "la"; "mat"]
  | _, ChDivergence => Some ["U"; "U_hat"; "FST"; "K"; "work"; "la"; "mat"]
  | _, ChDerivatives => Some ["U"; "U_hat"; "FST"; "FCT"; "FSB"; "K"; "la"; "mat"; "work"]
  end.

(** locals() of get_context *)
(** KMM.py:20-138 *)
Definition keys_KMM : list string :=
  ["collapse_fourier"; "ST"; "SB"; "CT"; "ST0"; "K0"; "K1"; "kw0"; "FST"; "FSB"; "FCT"; "VFS"; "VFST"; "VUG"; "VCT";
   "mask"; "kw"; "FSTp"; "FSBp"; "FCTp"; "VFSp"; "float"; "complex"; "mpitype"; "X"; "x0"; "x1"; "x2"; "K"; "U"; "U0";
   "U_hat"; "U_hat0"; "g"; "u"; "H_hat"; "H_hat0"; "H_hat1"; "dU"; "hv"; "hg"; "Source"; "Sk"; "K2"; "K4"; "K_over_K2";
   "i"; "work"; "u_dealias"; "u0_hat"; "h0_hat"; "w"; "w1"; "nu"; "dt"; "N"; "alfa"; "mat"; "la"; "hdf5file"].
(** KMMr.py:18-138: without VCT and alfa, with Kx and Kx2 *)
Definition keys_KMMr : list string :=
  filter (fun x => negb ((x =? "VCT") || (x =? "alfa"))) keys_KMM ++ ["Kx"; "Kx2"].
(** KMMRK3.py:13-47: del c.U0, c.U_hat0, c.H_hat0, c.H_hat1 *)
Definition keys_KMMRK3 : list string :=
  filter (fun x => negb ((x =? "U0") || (x =? "U_hat0") || (x =? "H_hat0") || (x =? "H_hat1"))) keys_KMM ++ ["h1"; "a"; "b"].
(** Coupled.py:17-123 *)
Definition keys_Coupled : list string :=
  ["collapse_fourier"; "ST"; "CT"; "CP"; "K0"; "K1"; "kw0"; "FST"; "FCT"; "FCP"; "VFS"; "VCT"; "VQ"; "mask"; "kw"; "FSTp";
   "FCTp"; "VFSp"; "VCp"; "float"; "complex"; "mpitype"; "constraints"; "X"; "x0"; "x1"; "x2"; "K"; "UP_hat"; "UP_hat0";
   "U_hat"; "P_hat"; "U_hat0"; "P_hat0"; "UP"; "UP0"; "U"; "P"; "U0"; "P0"; "u"; "H_hat"; "H_hat0"; "H_hat1"; "dU"; "Source";
   "Sk"; "K2"; "i"; "work"; "u_dealias"; "curl_hat"; "curl_dealias"; "nu"; "dt"; "N"; "up"; "vq"; "ut"; "pt"; "vt"; "qt";
   "alfa"; "a0"; "a1"; "a2"; "M"; "mat"; "la"; "hdf5file"].
(** CoupledRK3.py:17-131 *)
Definition keys_CoupledRK3 : list string :=
  filter (fun x => negb ((x =? "H_hat0") || (x =? "H_hat1") || (x =? "alfa"))) keys_Coupled ++ ["family"; "a"; "b"; "hv"].
(** KMM_RB.py:15-54, KMMRK3_RB.py:15-50 *)
Definition ch_keys (s : chsolver) : list string :=
  match s with
  | SKMM => keys_KMM
  | SKMMr => keys_KMMr
  | SKMMRK3 => keys_KMMRK3
  | SKMM_RB => keys_KMM ++ ["RB"; "FRB"; "FRBp"; "phi"; "phi0"; "phi_hat"; "phi_hat0"; "phi_hat1"; "phi_ab"; "UCN"; "N_hat";
                            "N_hat0"; "CTD"; "BTT"; "TC"]
  | SKMMRK3_RB => keys_KMMRK3 ++ ["RB"; "FRB"; "FRBp"; "phi"; "phi0"; "phi_hat"; "Ua"; "N_hat"; "N_hat0"; "CTD"; "BTT"; "TC"]
  | SCoupled => keys_Coupled
  | SCoupledRK3 => keys_CoupledRK3
  end.
(** a list of names against the keys of the context *)
(** config.py:56-82 *)
Definition has_keys (s : chsolver) (req : list string) : bool :=
  forallb (fun r => existsb (String.eqb r) (ch_keys s)) req.
(** solver.f( **context) *)
(** MKM.py:161 *)
Definition ch_call (s : chsolver) (a : chaccessor) : outcome :=
  match ch_signature s a with
  | None => AttributeError
  | Some req => if has_keys s req then Done else TypeError
  end.
(** get_pressure(context, solver) reads attributes of the context, then calls solver.get_convection( **context) *)
(** KMM.py:178-195, KMMr.py:179-196; no function of this name in Coupled.py, CoupledRK3.py *)
Definition ch_pressure (s : chsolver) : outcome :=
  match s with
  | SCoupled | SCoupledRK3 => AttributeError
  | SKMMr => if has_keys s ["FCT"; "FST"; "VFS"; "U_hat0"; "U0"]
             then match ch_call s ChConvection with Done => if has_keys s ["nu"] then Done else AttributeError | e => e end
             else AttributeError
  | _ => if has_keys s ["FCT"; "FST"; "U_hat"; "U_hat0"; "U"; "U0"]
         then match ch_call s ChConvection with Done => if has_keys s ["nu"] then Done else AttributeError | e => e end
         else AttributeError
  end.

(** ** What get_convection and get_pressure change *)
(** KMM.py:172-176: conv_ writes its result into the H_hat of the context *)
Definition get_convection (conv : vfld -> fld -> vfld) (s : kst) : vfld * kst :=
  let H := conv (U_hat s) (g s) in
  (H, mkK (U_hat s) (g s) H (H_hat0 s) (H_hat1 s) (U_hat0 s)).
(** the same in KMMRK3 (KMM.py:172-176 through KMMRK3.py:8) *)
Definition get_convection_rk (conv : vfld -> fld -> vfld) (s : rst) : vfld * rst :=
  let H := conv (r_U s) (r_g s) in
  (H, mkRst (r_U s) (r_g s) H (r_hv0 s) (r_hg0 s) (r_h1 s)).
(** Coupled.py:151-155 *)
Definition get_convection_c (conv : vfld -> vfld) (s : cst) : vfld * cst :=
  let H := conv (fst (cUP s)) in
  (H, mkC (cUP s) (cUP0 s) H (cH0 s) (cH1 s)).

(** ** KMM.get_pressure, one Fourier mode; wall normal coefficients of the spaces of shenfun with N points *)
(** Chebyshev coefficients of a function of FST with coefficients v (basis T_k - T_{k+2}) *)
(** KMM.py:26, 184-185 *)
Definition ST_to_T (N : nat) (v : col) : col := fun i =>
  ((if (i <? N - 2)%nat then v i else C0) - (if (2 <=? i)%nat then v (i - 2)%nat else C0))%C.
(** Chebyshev coefficients of the derivative of a Chebyshev series *)
(** KMM.py:195 *)
Definition D_T (N : nat) (b : col) : col := fun i =>
  (RtoC (match i with O => 1 | _ => 2 end) *
   Csum N (fun q => if (i <? q)%nat && Nat.odd (q - i) then RtoC (INR q) * b q else C0))%C.
(** inner(f, v), v = T_i, for the function with Chebyshev coefficients b; quadrature GC, the default of params.Dquad *)
(** KMM.py:193-197 *)
Definition inner_T (b : col) : col := fun i => (RtoC (match i with O => PI | _ => PI / 2 end) * b i)%C.
(** div(grad( )) of a function of FST in the mode with K[1]^2 + K[2]^2 = ksq *)
(** KMM.py:195 *)
Definition lap_ST (N : nat) (ksq : R) (v : col) : col :=
  csub (D_T N (D_T N (ST_to_T N v))) (rsc ksq (ST_to_T N v)).
(** KMM.py:184-197; u, u0 are columns of U_hat[0] and U_hat0[0], h of get_convection()[0]. The columns of U_hat[0] are
    coefficients in FSB; assigning them to arrays of FST keeps the numbers *)
Definition pressure_rhs (N : nat) (nu dt ksq : R) (u u0 h : col) : col :=
  let Um := rsc 0.5 (cadd u u0) in                                 (* l.184-185 *)
  let rhs_hat := inner_T (rsc nu (lap_ST N ksq Um)) in             (* l.195 *)
  let Hx := csub h (rsc (1 / dt) (csub u u0)) in                   (* l.190-191, 196 *)
  cadd rhs_hat (inner_T (ST_to_T N Hx)).                           (* l.197 *)
(** the matrix (T_j', T_i) with the entry (N-1, 0) set to 1 *)
(** KMM.py:199-205 *)
Definition CT_mat (N i j : nat) : R :=
  if (i =? N - 1)%nat && (j =? 0)%nat then 1
  else if (i <? j)%nat && Nat.odd (j - i) then INR j * PI else 0.
(** p_hat = CT.solve(rhs_hat, p_hat): any solution of the system *)
(** KMM.py:207-208 *)
Definition CT_solves (N : nat) (r p : col) : Prop :=
  forall i, (i < N)%nat -> Csum N (fun j => (RtoC (CT_mat N i j) * p j)%C) = r i.
Definition is_pressure (N : nat) (nu dt ksq : R) (u u0 h p : col) : Prop :=
  CT_solves N (pressure_rhs N nu dt ksq u u0 h) p.
(** KMM.py:210-218 at a mesh point: p is the backward transform, U and U0 the velocities there *)
Definition pressure_value (vortex : bool) (p : R) (U U0 : ax3 -> R) : R :=
  let uu := if vortex then 0.5 * RsumL (elems F3) (fun i => (0.5 * (U i + U0 i)) ^ 2) else 0 in
  p - uu.
