(** Model of the convection terms and of the vorticity of the channel solvers:
    KMM.py:233-396, KMMr.py:234-397 (Cross, compute_curl, compute_derivatives,
    standardConvection, divergenceConvection, getConvection) and Coupled.py:165-280,
    CoupledRK3.py (the same text but for an unused work array).

    Arrays are those of Model/KMM.v: [F j k] is a column of coefficients along the wall
    normal direction.  Physical arrays are functions on the mesh points [X].
    External (shenfun) operations are arbitrary functions:
    - [bST], [bSB], [bCT]: backward of FSTp, FSBp, FCTp;  [fST]: FSTp.forward;
    - [bU c], [b_dy c]: backward of component c of VFSp, and of the space used for the
      tangential derivatives of that component;
    - [dxU c F]: project(Dx(F, 0, 1), S).backward() with F in the space of component c and
      S = FSTp for the wall normal component, FCTp for the other two;
    - [dxdiv c F]: component c of project(Dx(F_tmp, 0, 1), VFSp), F_tmp a Function of VFSp.
    Every output array (rhs, c, work arrays) is an argument holding stale values. *)
From Coq Require Import Reals List Bool Arith.
From Verif Require Import Base.Cplx Base.Fin Model.Maths Model.LU Model.KMM.
Open Scope R_scope.

(** LUsolve.Mult_CTD_3D_ptr(N, v, w, bv, bw, axis), LUsolve.pyx:162-182, with [axis] the wall
    normal axis, so that the lines are the columns.  The loop over the lines of Model/LU.v is
    replaced by its effect on each column (theorem ctd_3d_lines). *)
Definition Mult_CTD_cols (N : nat) (v w bv bw : fld) : fld * fld :=
  (fun j k => fst (Mult_CTD_1D N (v j k) (w j k) 0 1 (bv j k) (bw j k)),
   fun j k => snd (Mult_CTD_1D N (v j k) (w j k) 0 1 (bv j k) (bw j k))).

Definition fmul (a : nat -> nat -> C) (F : fld) : fld := fun j k => csc (a j k) (F j k).
Definition fadd (F G : fld) : fld := fun j k => cadd (F j k) (G j k).
Definition vscale (a : R) (F : vfld) : vfld := fun c j k => rsc a (F c j k).

Section Conv.
Context {X : Type} (N : nat) (K1 K2 : nat -> R).
Context (bST bSB bCT : fld -> X -> R) (fST : (X -> R) -> fld).

Definition pv := ax3 -> X -> R.
Definition padd (f g : X -> R) : X -> R := fun p => f p + g p.
Definition psub (f g : X -> R) : X -> R := fun p => f p - g p.
Definition pmul (f g : X -> R) : X -> R := fun p => f p * g p.

(** 1j*K of the first and second periodic direction *)
(** KMM.py:241-247, 1j*K[1] *)
Definition iK1 : nat -> nat -> C := fun j _ => (Ci * RtoC (K1 j))%C.
(** KMM.py:241-247, 1j*K[2] *)
Definition iK2 : nat -> nat -> C := fun _ k => (Ci * RtoC (K2 k))%C.

(** KMM.py:234-240 (KMMr.py:235-241, Coupled.py:165-171): [Uc] is work[(a, 2, False)] *)
Definition Cross (Uc : pv) (c : vfld) (a b : pv) : vfld :=
  let Uc := cross1 Rmult Rminus Uc a b in
  let c := upd F3 c x0 (fST (Uc x0)) in
  let c := upd F3 c x1 (fST (Uc x1)) in
  upd F3 c x2 (fST (Uc x2)).

(** KMM.py:242-246: f[0] = 1j*K[2]*a, f[1] = -1j*K[1]*a *)
Definition mult_K1j (a : fld) : fld * fld :=
  (fmul iK2 a, fmul (fun j k => (- iK1 j k)%C) a).

(** KMM.py:248-264; F_tmp = work[(u_hat, 0, False)] *)
Definition compute_curl (F_tmp : vfld) (c : pv) (u : vfld) (g : fld) : pv :=
  let F := Mult_CTD_cols N (u x1) (u x2) (F_tmp x1) (F_tmp x2) in          (* l.254 *)
  let dvdx := bCT (fst F) in                                               (* l.255 *)
  let dwdx := bCT (snd F) in                                               (* l.256 *)
  let c := upd F3 c x0 (bST g) in                                          (* l.257 *)
  let F2 := mult_K1j (u x0) in                                             (* l.258 *)
  let c := upd F3 c x1 (bSB (fst F2)) in                                   (* l.260 *)
  let c := upd F3 c x1 (psub (c x1) dwdx) in                               (* l.261 *)
  let c := upd F3 c x2 (bSB (snd F2)) in                                   (* l.262 *)
  upd F3 c x2 (padd (c x2) dvdx).                                          (* l.263 *)

(** KMMr.py:243-262: wall normal direction 2, periodic directions 0 and 1 *)
Definition compute_curl_r (F_tmp : vfld) (c : pv) (u : vfld) (g : fld) : pv :=
  let F := Mult_CTD_cols N (u x0) (u x1) (F_tmp x0) (F_tmp x1) in          (* l.250 *)
  let dudz := bCT (fst F) in                                               (* l.252 *)
  let dvdz := bCT (snd F) in                                               (* l.253 *)
  let c := upd F3 c x2 (bST g) in                                          (* l.254 *)
  let dwdy := fmul iK2 (u x2) in                                           (* l.255, 1j*K[1] *)
  let dwdx := fmul iK1 (u x2) in                                           (* l.256, 1j*K[0] *)
  let c := upd F3 c x0 (bSB dwdy) in                                       (* l.258 *)
  let c := upd F3 c x0 (psub (c x0) dvdz) in                               (* l.259 *)
  let c := upd F3 c x1 (bSB (fmul (fun _ _ => (- C1)%C) dwdx)) in          (* l.260 *)
  upd F3 c x1 (padd (c x1) dudz).                                          (* l.261 *)

(** ** The forms of getConvection *)
Context (bU b_dy dxU : ax3 -> fld -> X -> R) (dxdiv : ax3 -> fld -> fld).

(** VFSp.backward(u_hat, u_dealias) *)
(** KMM.py:360, 369, 378, 390 *)
Definition vback (u : vfld) : pv := fun c => bU c (u c).

(** KMM.py:285-322 and Coupled.py:179-207 *)
Definition standardConvection (rhs : vfld) (U : pv) (u : vfld) : vfld :=
  let rhs : vfld := fun _ _ _ => czero in                                  (* rhs[:] = 0 *)
  let dudx := dxU x0 (u x0) in
  let dvdx := dxU x1 (u x1) in
  let dwdx := dxU x2 (u x2) in
  let dudy := b_dy x0 (fmul iK1 (u x0)) in
  let dudz := b_dy x0 (fmul iK2 (u x0)) in
  let rhs := upd F3 rhs x0
    (fST (padd (padd (pmul (U x0) dudx) (pmul (U x1) dudy)) (pmul (U x2) dudz))) in
  let dvdy := b_dy x1 (fmul iK1 (u x1)) in
  let dvdz := b_dy x1 (fmul iK2 (u x1)) in
  let rhs := upd F3 rhs x1
    (fST (padd (padd (pmul (U x0) dvdx) (pmul (U x1) dvdy)) (pmul (U x2) dvdz))) in
  let dwdy := b_dy x2 (fmul iK1 (u x2)) in
  let dwdz := b_dy x2 (fmul iK2 (u x2)) in
  upd F3 rhs x2
    (fST (padd (padd (pmul (U x0) dwdx) (pmul (U x1) dwdy)) (pmul (U x2) dwdz))).

(** KMM.py:324-353 and Coupled.py:209-238 *)
Definition divergenceConvection (add : bool) (rhs : vfld) (U : pv) : vfld :=
  let rhs : vfld := if add then rhs else fun _ _ _ => czero in
  let F := fun c => fST (pmul (U x0) (U c)) in
  let rhs : vfld := fun c => fadd (rhs c) (dxdiv c (F c)) in
  let F20 := fST (pmul (U x0) (U x1)) in
  let F21 := fST (pmul (U x0) (U x2)) in
  let rhs := upd F3 rhs x0 (fadd (rhs x0) (fmul iK1 F20)) in
  let rhs := upd F3 rhs x0 (fadd (rhs x0) (fmul iK2 F21)) in
  let F0 := fST (pmul (U x1) (U x1)) in
  let F1 := fST (pmul (U x1) (U x2)) in
  let F2 := fST (pmul (U x2) (U x2)) in
  let rhs := upd F3 rhs x1 (fadd (rhs x1) (fmul iK1 F0)) in
  let rhs := upd F3 rhs x1 (fadd (rhs x1) (fmul iK2 F1)) in
  let rhs := upd F3 rhs x2 (fadd (rhs x2) (fmul iK1 F1)) in
  upd F3 rhs x2 (fadd (rhs x2) (fmul iK2 F2)).

(** KMM.py:355-396 and Coupled.py:240-280.  [curl] is compute_curl(curl_dealias, ...), which in
    Coupled is project(curl(u_hat), VCp) transformed back.  Any other name leaves Conv unbound,
    l.395 "Conv.convection = convection" then raises UnboundLocalError: None. *)
Inductive form := Standard | Divergence | Skew | Vortex | OtherForm.
Definition getConvection (f : form) (curl : vfld -> fld -> pv) (Uc : pv)
    : option (vfld -> vfld -> fld -> vfld) :=
  match f with
  | Standard => Some (fun rhs u g =>
      let U := vback u in
      let rhs := standardConvection rhs U u in
      vscale (- 1) rhs)
  | Divergence => Some (fun rhs u g =>
      let U := vback u in
      let rhs := divergenceConvection false rhs U in
      vscale (- 1) rhs)
  | Skew => Some (fun rhs u g =>
      let U := vback u in
      let rhs := standardConvection rhs U u in
      let rhs := divergenceConvection true rhs U in
      vscale (- (1 / 2)) rhs)
  | Vortex => Some (fun rhs u g =>
      let U := vback u in
      let w := curl u g in
      Cross Uc rhs U w)
  | OtherForm => None
  end.

(** ** Names looked up in the compiled module LUsolve *)
(** The functions LUsolve.pyx defines for Python: "def" at l.20 and l.162; l.37 and l.116 are
    "cdef" functions, not visible from Python. *)
Inductive luname := n_Mult_Div_3D | n_Mult_CTD_3D_ptr | n_Mult_CTD_3D_n.
Definition lu_defined (n : luname) : bool :=
  match n with n_Mult_Div_3D | n_Mult_CTD_3D_ptr => true | n_Mult_CTD_3D_n => false end.
Inductive res (A : Type) := Ok (a : A) | AttributeError.
Arguments Ok {A} a.
Arguments AttributeError {A}.
Definition lookup {A} (n : luname) (k : A) : res A := if lu_defined n then Ok k else AttributeError.

(** KMM.py:266-284 compute_derivatives; [cdb F] is CDB.matvec followed by TDMASolverD.
    The three spaces are the unpadded FST, FCT, FSB here. *)
Definition compute_derivatives (cdb : fld -> fld) (F_tmp : vfld) (u : vfld) : res (ax3 -> ax3 -> X -> R) :=
  let d : ax3 -> ax3 -> X -> R := fun _ _ _ => 0 in
  let F0 := cdb (u x0) in
  let d := upd F3 d x0 (upd F3 (d x0) x0 (bST F0)) in
  match lookup n_Mult_CTD_3D_n (Mult_CTD_cols N (u x1) (u x2) (F_tmp x1) (F_tmp x2)) with   (* l.274 *)
  | AttributeError => AttributeError
  | Ok F =>
    let d := upd F3 d x1 (upd F3 (d x1) x0 (bCT (fst F))) in
    let d := upd F3 d x2 (upd F3 (d x2) x0 (bCT (snd F))) in
    let d := upd F3 d x0 (upd F3 (d x0) x1 (bSB (fmul iK1 (u x0)))) in
    let d := upd F3 d x0 (upd F3 (d x0) x2 (bSB (fmul iK2 (u x0)))) in
    let d := upd F3 d x1 (upd F3 (d x1) x1 (bST (fmul iK1 (u x1)))) in
    let d := upd F3 d x1 (upd F3 (d x1) x2 (bST (fmul iK2 (u x1)))) in
    let d := upd F3 d x2 (upd F3 (d x2) x1 (bST (fmul iK1 (u x2)))) in
    Ok (upd F3 d x2 (upd F3 (d x2) x2 (bST (fmul iK2 (u x2)))))
  end.

(** KMMr.py:283-317 standardConvection up to and after the failing call at l.297 *)
Definition standardConvection_r (rest : fld * fld -> vfld) (F_tmp u : vfld) : res vfld :=
  match lookup n_Mult_CTD_3D_n (Mult_CTD_cols N (u x1) (u x2) (F_tmp x1) (F_tmp x2)) with
  | AttributeError => AttributeError
  | Ok F => Ok (rest F)
  end.
End Conv.
Arguments Ok {A} a.
Arguments AttributeError {A}.
