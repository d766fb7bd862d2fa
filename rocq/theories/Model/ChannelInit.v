(** Model of what the channel demos start from: MKM.initialize, OrrSommerfeld.initialize and
    OrrSommerfeldr.initialize, LaminarChannel.initialize, and of the reference solutions that
    OrrSommerfeld.py and LaminarChannel.py compare a run with.

    Indices: i along the wall normal direction, (a, b) mesh point and (j, k) mode of the two periodic
    directions.  The transform of FST = (ST, K0, K1) is the two dimensional real transform of every
    plane followed by the wall normal transform [fS] of every column; [bS] is its backward.
    Arrays are those of one process, or the global ones put together. *)
From Coq Require Import Reals List Bool Arith String.
From Verif Require Import Base.Cplx Base.Sums Base.Fin Model.KMM Model.ChannelDemo Model.Config Spec.Energy Spec.TaylorGreen.
Open Scope R_scope.

(** a real array over the mesh of the channel *)
(** KMM.py:62-65 *)
Definition parr := nat -> nat * nat -> R.
(** three of them, KMM.py:62-65 *)
Definition pvel := ax3 -> parr.

Section Transform.
Context (N : ax2 -> nat) (tr : nat * nat -> R) (fS bS : col -> col).
(** Array.forward / Function.backward of the spaces built at KMM.py:38-50 *)
Definition fwd (p : parr) : fld := fun j k => fS (fun i => rfft2 N N tr (p i) (j, k)).
Definition bwd (f : fld) : parr := fun i => irfft2 N N tr (fun q => bS (f (fst q) (snd q)) i).
Definition fwdV (U : pvel) : vfld := fun c => fwd (U c).
Definition bwdV (u : vfld) : pvel := fun c => bwd (u c).

(** * MKM.py *)
(** MKM.py:38-46, the parameters read *)
Record mkm := mkMkm { m_nu : R; m_Re : R; m_L1 : R; m_L2 : R }.   (* nu, Re_tau, L[1], L[2] *)
Context (X0 : nat -> R) (X1 X2 : nat -> R).
(** MKM.py:36 *)
Definition Ydist (x : R) : R := if Rlt_dec x 0 then 1 + x else 1 - x.
(** MKM.py:36-54.  [dev i a b] is the array 1+1e-7*randn of the process; [ya], [za] is the first y
    and the first z index that the process owning (a, b) has (slices slice(0, 1) of l.52 and l.54). *)
Definition MKM_field (p : mkm) (dev : nat -> nat -> nat -> R) (ya za : nat -> nat) (U : pvel) : pvel :=
  let utau := m_nu p * m_Re p in
  let Um := 46.9091 * utau in
  let Y := fun i => Ydist (X0 i) in
  let Xplus := fun i => Y i * m_Re p in
  let Yplus := fun a => X1 a * m_Re p in
  let Zplus := fun b => X2 b * m_Re p in
  let duplus := Um * 0.2 / utau in
  let alfaplus := m_L1 p / 200 in
  let betaplus := m_L2 p / 100 in
  let sigma := 0.00055 in
  let epsilon := Um / 200 in
  let U := fun _ _ _ => 0 in                                                       (* l.48 *)
  let U := upd F3 U x1 (fun i _ => Um * (Y i - 0.5 * (Y i) ^ 2)) in                (* l.49 *)
  let dd := fun i x => utau * duplus / 2.0 * Xplus i / 40 * exp (- sigma * (Xplus i) ^ 2 + 0.5)
                       * cos (betaplus * Zplus (snd x)) * dev i (ya (fst x)) (snd x) in   (* l.52 *)
  let U := upd F3 U x1 (fun i x => U x1 i x + dd i x) in                           (* l.53 *)
  upd F3 U x2 (fun i x => U x2 i x + epsilon * sin (alfaplus * Yplus (fst x)) * Xplus i
                       * exp (- sigma * (Xplus i) ^ 2) * dev i (fst x) (za (snd x))).     (* l.54 *)

(** MKM.py:55-59: forward, mask, backward, forward *)
Definition MKM_velocity (mask : option (nat -> nat -> R)) (U : pvel) : vfld :=
  fwdV (bwdV (mask_vfld mask (fwdV U))).

(** MKM.py:30-79.  compute_pressure (l.74) is not defined by any channel solver. *)
Inductive started := AttributeError | StartedK (s : kst) | StartedR (s : rst).
Definition MKM_initialize (K1 K2 : nat -> R) (conv : vfld -> fld -> vfld) (mask : option (nat -> nat -> R))
    (solver : string) (p : mkm) dev ya za (U : pvel) (c : kst) (r : rst) : started :=
  let u := MKM_velocity mask (MKM_field p dev ya za U) in
  if negb (is_substring "KMM" solver) then AttributeError                          (* l.73-75 *)
  else if negb (is_substring "RK3" solver) then StartedK (initialize_kmm K1 K2 conv u c)   (* l.61-62, 77-79 *)
  else StartedR (mkRst u (g_of K1 K2 u) (r_H r) (r_hv0 r) (r_hg0 r) (r_h1 r)).      (* l.61-62 *)

(** * OrrSommerfeld.py *)
(** exp of a complex number, OrrSommerfeld.py:24-25 *)
Definition Cexp (z : C) : C := (RtoC (exp (Re z)) * cis (Im z))%C.
(** OrrSommerfeld.py:18-29 at the point (x, y): [phi], [dphidy] are the values of OS.interp at x *)
Definition OS_point (phi dphidy lam : C) (eps t x y : R) (c : ax3) : R :=
  let e := Cexp (Ci * (RtoC y - lam * RtoC t))%C in
  match c with
  | x0 => - eps * Re (Ci * phi * e)%C                                              (* l.25 *)
  | x1 => (1 - x ^ 2) + eps * Re (dphidy * e)%C                                    (* l.24 *)
  | x2 => 0                                                                        (* l.28 *)
  end.
(** OrrSommerfeld.py:19-28, on the mesh *)
Definition OS_field (phi dphidy : nat -> C) (lam : C) (eps t : R) : pvel := fun c i x =>
  OS_point (phi i) (dphidy i) lam eps t (X0 i) (X1 (fst x)) c.

(** OrrSommerfeld.py:41-64, 77-81 when RK3 is not in the name: u0, u1 are U_hat at t = 0 and t = dt.
    Returns the arrays and (params.t, params.tstep). *)
Definition OS_initialize (conv : vfld -> fld -> vfld) (dt : R) (u0 u1 : vfld) (c : kst) : kst * (R * nat) :=
  let c := mkK u0 (g c) (H_hat c) (H_hat0 c) (H_hat1 c) (U_hat0 c) in              (* l.43 *)
  let H := conv (U_hat c) (g c) in
  let c := mkK (U_hat c) (g c) H (H_hat0 c) H (U_hat0 c) in                        (* l.53 *)
  let c := mkK (U_hat c) (g c) (H_hat c) (H_hat0 c) (H_hat1 c) (U_hat c) in        (* l.54 *)
  let c := mkK u1 (g c) (H_hat c) (H_hat0 c) (H_hat1 c) (U_hat0 c) in              (* l.57 *)
  (mkK (U_hat c) (fun _ _ => czero) (H_hat c) (H_hat0 c) (H_hat1 c) (U_hat0 c), (dt, 1%nat)).
(** OrrSommerfeldr.py:45-77: the same for KMMr, but U_hat0 is set after U_hat (l.60) *)
Definition OSr_initialize (conv : vfld -> fld -> vfld) (dt : R) (u0 u1 : vfld) (c : kst) : kst * (R * nat) :=
  let c := mkK u0 (g c) (H_hat c) (H_hat0 c) (H_hat1 c) (U_hat0 c) in
  let H := conv (U_hat c) (g c) in
  let c := mkK (U_hat c) (g c) H (H_hat0 c) H (U_hat0 c) in
  let c := mkK u1 (g c) (H_hat c) (H_hat0 c) (H_hat1 c) (U_hat0 c) in
  let c := mkK (U_hat c) (g c) (H_hat c) (H_hat0 c) (H_hat1 c) (U_hat c) in
  (mkK (U_hat c) (fun _ _ => czero) (H_hat c) (H_hat0 c) (H_hat1 c) (U_hat0 c), (dt, 1%nat)).
(** OrrSommerfeld.py:66-68, 77-81 for the RK3 solvers *)
Definition OS_initialize_rk (u0 : vfld) (c : rst) : rst * (R * nat) :=
  (mkRst u0 (fun _ _ => czero) (r_H c) (r_hv0 c) (r_hg0 c) (r_h1 c), (0, 0%nat)).
End Transform.

(** get_context: Function(...) and Array(...) are zero *)
(** KMM.py:62-75 *)
Definition fresh : kst :=
  mkK (fun _ _ _ => czero) (fun _ _ => czero) (fun _ _ _ => czero) (fun _ _ _ => czero)
      (fun _ _ _ => czero) (fun _ _ _ => czero).
(** LaminarChannel.py:9-11 *)
Definition Laminar_initialize (c : kst) : kst :=
  mkK (fun _ _ _ => czero) (g c) (H_hat c) (H_hat0 c) (H_hat1 c) (U_hat0 c).

(** * Reference solutions *)
(** range(1, 2*n, 2), LaminarChannel.py:22, 34 *)
Definition odds (n : nat) : list nat := map (fun m => (2 * m + 1)%nat) (seq 0 n).
(** LaminarChannel.py:19-29 *)
Definition Laminar_exact (nu Re t : R) (num_terms : nat) (x : R) : R :=
  let beta := 2 / Re in
  let u := fold_left (fun u i =>
     let lam_k := (2 * INR i - 1) * PI / 2 in
     let lam_kp := (2 * (INR i + 1) - 1) * PI / 2 in
     let u := u - cos (lam_k * x) * exp (- nu * lam_k ^ 2 * t) / lam_k ^ 3 in
     u + cos (lam_kp * x) * exp (- nu * lam_kp ^ 2 * t) / lam_kp ^ 3) (odds num_terms) 0 in
  let u := u * (2 * beta / nu) in
  u + beta / 2 / nu * (1 - x ^ 2).
(** LaminarChannel.py:31-39: the pair is (u, c) *)
Definition Laminar_reference (Re t : R) (num_terms : nat) : R :=
  fst (fold_left (fun uc n =>
     let a := 32 / (PI ^ 3 * INR n ^ 3) in
     let b := (0.25 / Re) * PI ^ 2 * INR n ^ 2 in
     let c := - snd uc in
     (fst uc + a * exp (- b * t) * c, c)) (odds num_terms) (1, 1)).
(** OrrSommerfeld.py:150 *)
Definition OS_exact (lam : C) (t : R) : R := exp (2 * Im lam * t).
(** OrrSommerfeld.py:147, 48, 61: (U[1] - (1-X[0]**2))**2 + U[0]**2 *)
Definition OS_pert (X0 : nat -> R) (U : pvel) : parr := fun i x =>
  (U x1 i x - (1 - X0 i ^ 2)) ^ 2 + U x0 i x ^ 2.
(** OrrSommerfeld_shen.py:53-82, the operators behind the matrices A and B (K, M, Q, K1, K2 are the Galerkin
    matrices of D^2, 1, D^4, (1-x^2), (1-x^2) D^2); [d n] is the n-th derivative of the eigenfunction at x *)
Definition OS_A (Re a x : R) (d : nat -> C) : C :=
  (d 4%nat - RtoC (2 * a ^ 2) * d 2%nat + RtoC (a ^ 4) * d 0%nat - RtoC (2 * a * Re) * Ci * d 0%nat
   - Ci * RtoC (a * Re) * (RtoC (1 - x ^ 2) * d 2%nat - RtoC (a ^ 2) * (RtoC (1 - x ^ 2) * d 0%nat)))%C.
Definition OS_B (Re a : R) (d : nat -> C) : C :=
  (- RtoC (Re * a) * Ci * (d 2%nat - RtoC (a ^ 2) * d 0%nat))%C.
