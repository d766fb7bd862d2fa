(** Model of the parts of demo/MKM.py and demo/RayleighBenard.py that touch the state of the
    channel solvers: setting g, restarting from a checkpoint, and the flux controller.

    The states are those of Model/KMM.v and Model/KMMRB.v; conv is the convection function
    behind solver.get_convection (KMM.py:172-176, which writes context.H_hat and returns it).
    A checkpoint file holds the global arrays; the slice read by a rank is what it wrote. *)
From Coq Require Import Reals List Bool Arith.
From Verif Require Import Base.Cplx Base.Fin Model.KMM Model.KMMRB.
Open Scope R_scope.

Section Demo.
Context (K1 K2 : nat -> R) (conv : vfld -> fld -> vfld).

(** MKM.py:62, 278; RayleighBenard.py:196, 204:
    g = 1j*K[1]*U_hat[2] - 1j*K[2]*U_hat[1] *)
Definition g_of (u : vfld) : fld := fun j k =>
  csub (csc (Ci * RtoC (K1 j))%C (u x2 j k)) (csc (Ci * RtoC (K2 k))%C (u x1 j k)).

(** Datasets U/3D/0 and U/3D/1 of the file: KMM.py:131-136 writes both, KMMRK3.py:45 removes
    the second. *)
Record ckpt := mkCk { f_0 : vfld; f_1 : option vfld }.
Definition saved (s : kst) : ckpt := mkCk (U_hat s) (Some (U_hat0 s)).
Definition saved_rk (s : rst) : ckpt := mkCk (r_U s) None.

(** MKM.py:258-279 when the name of the solver does not contain RK3.  None: AssertionError at l.267. *)
Definition init_from_file (f : ckpt) (c : kst) : option kst :=
  match f_1 f with
  | None => None
  | Some u1 =>
      let c := mkK u1 (g c) (H_hat c) (H_hat0 c) (H_hat1 c) (U_hat0 c) in            (* l.268 *)
      let c := mkK (U_hat c) (g c) (H_hat c) (H_hat0 c) (H_hat1 c) (U_hat c) in      (* l.272 *)
      let H := conv (U_hat c) (g c) in
      let c := mkK (U_hat c) (g c) H (H_hat0 c) H (U_hat0 c) in                      (* l.273 *)
      let c := mkK (f_0 f) (g c) (H_hat c) (H_hat0 c) (H_hat1 c) (U_hat0 c) in       (* l.276 *)
      Some (mkK (U_hat c) (g_of (U_hat c)) (H_hat c) (H_hat0 c) (H_hat1 c) (U_hat0 c)) (* l.278 *)
  end.
(** MKM.py:258-279 for the RK3 solvers *)
Definition init_from_file_rk (f : ckpt) (c : rst) : rst :=
  mkRst (f_0 f) (g_of (f_0 f)) (r_H c) (r_hv0 c) (r_hg0 c) (r_h1 c).

(** MKM.py:59-62, 77-79: the end of initialize, u being U.forward(U_hat) *)
Definition initialize_kmm (u : vfld) (c : kst) : kst :=
  let c := mkK u (g_of u) (H_hat c) (H_hat0 c) (H_hat1 c) (U_hat0 c) in
  let c := mkK (U_hat c) (g c) (H_hat c) (H_hat0 c) (H_hat1 c) (U_hat c) in
  let H := conv (U_hat c) (g c) in
  mkK (U_hat c) (g c) H (H_hat0 c) H (U_hat0 c).

(** RayleighBenard.py:179-210 for KMM_RB.  Attributes tstep and t of the file (HDF5File.py:70-71,
    87-88: always there); params.t, params.tstep as real numbers. *)
Record rbckpt := mkRbCk { rb_0 : vfld; rb_1 : vfld; rbphi_0 : fld; rbphi_1 : fld;
                          a_tstep : R; a_t : R }.
(** KMM_RB.py:47-51 and HDF5File.py:83-88 *)
Definition saved_rb (s : rbst) (tstep t : R) : rbckpt :=
  mkRbCk (U_hat (base s)) (U_hat0 (base s)) (phi s) (phi0 s) tstep t.
Record clock := mkClock { p_t : R; p_tstep : R }.
(** RayleighBenard.py:190-210 *)
Definition init_from_file_rb (f : rbckpt) (c : rbst) (p : clock) : rbst * clock :=
  let b := base c in
  let u1 := rb_1 f in                                                                (* l.193 *)
  let g1 := g_of u1 in                                                               (* l.196 *)
  let H := conv u1 g1 in
  let b := mkK (rb_0 f) (g_of (rb_0 f)) H (H_hat0 b) H u1 in                         (* l.197-204 *)
  let p := mkClock (p_t p) (a_tstep f) in                                            (* l.206-207 *)
  let p := mkClock (p_t p) (a_t f) in                                                (* l.208-209 *)
  (mkRB b (rbphi_0 f) (rbphi_1 f) (phi1 c) (Nt c) (Nt0 c), p).

(** RayleighBenard.py:179-210 for KMMRK3_RB, whose file has one field of each (KMMRK3_RB.py:46-48);
    the clock is as above. *)
Definition saved_rkrb (s : rkrb) : vfld * fld := (r_U (rbase s), rphi s).
Definition init_from_file_rkrb (f : vfld * fld) (c : rkrb) : rkrb :=
  let b := rbase c in
  mkRkRB (mkRst (fst f) (g_of (fst f)) (r_H b) (r_hv0 b) (r_hg0 b) (r_h1 b)) (snd f) (rN0 c).
End Demo.

(** MKM.py:99-108: [beta] is what dx(U[1], FST) returned on this rank, L = (L0, L1, L2) *)
Definition flux_control (root : bool) (flux beta L0 L1 L2 : R) (u : vfld) : vfld :=
  let q := flux - beta in                                                            (* l.105 *)
  if root then                                                                       (* l.106-108 *)
    upd F3 u x1 (fun j k i =>
      if (j =? 0) && (k =? 0) && (i =? 0)
      then (u x1 j k i + RtoC (q / (L0 * L1 * L2 * 4 / 3)))%C else u x1 j k i)
  else u.

(** One pass of the loop of spectralDNS/__init__.py:94-112 with an update callback acting on
    U_hat: integrate, update, (write files), end_of_tstep. *)
Section Loop.
Context (update : vfld -> vfld).
Definition updated (s : kst) : kst :=
  mkK (update (U_hat s)) (g s) (H_hat s) (H_hat0 s) (H_hat1 s) (U_hat0 s).
Definition pass (integ : kst -> kst) (s : kst) : kst := end_of_tstep (updated (integ s)).
Definition pass_rk (integ : rst -> rst) (s : rst) : rst :=
  let s := integ s in mkRst (update (r_U s)) (r_g s) (r_H s) (r_hv0 s) (r_hg0 s) (r_h1 s).
End Loop.
