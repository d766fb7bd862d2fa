(** Model of the coupled velocity-pressure channel solvers: spectralDNS/solvers/Coupled.py and
    CoupledRK3.py.

    Arrays as in Model/KMM.v ([F j k i]: local indices of the two periodic directions, index along
    the wall normal direction).  [UP_hat] of the space VQ is a pair: the velocity (three components
    in Shen's Dirichlet space ST) and the pressure (Chebyshev space CP with all N functions:
    CP.slice is set to slice(0, CT.N) in Coupled.py:28 and not touched in CoupledRK3.py:27).

    External (shenfun): the matrices of [inner(test, trial)], [BlockMatrix.solve] (an arbitrary
    function of the block matrix, given by its two coefficients, and the right hand side; what the
    theorems assume about it is in Spec/Coupled.v), and solver.conv (an arbitrary function of the
    velocity; its four forms are in Model/ChannelConv.v).
    [nu0], [dt0] are params.nu, params.dt when get_context was called; [nu] is params.nu when the
    step is taken (ComputeRHS reads it again). *)
From Coq Require Import Reals List Bool Arith.
From Verif Require Import Base.Cplx Base.Fin Model.KMM.
Open Scope R_scope.

(** The one dimensional matrices behind Coupled.py:102-104: test function in ST or CP (v, q),
    trial function u in ST or p in CP, primes are derivatives:
    vddu = (v, u''), vu = (v, u), vdp = (v, p'), vp = (v, p), qdu = (q, u'), qu = (q, u). *)
(** Coupled.py:102-104, CoupledRK3.py:106-108 *)
Record blocks := mkBlocks {
  vddu : col -> col; vu : col -> col; vdp : col -> col; vp : col -> col;
  qdu : col -> col; qu : col -> col }.

(** UP_hat, a Function of VQ = CompositeSpace([VFS, FCP]): Coupled.py:39,62-65 *)
Definition vq := (vfld * fld)%type.

Section Coupled.
Context (K1 K2 : nat -> R) (root : bool) (bl : blocks) (nu0 dt0 nu : R).
Context (mask : option (nat -> nat -> R)) (conv : vfld -> vfld) (Sk : vfld).

(** The action of BlockMatrix(a0+a1+a2) for the forms
    a0 = inner(vt, alfa*ut - div(grad(ut))), a1 = inner(vt, gam*grad(pt)), a2 = inner(qt, gam*div(ut)):
    Coupled.py:101-106 (alfa = 2/nu/dt, gam = 2/nu), CoupledRK3.py:104-109. *)
Definition Mact (alfa gam : R) (x : vq) : vq :=
  let u := fst x in let p := snd x in
  let lin c j k := csub (rsc (alfa + Ksq K1 K2 j k) (vu bl (u c j k))) (vddu bl (u c j k)) in
  (fun c j k => match c with
     | x0 => cadd (lin x0 j k) (rsc gam (vdp bl (p j k)))
     | x1 => cadd (lin x1 j k) (rsc gam (csc (Ci * RtoC (K1 j))%C (vp bl (p j k))))
     | x2 => cadd (lin x2 j k) (rsc gam (csc (Ci * RtoC (K2 k))%C (vp bl (p j k))))
     end,
   fun j k => rsc gam (cadd (cadd (qdu bl (u x0 j k))
                                  (csc (Ci * RtoC (K1 j))%C (qu bl (u x1 j k))))
                            (csc (Ci * RtoC (K2 k))%C (qu bl (u x2 j k))))).

(** M.solve(rhs, u=up_hat, constraints=...) of the matrix with these coefficients:
    Coupled.py:333, CoupledRK3.py:349. *)
Context (Msolve : R -> R -> vq -> vq).

(** Coupled.py:101,109-111: AB = HelmholtzCoeff(N[0], 1., alfa-K2, 0, ST.quad), alfa = 2/nu/dt *)
Definition alfa0 : R := 2 / nu0 / dt0.
Definition cAB (j k : nat) : col -> col := HelmholtzCoeff (vddu bl) (vu bl) 1 (alfa0 - Ksq K1 K2 j k).

(** The context: UP_hat, UP_hat0, H_hat, H_hat0, H_hat1 *)
(** Coupled.py:62-65,75-77 *)
Record cst := mkC { cUP : vq; cUP0 : vq; cH : vfld; cH0 : vfld; cH1 : vfld }.

(** Coupled.py:287-325 with rhs_p = 0 from integrate (l.331); the assembleAB of l.282-285 is the
    one of KMM.py. *)
Definition cComputeRHS (s : cst) : vq * cst :=
  let u := fst (cUP s) in
  let H := conv u in                                                    (* l.305-306 *)
  let H0 := mask_vfld mask (assembleAB H (cH1 s)) in                    (* l.309-312 *)
  let r0 : vfld := fun c j k => cAB j k (u c j k) in                    (* l.316-318 *)
  let r1 : vfld := fun c j k => cadd (r0 c j k) (rsc (2 / nu) (vu bl (H0 c j k))) in   (* l.321 *)
  let r2 := upd F3 r1 x1 (fun j k => csub (r1 x1 j k) (rsc (2 / nu) (Sk x1 j k))) in   (* l.324 *)
  ((r2, fun _ _ => czero), mkC (cUP s) (cUP0 s) H H0 (cH1 s)).

(** Coupled.py:334-335  if rank == 0: u_hat[0, :, 0, 0] = 0 *)
Definition zero_mean_normal (x : vq) : vq :=
  (upd F3 (fst x) x0 (fun j k => if root && (j =? 0)%nat && (k =? 0)%nat then czero else fst x x0 j k),
   snd x).

(** Coupled.py:328-337 (returns up_hat, dt, dt) *)
Definition c_integrate (s : cst) : cst :=
  let '(rhs, s) := cComputeRHS s in
  let up := zero_mean_normal (Msolve alfa0 (2 / nu0) rhs) in
  mkC up (cUP0 s) (cH s) (cH0 s) (cH1 s).

(** Coupled.py:131-139 (returns False) *)
Definition c_end_of_tstep (s : cst) : cst := mkC (cUP s) (cUP s) (cH s) (cH0 s) (cH s).
(** One pass of the time loop, Coupled.py:328-337 and 131-139 *)
Definition c_step (s : cst) : cst := c_end_of_tstep (c_integrate s).

(** ** CoupledRK3 *)
(** CoupledRK3.py:72-73 *)
Definition crk_a (rk : nat) : R := nth rk (8/15 :: 5/12 :: 3/4 :: nil) 0.
Definition crk_b (rk : nat) : R := nth rk (0 :: - (17/60) :: - (5/12) :: nil) 0.
(** CoupledRK3.py:106-108,114: 2./nu/dt/(a[rk]+b[rk]) and 2./nu/(a[rk]+b[rk]) *)
Definition rk_alfa (rk : nat) : R := 2 / nu0 / dt0 / (crk_a rk + crk_b rk).
Definition rk_gam (rk : nat) : R := 2 / nu0 / (crk_a rk + crk_b rk).

(** UP_hat and hv[0], CoupledRK3.py:61-64,81 *)
Record crst := mkCR { rUP : vq; hv0 : vfld }.

(** CoupledRK3.py:288-341 (the branch for the Chebyshev family, the only one get_context builds:
    family = 'C' at l.21) *)
Definition rComputeRHS (rk : nat) (s : crst) : vq * crst :=
  let u := fst (rUP s) in
  let H := mask_vfld mask (conv u) in                                       (* l.309-312 *)
  let r0 : vfld := fun c j k =>                                             (* l.314-320 *)
    HelmholtzCoeff (vddu bl) (vu bl) 1 (- (Ksq K1 K2 j k - rk_alfa rk)) (u c j k) in
  let h1 : vfld := fun c j k => vu bl (H c j k) in                          (* l.332 *)
  let h1' := upd F3 h1 x1 (fun j k => csub (h1 x1 j k) (Sk x1 j k)) in      (* l.335 *)
  let r1 : vfld := fun c j k =>                                             (* l.337 *)
    cadd (r0 c j k) (rsc (2 / nu / (crk_a rk + crk_b rk))
                         (cadd (rsc (crk_a rk) (h1' c j k)) (rsc (crk_b rk) (hv0 s c j k)))) in
  ((r1, fun _ _ => czero), mkCR (rUP s) h1').                               (* l.339 *)

(** CoupledRK3.py:348-349 *)
Definition rk_stage (s : crst) (rk : nat) : crst :=
  let '(rhs, s) := rComputeRHS rk s in
  mkCR (Msolve (rk_alfa rk) (rk_gam rk) rhs) (hv0 s).

(** CoupledRK3.py:343-351; end_of_tstep (l.139-145) only returns False *)
Definition r_integrate (s : crst) : crst := fold_left rk_stage (0 :: 1 :: 2 :: nil)%nat s.
End Coupled.
