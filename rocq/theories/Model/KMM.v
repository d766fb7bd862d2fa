(** Model of the channel solvers of Kim, Moin and Moser:
    spectralDNS/solvers/KMM.py, KMMr.py, KMMRK3.py (KMM_RB.py and KMMRK3_RB.py are in
    Model/KMMRB.v).

    A spectral array [F[i,j,k]] (KMM.py) or [F[j,k,i]] (KMMr.py) is a function
    [F j k i]: [j],[k] are the local indices of the two periodic directions and [i]
    is the index along the wall normal direction, so [F j k] is one column.

    External (shenfun) objects are arbitrary functions; what the theorems assume
    about them is written in Spec/Channel.v:
    - matrices [inner_product(...)] with their [matvec]: functions [col -> col];
    - [HelmholtzCoeff(N, alfa, beta, ...)] and [BiharmonicCoeff(N, a0, alfa, beta, ...)]
      (shen/Matrices.py:8-48, whose matvec calls shenfun's compiled Matvec):
      the combination of the matrices they are built from;
    - [Helmholtz(A, B, alfa, beta)], [Biharmonic(S, A, B, a0, alfa, beta)], [TDMA(A)]:
      functions of their matrices and coefficients;
    - solver.conv (KMM.py:355-396, chosen by getConvection): an arbitrary function of
      u_hat and g_hat.
    Scratch arrays (work[...], w, w1, u0_hat, h0_hat, hv, hg in KMM) are local
    variables here: each is fully overwritten before it is read. *)
From Coq Require Import Reals List Bool Arith.
From Verif Require Import Base.Cplx Base.Fin.
Open Scope R_scope.

Definition col := nat -> C.
Definition fld := nat -> nat -> col.
Definition vfld := ax3 -> fld.

Definition cadd (u v : col) : col := fun i => (u i + v i)%C.
Definition csub (u v : col) : col := fun i => (u i - v i)%C.
Definition csc (a : C) (u : col) : col := fun i => (a * u i)%C.
Definition rsc (a : R) (u : col) : col := fun i => (RtoC a * u i)%C.
Definition czero : col := fun _ => C0.

(** [mat] of get_context, KMM.py:105-120, KMMr.py:104-121 *)
Record mats := mkMats {
  CBD : col -> col; ABB : col -> col; BBB : col -> col; SBB : col -> col;
  ADD : col -> col; BDD : col -> col; BBD : col -> col; CDB : col -> col;
  ADD0 : col -> col; BDD0 : col -> col }.

(** shenfun's solver classes; [Helmholtz A B alfa beta b] is what the object built from
    (A, B, alfa, beta) returns for the right hand side [b]. *)
(** KMM.py:122-129 *)
Record solvers := mkSolvers {
  Helmholtz : (col -> col) -> (col -> col) -> R -> R -> col -> col;
  Biharmonic : (col -> col) -> (col -> col) -> (col -> col) -> R -> R -> R -> col -> col;
  TDMA : (col -> col) -> col -> col }.

(** shen/Matrices.py:30-48, "alfa*ADD + beta*BDD" *)
Definition HelmholtzCoeff (A B : col -> col) (alfa beta : R) : col -> col :=
  fun u => cadd (rsc alfa (A u)) (rsc beta (B u)).
(** shen/Matrices.py:8-28, a0*SBB + alfa*ABB + beta*BBB *)
Definition BiharmonicCoeff (S A B : col -> col) (a0 alfa beta : R) : col -> col :=
  fun u => cadd (cadd (rsc a0 (S u)) (rsc alfa (A u))) (rsc beta (B u)).

Section KMM.
(** Component indices (wall normal; first; second periodic direction):
    KMM.py uses (0, 1, 2), KMMr.py (2, 0, 1). *)
Context (cn c1 c2 : ax3).
(** Wavenumbers K of the two periodic directions at local indices j, k
    (KMM.py:61 K[1], K[2]; KMMr.py K[0], K[1]); [Kx1], [Kx2] are those used in
    ComputeRHS: the same ones in KMM.py:454-456, the ones with the Nyquist frequency
    set to zero (KMMr.py:84) in KMMr.py:450-453. *)
Context (K1 K2 Kx1 Kx2 : nat -> R).
Context (root : bool).                   (* rank == 0 *)
Context (mt : mats) (sv : solvers).
Context (nu dt : R).
Context (mask : option (nat -> nat -> R)).   (* None, or the 0/1 array get_mask_nyquist() *)
Context (conv : vfld -> fld -> vfld).
Context (Sk : vfld).

(** KMM.py:83-84 *)
Definition Ksq (j k : nat) : R := K1 j * K1 j + K2 k * K2 k.
Definition K4 (j k : nat) : R := Ksq j k * Ksq j k.
(** KMM.py:86-88 *)
Definition where1 (x : R) : R := if Req_EM_T x 0 then 1 else x.
Definition KoK1 (j k : nat) : R := K1 j / where1 (Ksq j k).
Definition KoK2 (j k : nat) : R := K2 k / where1 (Ksq j k).

(** KMM.py:107-108 *)
Definition AB (j k : nat) : col -> col :=
  HelmholtzCoeff (ADD mt) (BDD mt) 1 (- (Ksq j k - 2 / nu / dt)).
Definition AC (j k : nat) : col -> col :=
  BiharmonicCoeff (SBB mt) (ABB mt) (BBB mt)
    (nu * dt / 2) (1 - nu * dt * Ksq j k) (- (Ksq j k - nu * dt / 2 * K4 j k)).
(** KMM.py:123-129 *)
Definition HelmholtzSolverG (j k : nat) : col -> col :=
  Helmholtz sv (ADD mt) (BDD mt) (- 1) (Ksq j k + 2 / nu / dt).
Definition BiharmonicSolverU (j k : nat) : col -> col :=
  Biharmonic sv (SBB mt) (ABB mt) (BBB mt)
    (- (nu * dt / 2)) (1 + nu * dt * Ksq j k) (- (Ksq j k + nu * dt / 2 * K4 j k)).
Definition HelmholtzSolverU0 : col -> col :=
  Helmholtz sv (ADD0 mt) (BDD0 mt) (- 1) (2 / nu / dt).
Definition TDMASolverD : col -> col := TDMA sv (BDD mt).

(** The context: U_hat, g, H_hat, H_hat0, H_hat1, U_hat0 *)
(** KMM.py:66-75 *)
Record kst := mkK {
  U_hat : vfld; g : fld; H_hat : vfld; H_hat0 : vfld; H_hat1 : vfld; U_hat0 : vfld }.

(** KMM.py:147-155 end_of_tstep (it returns False) *)
Definition end_of_tstep (s : kst) : kst :=
  mkK (U_hat s) (g s) (H_hat s) (H_hat0 s) (H_hat s) (U_hat s).

(** KMM.py:398-401 *)
Definition assembleAB (H H1 : vfld) : vfld :=
  fun c j k => csub (rsc (3/2) (H c j k)) (rsc (1/2) (H1 c j k)).

(** Function.mask_nyquist(mask) *)
(** KMM.py:447-448 *)
Definition mask_vfld (F : vfld) : vfld :=
  match mask with
  | None => F
  | Some m => fun c j k => rsc (m j k) (F c j k)
  end.

(** KMM.py:453-455 *)
Definition hv_of (H : vfld) : fld := fun j k =>
  csub (csub (rsc (- Ksq j k) (BBD mt (H cn j k)))
             (csc (Ci * RtoC (Kx1 j))%C (CBD mt (H c1 j k))))
       (csc (Ci * RtoC (Kx2 k))%C (CBD mt (H c2 j k))).
(** KMM.py:456 *)
Definition hg_of (H : vfld) : fld := fun j k =>
  csub (csc (Ci * RtoC (Kx1 j))%C (BDD mt (H c2 j k)))
       (csc (Ci * RtoC (Kx2 k))%C (BDD mt (H c1 j k))).

(** KMM.py:403-420 add_linear, applied to rhs = (rhs[0], rhs[1]) *)
Definition add_linear (rhs : fld * fld) (u gh : fld) : fld * fld :=
  (fun j k => cadd (fst rhs j k) (AC j k (u j k)),
   fun j k => cadd (snd rhs j k) (AB j k (gh j k))).

(** KMM.py:422-464; also returns the context with the new H_hat, H_hat0 *)
Definition ComputeRHS (s : kst) : (fld * fld) * kst :=
  let H := conv (U_hat s) (g s) in                                  (* l.442 *)
  let H0 := mask_vfld (assembleAB H (H_hat1 s)) in                  (* l.445-448 *)
  let rhs := (fun j k => rsc dt (hv_of H0 j k),                     (* l.458 *)
              fun j k => rsc (2 / nu) (hg_of H0 j k)) in            (* l.459 *)
  (add_linear rhs (U_hat s cn) (g s),                               (* l.461 *)
   mkK (U_hat s) (g s) H H0 (H_hat1 s) (U_hat0 s)).

(** KMM.py:466-470 (v, w from f and g) *)
Definition compute_vw (u : vfld) (f gh : fld) : vfld :=
  upd F3 (upd F3 u c1 (fun j k =>
            csc (- Ci)%C (csub (rsc (KoK1 j k) (f j k)) (rsc (KoK2 j k) (gh j k)))))
       c2 (fun j k =>
            csc (- Ci)%C (cadd (rsc (KoK2 j k) (f j k)) (rsc (KoK1 j k) (gh j k)))).

(** u_hat[c, :, 0, 0] = x *)
(** KMM.py:505-507 *)
Definition set00 (u : vfld) (c : ax3) (x : col) : vfld :=
  upd F3 u c (fun j k => if (j =? 0) && (k =? 0) then x else u c j k).

(** KMM.py:493-498 and 500-503: one Crank-Nicolson solve for a mean velocity column;
    [src] is 2/nu * Sk[1,:,0,0] for the streamwise component, absent for the other. *)
Definition mean_solve (h u0 : col) (src : option col) : col :=
  let w := BDD0 mt (rsc (2 / nu) h) in
  let w := match src with Some sk => csub w (rsc (2 / nu) sk) | None => w end in
  let w := cadd w (ADD0 mt u0) in
  let w := match src with
           | Some _ => cadd w (rsc (2 / nu / dt) (BDD0 mt u0))
           | None => cadd w (BDD0 mt (rsc (2 / nu / dt) u0))
           end in
  HelmholtzSolverU0 w.

(** KMM.py:472-509 *)
Definition solve_linear (rhs : fld * fld) (s : kst) : kst :=
  let un := fun j k => BiharmonicSolverU j k (fst rhs j k) in         (* l.478 *)
  let u := upd F3 (U_hat s) cn un in
  let gh := fun j k => HelmholtzSolverG j k (snd rhs j k) in          (* l.479 *)
  let f := fun j k => TDMASolverD (CDB mt (rsc (- 1) (u cn j k))) in  (* l.482-483 *)
  let u := compute_vw u f gh in                                       (* l.484 *)
  let u :=
    if root then                                                      (* l.487-507 *)
      let m0 := mean_solve (H_hat0 s c1 0%nat 0%nat) (U_hat0 s c1 0%nat 0%nat)
                           (Some (Sk c1 0%nat 0%nat)) in
      let m1 := mean_solve (H_hat0 s c2 0%nat 0%nat) (U_hat0 s c2 0%nat 0%nat) None in
      set00 (set00 (set00 u c1 m0) c2 m1) cn czero
    else u in
  mkK u gh (H_hat s) (H_hat0 s) (H_hat1 s) (U_hat0 s).

(** KMM.py:511-516 *)
Definition integrate (s : kst) : kst :=
  let '(rhs, s) := ComputeRHS s in solve_linear rhs s.

(** One pass of the loop of spectralDNS/__init__.py:94-112 over the arrays of this context:
    integrate() followed by end_of_tstep(context). *)
Definition step (s : kst) : kst := end_of_tstep (integrate s).

(** KMM.py:220-231 get_divergence; [bwd] is FST.backward *)
Definition get_divergence {X : Type} (bwd : fld -> X -> R) (u : vfld) : X -> R :=
  let dn := fun j k => TDMASolverD (CDB mt (u cn j k)) in
  let d1 := fun j k => csc (Ci * RtoC (K1 j))%C (u c1 j k) in
  let d2 := fun j k => csc (Ci * RtoC (K2 k))%C (u c2 j k) in
  fun x => bwd dn x + bwd d1 x + bwd d2 x.

(** * KMMRK3.py *)

(** KMMRK3.py:24-25 *)
Definition rk_a (rk : nat) : R := match rk with O => 8/15 | S O => 5/12 | _ => 3/4 end.
Definition rk_b (rk : nat) : R := match rk with O => 0 | S O => - (17/60) | _ => - (5/12) end.

(** KMMRK3.py:28-43; add_linear (l.49-66) uses the matrices with the coefficients of AC *)
Definition AB_rk (rk j k : nat) : col -> col :=
  HelmholtzCoeff (ADD mt) (BDD mt) 1 (- (Ksq j k - 2 / nu / dt / (rk_a rk + rk_b rk))).
Definition AC_rk (rk j k : nat) : col -> col :=
  BiharmonicCoeff (SBB mt) (ABB mt) (BBB mt)
    (nu * (rk_a rk + rk_b rk) * dt / 2) (1 - nu * (rk_a rk + rk_b rk) * dt * Ksq j k)
    (- (Ksq j k - nu * (rk_a rk + rk_b rk) * dt / 2 * K4 j k)).
Definition HelmholtzSolverG_rk (rk j k : nat) : col -> col :=
  Helmholtz sv (ADD mt) (BDD mt) (- 1) (Ksq j k + 2 / nu / (rk_a rk + rk_b rk) / dt).
Definition BiharmonicSolverU_rk (rk j k : nat) : col -> col :=
  Biharmonic sv (SBB mt) (ABB mt) (BBB mt)
    (- (nu * (rk_a rk + rk_b rk) * dt / 2)) (1 + nu * (rk_a rk + rk_b rk) * dt * Ksq j k)
    (- (Ksq j k + nu * (rk_a rk + rk_b rk) * dt / 2 * K4 j k)).
Definition HelmholtzSolverU0_rk (rk : nat) : col -> col :=
  Helmholtz sv (ADD0 mt) (BDD0 mt) (- 1) (2 / nu / (rk_a rk + rk_b rk) / dt).

(** Context of KMMRK3: U_hat, g, H_hat, the previous-stage arrays hv[0], hg[0] and
    h1[0] = (h1[0,0], h1[0,1]) *)
(** KMMRK3.py:19-21 *)
Record rst := mkRst {
  r_U : vfld; r_g : fld; r_H : vfld; r_hv0 : fld; r_hg0 : fld; r_h1 : col * col }.

(** KMMRK3.py:68-115 *)
Definition ComputeRHS_rk (rk : nat) (s : rst) : (fld * fld) * rst :=
  let a := rk_a rk in let b := rk_b rk in
  let H := mask_vfld (conv (r_U s) (r_g s)) in                         (* l.92-95 *)
  let hv := hv_of H in let hg := hg_of H in                            (* l.99-104 *)
  let rhs0 := fun j k => rsc dt (cadd (rsc a (hv j k)) (rsc b (r_hv0 s j k))) in       (* l.106 *)
  let rhs1 := fun j k => rsc (2 / nu / (a + b)) (cadd (rsc a (hg j k)) (rsc b (r_hg0 s j k))) in
  ((fun j k => cadd (rhs0 j k) (AC_rk rk j k (r_U s cn j k)),          (* l.112 *)
    fun j k => cadd (rhs1 j k) (AB_rk rk j k (r_g s j k))),
   mkRst (r_U s) (r_g s) H hv hg (r_h1 s)).                            (* l.109-110 *)

(** KMMRK3.py:150-159 *)
Definition mean_solve_rk (rk : nat) (h1 h0 u0 : col) : col :=
  let a := rk_a rk in let b := rk_b rk in
  let beta := 2 / nu / (a + b) in
  let w := rsc beta (cadd (rsc a h1) (rsc b h0)) in
  let w := cadd w (ADD0 mt u0) in
  let w := cadd w (rsc (beta / dt) (BDD0 mt u0)) in
  HelmholtzSolverU0_rk rk w.

(** KMMRK3.py:117-167 *)
Definition solve_linear_rk (rk : nat) (rhs : fld * fld) (s : rst) : rst :=
  let un := fun j k => BiharmonicSolverU_rk rk j k (fst rhs j k) in    (* l.124 *)
  let u := upd F3 (r_U s) cn un in
  let gh := fun j k => HelmholtzSolverG_rk rk j k (snd rhs j k) in     (* l.125 *)
  let u00 := u c1 0%nat 0%nat in let u01 := u c2 0%nat 0%nat in        (* l.130-131 *)
  let f := fun j k => TDMASolverD (csub czero (CDB mt (u cn j k))) in  (* l.134-135 *)
  let u := compute_vw u f gh in                                        (* l.136 *)
  if root then
    let h10 := csub (BDD0 mt (r_H s c1 0%nat 0%nat)) (Sk c1 0%nat 0%nat) in  (* l.146-148 *)
    let h11 := BDD0 mt (r_H s c2 0%nat 0%nat) in
    let m0 := mean_solve_rk rk h10 (fst (r_h1 s)) u00 in
    let m1 := mean_solve_rk rk h11 (snd (r_h1 s)) u01 in
    let u := set00 (set00 (set00 u c1 m0) c2 m1) cn czero in
    mkRst u gh (r_H s) (r_hv0 s) (r_hg0 s) (h10, h11)                  (* l.161-165 *)
  else mkRst u gh (r_H s) (r_hv0 s) (r_hg0 s) (r_h1 s).

(** KMMRK3.py:169-174 *)
Definition stage (rk : nat) (s : rst) : rst :=
  let '(rhs, s) := ComputeRHS_rk rk s in solve_linear_rk rk rhs s.
Definition integrate_rk (s : rst) : rst := stage 2 (stage 1 (stage 0 s)).
End KMM.
