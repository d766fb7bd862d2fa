(** Model of the Rayleigh-Benard solvers spectralDNS/solvers/KMM_RB.py and KMMRK3_RB.py,
    on top of Model/KMM.v.

    The temperature Helmholtz solver is called as [HelmholtzSolverT(p_hat, rhs[2])]
    (KMM_RB.py:97, KMMRK3_RB.py:82), every other one as [HelmholtzSolverG(rhs[1], g_hat)]
    (KMM.py:479), that is with the two arrays in the opposite order.  Which array is the
    right hand side is decided by shenfun, so the convention is a parameter here.
    Model/KMM.v is written for [RhsFirst], the order that its own calls need. *)
From Coq Require Import Reals List Bool Arith.
From Verif Require Import Base.Cplx Base.Fin Model.KMM.
Open Scope R_scope.

Inductive order := RhsFirst | OutFirst.

(** [solver(x, y)] on two arrays: their contents afterwards.  The array that is not the
    right hand side is overwritten by the solution; it is also the returned array. *)
(** KMM_RB.py:97 *)
Definition call (o : order) (S : col -> col) (x y : col) : col * col :=
  match o with
  | RhsFirst => (x, S x)
  | OutFirst => (S y, y)
  end.

(** The two calls of one step that update g_hat (KMM.py:479) and phi_hat (KMM_RB.py:97):
    contents of g_hat and phi_hat afterwards. *)
Definition two_calls (o : order) (SG ST : col -> col) (rhs1 rhs2 gh ph : col) : col * col :=
  (snd (call o SG rhs1 gh), fst (call o ST ph rhs2)).

Section RB.
Context (cn c1 c2 : ax3) (K1 K2 Kx1 Kx2 : nat -> R) (root : bool).
(** [mt] holds the matrices after get_context of KMM_RB replaced mat.BBD (l.41) *)
Context (mt : mats) (sv : solvers) (nu dt kappa : R).
Context (mask : option (nat -> nat -> R)) (conv : vfld -> fld -> vfld) (Sk : vfld).
(** matrices of the temperature basis RB, KMM_RB.py:36-37 *)
Context (ADDT BDDT : col -> col).
(** BTT[0][0], BTT[0][1] (KMM_RB.py:39) and the number of points N[0] *)
Context (btt0 btt1 : R) (Nx : nat).
(** Shen matrices behind HelmholtzCoeff(N[0], ...) (KMM_RB.py:45) *)
Context (AS BS : col -> col).
(** forward transforms of temperature times the velocity components, KMM_RB.py:107-115:
    an arbitrary function of the two physical fields' coefficients *)
Context (uT : vfld -> fld -> vfld).
Context (o : order).

(** KMM_RB.py:42-45 *)
Definition HelmholtzSolverT (j k : nat) : col -> col :=
  Helmholtz sv ADDT BDDT (- 1) (Ksq K1 K2 j k + 2 / kappa / dt).
Definition TC (j k : nat) : col -> col :=
  HelmholtzCoeff AS BS 1 (2 / kappa / dt - Ksq K1 K2 j k).

(** Context of KMM_RB: that of KMM and phi_hat, phi_hat0, phi_hat1, N_hat, N_hat0 *)
(** KMM_RB.py:22-34 *)
Record rbst := mkRB { base : kst; phi : fld; phi0 : fld; phi1 : fld; Nt : fld; Nt0 : fld }.

(** KMM_RB.py:63-69 *)
Definition end_of_tstep_rb (s : rbst) : rbst :=
  let b := base s in
  mkRB (mkK (U_hat b) (g b) (H_hat b) (H_hat0 b) (H_hat b) (U_hat b))
       (phi s) (phi s) (phi0 s) (Nt s) (Nt s).

(** KMM_RB.py:78, 107 *)
Definition phi_ab (s : rbst) : fld := fun j k =>
  csub (rsc (3/2) (phi0 s j k)) (rsc (1/2) (phi1 s j k)).

(** KMM_RB.py:80-82; [phi_ab[-2]], [phi_ab[-1]] are the boundary values stored in the
    last two coefficients *)
Definition buoyancy (p : fld) : fld := fun j k i =>
  let w0 := rsc (- Ksq K1 K2 j k) (BBD mt (p j k)) in
  let a := p j k (Nx - 2)%nat in let b := p j k (Nx - 1)%nat in
  match i with
  | O => (w0 i - RtoC (/ 2 * btt0) * (a + b) * RtoC (Ksq K1 K2 j k))%C
  | S O => (w0 i - RtoC (/ 2 * btt1) * (a - b) * RtoC (Ksq K1 K2 j k))%C
  | _ => w0 i
  end.

(** KMM_RB.py:100-117 DivRBConvection; [u] is 0.5*(u_hat + U_hat0) *)
Definition DivRB (u : vfld) (p : fld) : fld := fun j k =>
  cadd (cadd (CDB mt (uT u p cn j k))
             (BDD mt (csc (Ci * RtoC (K1 j))%C (uT u p c1 j k))))
       (BDD mt (csc (Ci * RtoC (K2 k))%C (uT u p c2 j k))).
Definition UCN (b : kst) : vfld := fun c j k => rsc (/ 2) (cadd (U_hat b c j k) (U_hat0 b c j k)).

Definition mask_fld (F : fld) : fld :=
  match mask with None => F | Some m => fun j k => rsc (m j k) (F j k) end.

(** KMM_RB.py:71-93 *)
Definition ComputeRHS_rb (s : rbst) : (fld * fld * fld) * rbst :=
  let '(rhs, b) := ComputeRHS cn c1 c2 K1 K2 Kx1 Kx2 mt nu dt mask conv (base s) in
  let rhs0 := fun j k => cadd (fst rhs j k) (rsc dt (buoyancy (phi_ab s) j k)) in
  let n := DivRB (UCN b) (phi_ab s) in
  let rhs2 := fun j k => cadd (rsc (- 2 / kappa) (mask_fld n j k)) (TC j k (phi0 s j k)) in
  ((rhs0, snd rhs, rhs2), mkRB b (phi s) (phi0 s) (phi1 s) n (Nt0 s)).

(** KMM_RB.py:95-98 *)
Definition solve_linear_rb (rhs : fld * fld * fld) (s : rbst) : rbst :=
  let b := solve_linear cn c1 c2 K1 K2 root mt sv nu dt Sk (fst rhs) (base s) in
  let p := fun j k => fst (call o (HelmholtzSolverT j k) (phi s j k) (snd rhs j k)) in
  mkRB b p (phi0 s) (phi1 s) (Nt s) (Nt0 s).

(** KMM_RB.py:156-161 *)
Definition integrate_rb (s : rbst) : rbst :=
  let '(rhs, s) := ComputeRHS_rb s in solve_linear_rb rhs s.
Definition step_rb (s : rbst) : rbst := end_of_tstep_rb (integrate_rb s).

(** * KMMRK3_RB.py *)
(** KMMRK3_RB.py:42-44 *)
Definition HelmholtzSolverT_rk (rk j k : nat) : col -> col :=
  Helmholtz sv ADDT BDDT (- 1) (Ksq K1 K2 j k + 2 / kappa / (rk_a rk + rk_b rk) / dt).
Definition TC_rk (rk j k : nat) : col -> col :=
  HelmholtzCoeff AS BS 1 (2 / kappa / dt / (rk_a rk + rk_b rk) - Ksq K1 K2 j k).

(** StandardRBConvection (l.101-119): arbitrary function of u_hat and p_hat here, modelled in Model/RBConv.v *)
Context (convT : vfld -> fld -> fld).

Record rkrb := mkRkRB { rbase : rst; rphi : fld; rN0 : fld }.

(** KMMRK3_RB.py:58-78 *)
Definition ComputeRHS_rkrb (rk : nat) (s : rkrb) : (fld * fld * fld) * rkrb :=
  let a := rk_a rk in let b := rk_b rk in
  let '(rhs, bs) := ComputeRHS_rk cn c1 c2 K1 K2 Kx1 Kx2 mt nu dt mask conv rk (rbase s) in
  let rhs0 := fun j k => cadd (fst rhs j k) (rsc (dt * (a + b)) (buoyancy (rphi s) j k)) in
  let n := mask_fld (convT (r_U bs) (rphi s)) in
  let rhs2 := fun j k => cadd (rsc (- 2 / kappa / (a + b)) (cadd (rsc a (n j k)) (rsc b (rN0 s j k))))
                              (TC_rk rk j k (rphi s j k)) in
  ((rhs0, snd rhs, rhs2), mkRkRB bs (rphi s) n).

(** KMMRK3_RB.py:80-83 *)
Definition solve_linear_rkrb (rk : nat) (rhs : fld * fld * fld) (s : rkrb) : rkrb :=
  let b := solve_linear_rk cn c1 c2 K1 K2 root mt sv nu dt Sk rk (fst rhs) (rbase s) in
  let p := fun j k => fst (call OutFirst (HelmholtzSolverT_rk rk j k) (rphi s j k) (snd rhs j k)) in
  mkRkRB b p (rN0 s).

(** KMMRK3_RB.py:121-128, for [OutFirst].  (With [RhsFirst] the local name p_hat is rebound
    to rhs[2] by the first solve_linear, so phi_hat is never written: the case covered by
    [two_calls].) *)
Definition stage_rkrb (rk : nat) (s : rkrb) : rkrb :=
  let '(rhs, s) := ComputeRHS_rkrb rk s in solve_linear_rkrb rk rhs s.
Definition integrate_rkrb (s : rkrb) : rkrb := stage_rkrb 2 (stage_rkrb 1 (stage_rkrb 0 s)).
End RB.
