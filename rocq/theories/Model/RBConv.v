(** Model of StandardRBConvection of solvers/KMMRK3_RB.py (the same text is in KMM_RB.py:137-154, where nothing calls it).

    Arrays are those of Model/KMM.v; the wall normal direction is 0.  External operations are parameters:
    [bU c] VFSp.backward of component c, [bCT], [bST] backward of FCTp and FSTp (which does not read the last two
    coefficients), [fST] FSTp.forward, [CTD], [BDD] the products with the matrices, [BTTsolve] BTT.solve, [btt0] BTT[0][0].
    The product of l.118, whose input and output are the same array, is taken to read its input first. *)
From Coq Require Import Reals List Arith.
From Verif Require Import Base.Cplx Base.Fin Model.KMM Model.ChannelConv.
Open Scope R_scope.

Section Conv.
Context {X : Type} (N : nat) (K1 K2 : nat -> R).
Context (bU : ax3 -> fld -> X -> R) (bCT bST : fld -> X -> R) (fST : (X -> R) -> fld).
Context (CTD BTTsolve BDD : col -> col) (btt0 : R).

(** KMMRK3_RB.py:110-112 *)
Definition dTdx_hat (p : fld) : fld := fun j k =>
  let d := CTD (p j k) in                                                                   (* l.110 *)
  let d : col := fun i => match i with                                                      (* l.111 *)
    | O => (d O + RtoC (0.5 * btt0) * (p j k (N - 2)%nat - p j k (N - 1)%nat))%C
    | _ => d i
    end in
  BTTsolve d.                                                                               (* l.112 *)
(** KMMRK3_RB.py:113-115 *)
Definition dTdxi (p : fld) (d : ax3) : X -> R :=
  match d with
  | x0 => bCT (dTdx_hat p)
  | x1 => bST (fmul (iK1 K1) p)
  | x2 => bST (fmul (iK2 K2) p)
  end.
(** KMMRK3_RB.py:101-119 *)
Definition StandardRBConvection (u : vfld) (p : fld) : fld :=
  let Ua := fun c => bU c (u c) in                                                          (* l.109 *)
  let Np := fun x => Ua x0 x * dTdxi p x0 x + Ua x1 x * dTdxi p x1 x + Ua x2 x * dTdxi p x2 x in   (* l.116 *)
  let N_hat := fST Np in                                                                    (* l.117 *)
  fun j k => BDD (N_hat j k).                                                               (* l.118 *)
End Conv.
