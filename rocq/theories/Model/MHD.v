(** Model of spectralDNS/solvers/MHD.py.  The six-component arrays UB_hat, rhs
    are indexed by [ax6 = ax3 + ax3]: inl = rows 0..2 (velocity), inr = rows 3..5. *)
From Coq Require Import Reals List.
From Verif Require Import Base.Cplx Base.Sums Base.Fin Model.Maths Model.NS.
Import ListNotations.
Open Scope R_scope.

(** Buffers of the MHD context: ub_dealias (MHD.py:59), ZZ_hat (MHD.py:60), P_hat (MHD.py:56) *)
Record mhdbuf (I X : Type) := mkMhdbuf {
  ub_dealias : pvec ax6 X; ZZ_hat : ax3 -> ax3 -> I -> C; P_hat6 : sfield I }.
Arguments mkMhdbuf {I X}. Arguments ub_dealias {I X}. Arguments ZZ_hat {I X}. Arguments P_hat6 {I X}.

Section MHD.
Context {I X : Type} (T : transf I X) (K : ax3 -> I -> R).
Notation vec6 := (svec ax6 I).
Notation buf := (mhdbuf I X).

(** MHD.py:89-97 set_Elsasser(c, ZZ, K): slice assignments to c[:3] and c[3:] *)
Definition set_Elsasser (c : vec6) (ZZ : ax3 -> ax3 -> I -> C) : vec6 :=
  let c : vec6 := fun r => match r with
    | inl i => fun k => (- Ci * (RtoC (K x0 k) * (ZZ i x0 k + ZZ x0 i k)
                      + RtoC (K x1 k) * (ZZ i x1 k + ZZ x1 i k)
                      + RtoC (K x2 k) * (ZZ i x2 k + ZZ x2 i k)) / RtoC 2)%C
    | inr i => c (inr i) end in
  fun r => match r with
    | inl i => c (inl i)
    | inr i => fun k => (Ci * (RtoC (K x0 k) * (ZZ x0 i k - ZZ i x0 k)
                    + RtoC (K x1 k) * (ZZ x1 i k - ZZ i x1 k)
                    + RtoC (K x2 k) * (ZZ x2 i k - ZZ i x2 k)) / RtoC 2)%C
    end.

(** MHD.py:105-107: the double loop filling ZZ_hat[i, j] = Tp.forward(z0[i]*z1[j]) *)
Definition ZZ_loop (z0 z1 : pvec ax3 X) (ZZ : ax3 -> ax3 -> I -> C) : ax3 -> ax3 -> I -> C :=
  fold_left (fun ZZ i =>
    fold_left (fun ZZ j => upd F3 ZZ i (upd F3 (ZZ i) j (fwd T (fun x => z0 i x * z1 j x))))
              (elems F3) ZZ) (elems F3) ZZ.

(** MHD.py:99-110 divergenceConvection(c, z0, z1, Tp, K, ZZ_hat); returns (c, ZZ_hat) *)
Definition divergenceConvection (c : vec6) (z0 z1 : pvec ax3 X) (ZZ : ax3 -> ax3 -> I -> C)
    : vec6 * (ax3 -> ax3 -> I -> C) :=
  let ZZ := ZZ_loop z0 z1 ZZ in
  (set_Elsasser c ZZ, ZZ).

(** MHD.py:119-127 Conv for "Divergence" (others raise NotImplementedError, MHD.py:114-115) *)
Definition Conv_MHD (rhs ub_hat : vec6) (b : buf) : vec6 * buf :=
  let ub := bwdV T ub_hat in
  let u := fun i => ub (inl i) in
  let bb := fun i => ub (inr i) in
  let '(rhs, ZZ) := divergenceConvection rhs (fun i x => u i x + bb i x)
                                         (fun i x => u i x - bb i x) (ZZ_hat b) in
  (rhs, mkMhdbuf ub ZZ (P_hat6 b)).

(** MHD.py:132-149 add_pressure_diffusion; returns (rhs, P_hat) *)
Definition add_pressure_diffusion_MHD (rhs ub_hat : vec6) (nu eta : R) (K2 : I -> R)
    (KoK2 : ax3 -> I -> R) : vec6 * sfield I :=
  let P := fun k => CsumL (elems F3) (fun i => (rhs (inl i) k * RtoC (KoK2 i k))%C) in   (* l.140 *)
  let rhs := fold_left (fun r i => upd F6 r (inl i) (fun k => (r (inl i) k - P k * RtoC (K i k))%C))
                       (elems F3) rhs in                                                 (* l.143-144 *)
  let rhs : vec6 := fun c k => match c with                                              (* l.147-148 *)
             | inl i => (rhs (inl i) k - RtoC (nu * K2 k) * ub_hat (inl i) k)%C
             | inr i => (rhs (inr i) k - RtoC (eta * K2 k) * ub_hat (inr i) k)%C
             end in
  (rhs, P).

(** MHD.py:151-176 ComputeRHS (context.Source exists but is not used by the code). *)
Definition ComputeRHS_MHD (mask : option (I -> bool)) (nu eta : R) (b : buf)
    (rhs ub_hat : vec6) : vec6 * buf :=
  let '(rhs, b) := Conv_MHD rhs ub_hat b in
  let rhs := mask_nyquist mask rhs in
  let '(rhs, P) := add_pressure_diffusion_MHD rhs ub_hat nu eta (K2_of F3 K) (K_over_K2_of F3 K) in
  (rhs, mkMhdbuf (ub_dealias b) (ZZ_hat b) P).
End MHD.
