(** Model of spectralDNS/solvers/NS.py (numpy versions of the optimised functions).

    Buffers are explicit.  The arrays that the code reuses between calls are
    fields of [nsbuf]; two requests of the work-array cache with the same key
    (shape, dtype, index) are the same field.  shenfun's [forward(in, out)] and
    [backward(in, out)] are modelled as functions that overwrite [out] entirely. *)
From Coq Require Import Reals List FunctionalExtensionality.
From Verif Require Import Base.Cplx Base.Sums Base.Fin Model.Maths.
Import ListNotations.
Open Scope R_scope.

(** A (dealiased) transform pair of a scalar TensorProductSpace [Tp]; the
    VectorSpace [VTp] applies it to every component. No property is assumed. *)
(** NS.py:31-32 *)
Record transf (I X : Type) := mkTransf {
  bwd : sfield I -> pfield X;     (* Tp.backward *)
  fwd : pfield X -> sfield I }.   (* Tp.forward  *)
Arguments bwd {I X} _ _ _.
Arguments fwd {I X} _ _ _.

(** NS.py:93 *)
Definition bwdV {D I X} (T : transf I X) (u : svec D I) : pvec D X := fun i => bwd T (u i).
(** NS.py:103 *)
Definition fwdV {D I X} (T : transf I X) (f : pvec D X) : svec D I := fun i => fwd T (f i).

(** 1j*K[j]*u *)
(** NS.py:143, 154-161 *)
Definition iK {I} (Kj : I -> R) (u : sfield I) : sfield I := fun k => (Ci * RtoC (Kj k) * u k)%C.

(** Arrays reused between calls. *)
(** NS.py:55, 64 *)
Record nsbuf (D I X : Type) := mkNsbuf {
  u_dealias : pvec D X;     (* context.u_dealias, NS.py:55 *)
  w_s0 : svec D I;          (* work[(spectral vector, 0, False)], NS.py:126,151 *)
  w_p0 : pvec D X;          (* work[(u_dealias, 0, False)], NS.py:194 *)
  w_p1 : pvec D X;          (* work[(u_dealias, 1, False)], NS.py:133,140 *)
  P_hat : sfield I }.       (* context.P_hat, NS.py:54 *)
Arguments mkNsbuf {D I X}. Arguments u_dealias {D I X}. Arguments w_s0 {D I X}.
Arguments w_p0 {D I X}. Arguments w_p1 {D I X}. Arguments P_hat {D I X}.

Definition set_ud {D I X} (b : nsbuf D I X) v := mkNsbuf v (w_s0 b) (w_p0 b) (w_p1 b) (P_hat b).
Definition set_s0 {D I X} (b : nsbuf D I X) v := mkNsbuf (u_dealias b) v (w_p0 b) (w_p1 b) (P_hat b).
Definition set_p0 {D I X} (b : nsbuf D I X) v := mkNsbuf (u_dealias b) (w_s0 b) v (w_p1 b) (P_hat b).
Definition set_p1 {D I X} (b : nsbuf D I X) v := mkNsbuf (u_dealias b) (w_s0 b) (w_p0 b) v (P_hat b).
Definition set_P {D I X} (b : nsbuf D I X) v := mkNsbuf (u_dealias b) (w_s0 b) (w_p0 b) (w_p1 b) v.

Section NS3.
Context {I X : Type} (T : transf I X) (K : ax3 -> I -> R).
Notation buf := (nsbuf ax3 I X).
Notation vec := (svec ax3 I).

(** NS.py:124-129 compute_curl(c, a, work, T, K) with output in the buffer
    work[(u_dealias,0,False)] (as called at NS.py:196). *)
Definition compute_curl_p0 (a : vec) (b : buf) : buf :=
  let curl_hat := cross2 (w_s0 b) K a in
  let b := set_s0 b curl_hat in
  set_p0 b (bwdV T curl_hat).

(** NS.py:131-136 Cross(c, a, b, work, T) with a = u_dealias, b = work[(u_dealias,0)]
    (as called at NS.py:197); returns c. *)
Definition Cross_ud_p0 (b : buf) : vec * buf :=
  let d := cross1 Rmult Rminus (w_p1 b) (u_dealias b) (w_p0 b) in
  let b := set_p1 b d in
  (fwdV T d, b).

(** NS.py:141-144: body of the loops of standard_convection. *)
Definition std_inner (U_hat : vec) (i : ax3) (b : buf) (j : ax3) : buf :=
  set_p1 b (upd F3 (w_p1 b) j (bwd T (iK (K j) (U_hat i)))).
Definition std_outer (U_hat : vec) (st : vec * buf) (i : ax3) : vec * buf :=
  let '(rhs, b) := st in
  let b := fold_left (std_inner U_hat i) (elems F3) b in
  (upd F3 rhs i (fwd T (fun x => RsumL (elems F3) (fun j => u_dealias b j x * w_p1 b j x))), b).

(** NS.py:138-145 standard_convection *)
Definition standard_convection (rhs U_hat : vec) (b : buf) : vec * buf :=
  fold_left (std_outer U_hat) (elems F3) (rhs, b).

(** rhs[i] += g *)
(** NS.py:154-161 *)
Definition addto (rhs : vec) (i : ax3) (g : sfield I) : vec :=
  upd F3 rhs i (fun k => (rhs i k + g k)%C).

(** NS.py:152-153: for i in range(3): UUi_hat[i] = Tp.forward(u_dealias[0]*u_dealias[i]) *)
Definition uu_loop (b : buf) (i : ax3) : buf :=
  set_s0 b (upd F3 (w_s0 b) i (fwd T (fun x => u_dealias b x0 x * u_dealias b i x))).

(** NS.py:147-162 divergence_convection(rhs, u_dealias, work, Tp, K, add) *)
Definition divergence_convection (rhs : vec) (add : bool) (b : buf) : vec * buf :=
  let rhs := if add then rhs else (fun _ _ => C0) in
  let b := fold_left uu_loop (elems F3) b in
  let UU := w_s0 b in
  let rhs := addto rhs x0 (fun k => (Ci * (RtoC (K x0 k) * UU x0 k + RtoC (K x1 k) * UU x1 k
                                           + RtoC (K x2 k) * UU x2 k))%C) in
  let rhs := addto rhs x1 (fun k => (Ci * RtoC (K x0 k) * UU x1 k)%C) in
  let rhs := addto rhs x2 (fun k => (Ci * RtoC (K x0 k) * UU x2 k)%C) in
  let UU := upd F3 UU x0 (fwd T (fun x => u_dealias b x1 x * u_dealias b x1 x)) in
  let UU := upd F3 UU x1 (fwd T (fun x => u_dealias b x1 x * u_dealias b x2 x)) in
  let UU := upd F3 UU x2 (fwd T (fun x => u_dealias b x2 x * u_dealias b x2 x)) in
  let b := set_s0 b UU in
  let rhs := addto rhs x1 (fun k => (Ci * RtoC (K x1 k) * UU x0 k + Ci * RtoC (K x2 k) * UU x1 k)%C) in
  let rhs := addto rhs x2 (fun k => (Ci * RtoC (K x1 k) * UU x1 k + Ci * RtoC (K x2 k) * UU x2 k)%C) in
  (rhs, b).

Inductive conv_kind := Standard | Divergence | Skewed | Vortex.

(** rhs *= c *)
(** NS.py:171, 179, 188 *)
Definition scale (c : R) (rhs : vec) : vec := fun i k => (rhs i k * RtoC c)%C.

(** NS.py:164-201 getConvection(convection): the closure Conv for each choice. *)
Definition Conv (c : conv_kind) (rhs u_hat : vec) (b : buf) : vec * buf :=
  match c with
  | Standard =>                                           (* NS.py:168-172 *)
      let b := set_ud b (bwdV T u_hat) in
      let '(rhs, b) := standard_convection rhs u_hat b in
      (scale (-1) rhs, b)
  | Divergence =>                                         (* NS.py:176-180 *)
      let b := set_ud b (bwdV T u_hat) in
      let '(rhs, b) := divergence_convection rhs false b in
      (scale (-1) rhs, b)
  | Skewed =>                                             (* NS.py:184-189 *)
      let b := set_ud b (bwdV T u_hat) in
      let '(rhs, b) := standard_convection rhs u_hat b in
      let '(rhs, b) := divergence_convection rhs true b in
      (scale (-0.5) rhs, b)
  | Vortex =>                                             (* NS.py:193-198 *)
      let b := set_ud b (bwdV T u_hat) in
      let b := compute_curl_p0 u_hat b in
      Cross_ud_p0 b
  end.
End NS3.

(** Pieces shared by the 3D (NS) and 2D (NS2D) solvers; [D] is the component axis. *)
Section Shared.
Context {D I : Type} (F : fin D) (K : D -> I -> R).
Notation vec := (svec D I).

(** NS.py:253-254 [rhs.mask_nyquist(mask)]: multiplication by the 0/1 mask array;
    [None] when params.mask_nyquist is off (NS.py:34). *)
Definition mask_nyquist (mask : option (I -> bool)) (rhs : vec) : vec :=
  match mask with
  | None => rhs
  | Some m => fun i k => if m k then rhs i k else C0
  end.

(** NS.py:203-217 add_pressure_diffusion; returns (rhs, P_hat). *)
Definition add_pressure_diffusion (rhs u_hat : vec) (nu : R) (K2 : I -> R) (KoK2 : D -> I -> R)
    : vec * sfield I :=
  let P := fun k => CsumL (elems F) (fun i => (rhs i k * RtoC (KoK2 i k))%C) in   (* l.208 *)
  let rhs := fold_left (fun r i => upd F r i (fun k => (r i k - P k * RtoC (K i k))%C))
                       (elems F) rhs in                                           (* l.211-212 *)
  let rhs := fun i k => (rhs i k - RtoC (nu * K2 k) * u_hat i k)%C in             (* l.215 *)
  (rhs, P).

(** NS.py:252-261 the part of ComputeRHS after the convection term:
    mask, pressure and diffusion, source.  Returns (rhs, P_hat). *)
Definition finish_rhs (mask : option (I -> bool)) (nu : R) (Source : vec) (rhs u_hat : vec)
    : vec * sfield I :=
  let rhs := mask_nyquist mask rhs in
  let '(rhs, P) := add_pressure_diffusion rhs u_hat nu (K2_of F K) (K_over_K2_of F K) in
  (fun i k => (rhs i k + Source i k)%C, P).

(** NS.py:106-110 get_divergence, in spectral space (before T.backward);
    NS2D.py:26-30 for two components. *)
Definition get_divergence_hat (u_hat : vec) : sfield I :=
  fun k => (Ci * CsumL (elems F) (fun i => RtoC (K i k) * u_hat i k))%C.
End Shared.

(** NS.py:96-99 get_pressure, argument of T.backward: -1j*P_hat *)
Definition get_pressure_hat {I} (P : sfield I) : sfield I := fun k => (- Ci * P k)%C.

(** NS.py:219-261 ComputeRHS of the NS solver. *)
Definition ComputeRHS_NS {I X} (T : transf I X) (K : ax3 -> I -> R) (c : conv_kind)
    (mask : option (I -> bool)) (nu : R) (Source : svec ax3 I)
    (b : nsbuf ax3 I X) (rhs u_hat : svec ax3 I) : svec ax3 I * nsbuf ax3 I X :=
  let '(rhs, b) := Conv T K c rhs u_hat b in
  let '(rhs, P) := finish_rhs F3 K mask nu Source rhs u_hat in
  (rhs, set_P b P).
