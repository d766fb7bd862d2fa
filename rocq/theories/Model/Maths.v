(** Model of spectralDNS/maths/cross.py and spectralDNS/maths/maths.py (numpy
    versions), and of the wavenumber arrays set up by get_context.

    Conventions: a spectral scalar field is [I -> C] (I = the set of modes held
    by the array), a physical scalar field is [X -> R] (X = mesh points).  Vector
    fields carry a leading component axis.  Broadcasting of the wavenumber arrays
    K[i] to the full mode set is implicit: [K i k] is the i-th wavenumber of mode
    k.  Arithmetic is exact. *)
From Coq Require Import Reals List FunctionalExtensionality.
From Verif Require Import Base.Cplx Base.Sums Base.Fin.
Import ListNotations.
Open Scope R_scope.

(** NS.py:54 *)
Definition sfield (I : Type) := I -> C.
(** NS.py:52 *)
Definition svec (D I : Type) := D -> I -> C.
(** NS.py:53 *)
Definition pfield (X : Type) := X -> R.
(** NS.py:51 *)
Definition pvec (D X : Type) := D -> X -> R.

(** cross.py:13-25 [cross1], branch len(c.shape)==4 (three components).  [c] is
    the array written to; the three assignments are made in this order.
    Parametric in the scalar types because it is used for real x real
    (physical space) and real x complex (wavenumbers x coefficients). *)
Definition cross1 {J A B E : Type} (mul : A -> B -> E) (sub : E -> E -> E)
    (c : ax3 -> J -> E) (a : ax3 -> J -> A) (b : ax3 -> J -> B) : ax3 -> J -> E :=
  let c := upd F3 c x0 (fun k => sub (mul (a x1 k) (b x2 k)) (mul (a x2 k) (b x1 k))) in
  let c := upd F3 c x1 (fun k => sub (mul (a x2 k) (b x0 k)) (mul (a x0 k) (b x2 k))) in
  let c := upd F3 c x2 (fun k => sub (mul (a x0 k) (b x1 k)) (mul (a x1 k) (b x0 k))) in
  c.

(** cross.py:22-23 [cross1], branch len(c.shape)==2: scalar result in 2D. *)
Definition cross1_2d {J A B E : Type} (mul : A -> B -> E) (sub : E -> E -> E)
    (a : ax2 -> J -> A) (b : ax2 -> J -> B) : J -> E :=
  fun k => sub (mul (a a0 k) (b a1 k)) (mul (a a1 k) (b a0 k)).

(** real array times complex array *)
(** cross.py:27-32 *)
Definition RCmul (x : R) (z : C) : C := (RtoC x * z)%C.

(** cross.py:27-32 [cross2]: c = cross1(c,a,b); c *= 1j, a real and b complex. *)
Definition cross2 {J : Type} (c : ax3 -> J -> C) (a : ax3 -> J -> R) (b : ax3 -> J -> C)
    : ax3 -> J -> C :=
  let c := cross1 RCmul Csub c a b in
  fun i k => (c i k * Ci)%C.
Definition cross2_2d {J : Type} (a : ax2 -> J -> R) (b : ax2 -> J -> C) : J -> C :=
  let c := cross1_2d RCmul Csub a b in
  fun k => (c k * Ci)%C.

Section Waves.
Context {D I : Type} (F : fin D).

(** NS.py:42-44 (same in MHD.py:44-46, Bq2D.py:42-44): K2 = zeros; for i: K2 += K[i]*K[i] *)
Definition K2_of (K : D -> I -> R) : I -> R :=
  fold_left (fun acc i k => acc k + K i k * K i k) (elems F) (fun _ => 0).

(** numpy [np.where(K2 == 0, 1, K2)] *)
(** NS.py:48 *)
Definition where_K2_0 (K2 : I -> R) (k : I) : R :=
  if Req_EM_T (K2 k) 0 then 1 else K2 k.

(** NS.py:46-48: K_over_K2[i] = K[i] / np.where(K2 == 0, 1, K2) *)
Definition K_over_K2_of (K : D -> I -> R) : D -> I -> R :=
  fun i k => K i k / where_K2_0 (K2_of K) k.

(** maths.py:8-11 [project]: u -= sum(K_over_K2*u, 0)*K.
    Simplification: K is taken as an array already broadcast to the shape of u.
    The builtin [sum] starts from 0 and adds the rows. *)
Definition project (u : svec D I) (K KoK2 : D -> I -> R) : svec D I :=
  let s := fun k => CsumL (elems F) (fun i => RCmul (KoK2 i k) (u i k)) in
  fun i k => (u i k - s k * RtoC (K i k))%C.
End Waves.
