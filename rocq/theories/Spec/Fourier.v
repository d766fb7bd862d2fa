(** Textbook notions used in the statements about the spectral solvers.
    Independent of the model: only [svec]/[pvec] (arrays) and finite sums. *)
From Coq Require Import Reals List.
From Verif Require Import Base.Cplx Base.Sums Base.Fin.
Open Scope R_scope.

Section Spec.
Context {D I : Type} (F : fin D) (K : D -> I -> R).

(** k . v at one mode *)
Definition kdot (v : D -> I -> C) (k : I) : C :=
  CsumL (elems F) (fun i => (RtoC (K i k) * v i k)%C).
(** |k|^2 *)
Definition knorm2 (k : I) : R := RsumL (elems F) (fun i => K i k * K i k).
(** divergence free in every mode *)
Definition divfree (v : D -> I -> C) : Prop := forall k, kdot v k = C0.
(** Leray projection, mode by mode: v - k (k.v)/|k|^2, identity at k = 0 *)
Definition leray (v : D -> I -> C) (i : D) (k : I) : C :=
  if Req_EM_T (knorm2 k) 0 then v i k
  else (v i k - RtoC (K i k) * (kdot v k / RtoC (knorm2 k)))%C.
(** The mode carries zero wavenumber (the mean) *)
Definition is_mean (k : I) : Prop := forall i, K i k = 0.
End Spec.

(** Curl in spectral space, i k x v *)
Definition curl_hat {I} (K : ax3 -> I -> R) (v : ax3 -> I -> C) : ax3 -> I -> C :=
  fun i k => match i with
  | x0 => (Ci * (RtoC (K x1 k) * v x2 k - RtoC (K x2 k) * v x1 k))%C
  | x1 => (Ci * (RtoC (K x2 k) * v x0 k - RtoC (K x0 k) * v x2 k))%C
  | x2 => (Ci * (RtoC (K x0 k) * v x1 k - RtoC (K x1 k) * v x0 k))%C
  end.

(** Cross product of physical vector fields *)
Definition crossR {X} (a b : ax3 -> X -> R) : ax3 -> X -> R :=
  fun i x => match i with
  | x0 => a x1 x * b x2 x - a x2 x * b x1 x
  | x1 => a x2 x * b x0 x - a x0 x * b x2 x
  | x2 => a x0 x * b x1 x - a x1 x * b x0 x
  end.

(** Derivative in direction j, spectral *)
Definition deriv {I} (Kj : I -> R) (f : I -> C) : I -> C := fun k => (Ci * RtoC (Kj k) * f k)%C.

Section Convection.
Context {I X : Type} (backward : (I -> C) -> X -> R) (forward : (X -> R) -> I -> C).
Context {D : Type} (F : fin D) (K : D -> I -> R).
(** (u . grad) u : forward( sum_j u_j d_j u_i ) *)
Definition ugradu (u : D -> I -> C) : D -> I -> C := fun i =>
  forward (fun x => RsumL (elems F) (fun j => backward (u j) x * backward (deriv (K j) (u i)) x)).
(** div(u u) : sum_j d_j forward(u_i u_j) *)
Definition divuu (u : D -> I -> C) : D -> I -> C := fun i k =>
  CsumL (elems F) (fun j => deriv (K j) (forward (fun x => backward (u i) x * backward (u j) x)) k).
End Convection.

(** u x curl u *)
Definition ucrosscurl {I X} (backward : (I -> C) -> X -> R) (forward : (X -> R) -> I -> C)
    (K : ax3 -> I -> R) (u : ax3 -> I -> C) : ax3 -> I -> C := fun i =>
  forward (crossR (fun j => backward (u j)) (fun j => backward (curl_hat K u j)) i).

(** the same in two dimensions: scalar vorticity w, u x (w e_z) = (u1 w, -u0 w) *)
Definition vort2d {I} (K : ax2 -> I -> R) (u : ax2 -> I -> C) : I -> C :=
  fun k => (Ci * (RtoC (K a0 k) * u a1 k - RtoC (K a1 k) * u a0 k))%C.
Definition ucrosscurl2 {I X} (backward : (I -> C) -> X -> R) (forward : (X -> R) -> I -> C)
    (K : ax2 -> I -> R) (u : ax2 -> I -> C) : ax2 -> I -> C := fun i =>
  match i with
  | a0 => forward (fun x => backward (u a1) x * backward (vort2d K u) x)
  | a1 => forward (fun x => - backward (u a0) x * backward (vort2d K u) x)
  end.

(** MHD in velocity/magnetic-field form: -div(uu - bb) and div(ub - bu) *)
Definition mhd_ub {I X} (backward : (I -> C) -> X -> R) (forward : (X -> R) -> I -> C)
    (K : ax3 -> I -> R) (ub : ax6 -> I -> C) : ax6 -> I -> C := fun r k =>
  let u := fun i => backward (ub (inl i)) in
  let b := fun i => backward (ub (inr i)) in
  match r with
  | inl i => (- CsumL (elems F3) (fun j => deriv (K j) (forward (fun x => (u i x * u j x - b i x * b j x)%R)) k))%C
  | inr i => CsumL (elems F3) (fun j => deriv (K j) (forward (fun x => (u i x * b j x - u j x * b i x)%R)) k)
  end.
(** linearity of a forward transform *)
Definition linear_forward {I X} (forward : (X -> R) -> I -> C) : Prop :=
  forall (a b : R) (f g : X -> R) k,
  forward (fun x => a * f x + b * g x) k = (RtoC a * forward f k + RtoC b * forward g k)%C.
