(** Notions for C84: the right hand side of the Navier-Stokes equations with an advecting velocity of its own, the classical
    Runge-Kutta method with a given first slope, and the layout of FFTW's transposed transforms. *)
From Coq Require Import Reals ZArith.
From Verif Require Import Base.Cplx Base.Sums Base.Fin Spec.Fourier Spec.RungeKutta.
Open Scope R_scope.

Section Rhs.
Context {I X : Type} (forward : (X -> R) -> I -> C) (backward : (I -> C) -> X -> R).
Context (K : ax3 -> I -> R) (kk dealias : I -> R) (nu : R).
Definition velocity (u : ax3 -> I -> C) : ax3 -> X -> R := fun d => backward (u d).
(** projected v x curl u, minus nu kk u *)
Definition rhs_with (v : ax3 -> X -> R) (u : ax3 -> I -> C) : ax3 -> I -> C := fun d k =>
  (leray F3 K (fun d k => RtoC (dealias k) * forward (crossR v (velocity (curl_hat K u)) d) k) d k
   - RtoC (nu * kk k) * u d k)%C.
(** the same with v the velocity of u *)
Definition rhs (u : ax3 -> I -> C) : ax3 -> I -> C := rhs_with (velocity u) u.
End Rhs.

(** One step of the classical method whose first slope is k1; second component: the argument of the fourth slope.
    With k1 = f u the first component is [rk4 f]. *)
Definition rk4_from {D I} (dt : R) (f : (D -> I -> C) -> D -> I -> C) (k1 u : D -> I -> C) : (D -> I -> C) * (D -> I -> C) :=
  let k2 := f (plus u (dt / 2) k1) in
  let k3 := f (plus u (dt / 2) k2) in
  let k4 := f (plus u dt k3) in
  ((fun i k => u i k + RtoC (dt / 6) * (k1 i k + RtoC 2 * k2 i k + RtoC 2 * k3 i k + k4 i k))%C, plus u dt k3).

(** FFTW_MPI_TRANSPOSED_OUT: the output of an N x N x N transform is an array of shape (N, N, N/2+1) whose first index runs
    over the second direction and whose second index runs over the first.  [f N i] is the wavenumber of frequency i. *)
Definition transposed_layout (f g : Z -> Z) (d : ax3) (ijk : Z * Z * Z) : Z :=
  let '(i, j, k) := ijk in match d with x0 => f j | x1 => f i | x2 => g k end.
(** exchange of the first two components *)
Definition swap (d : ax3) : ax3 := match d with x0 => x1 | x1 => x0 | x2 => x2 end.
