(** The two-dimensional real-to-complex discrete Fourier transform and the Taylor-Green vortex. *)
From Coq Require Import Reals List Arith ZArith.
From Verif Require Import Base.Cplx Base.Sums Base.Fin Spec.Energy.
Open Scope R_scope.

(** N: mesh of the stored modes, M: mesh of the (padded) physical space, tr: truncation *)
Section Rfft2.
Context (N M : ax2 -> nat) (tr : nat * nat -> R).
Notation idx := (nat * nat)%type.
Definition modes2 : list idx := list_prod (seq 0 (N a0)) (seq 0 (N a1 / 2 + 1)).
Definition points2 : list idx := list_prod (seq 0 (M a0)) (seq 0 (M a1)).
(** mesh of [0, 2 pi) x [0, 2 pi) *)
Definition mesh2 (i : ax2) (x : idx) : R :=
  match i with a0 => 2 * PI * INR (fst x) / INR (M a0) | a1 => 2 * PI * INR (snd x) / INR (M a1) end.
(** wavenumbers *)
Definition wavenumber2 (i : ax2) (k : idx) : R :=
  match i with a0 => IZR (freq (N a0) (fst k)) | a1 => INR (snd k) end.
Definition wave2 (k x : idx) : C :=
  cis (wavenumber2 a0 k * mesh2 a0 x + wavenumber2 a1 k * mesh2 a1 x).
(** modes with a conjugate partner that is not stored count twice *)
Definition mult2d (k : idx) : R := if ((snd k =? 0) || (2 * snd k =? M a1))%nat%bool then 1 else 2.
Definition irfft2 (a : idx -> C) (x : idx) : R :=
  RsumL modes2 (fun k => tr k * mult2d k * Re (a k * wave2 k x)%C).
Definition rfft2 (f : idx -> R) (k : idx) : C :=
  (RtoC (tr k / (INR (M a0) * INR (M a1))) * CsumL points2 (fun x => RtoC (f x) * Cconj (wave2 k x)))%C.
End Rfft2.

(** Taylor-Green velocity of amplitude c at the point (x, y) *)
Definition taylor_green (c x y : R) (i : ax2) : R :=
  match i with a0 => c * (sin x * cos y) | a1 => - (c * (cos x * sin y)) end.
(** the array holds the modes of the velocity of amplitude c *)
Definition tg_modes (N : ax2 -> nat) (c : R) (v : ax2 -> nat * nat -> C) : Prop :=
  forall i k, In k (modes2 N) -> v i k =
    (if (snd k =? 1)%nat then
       if (freq (N a0) (fst k) =? 1)%Z then match i with a0 => (0, - c / 4) | a1 => (0, c / 4) end
       else if (freq (N a0) (fst k) =? -1)%Z then (0, c / 4) else C0
     else C0).
(** the growth factor of the classical fourth order Runge-Kutta method on a' = z/dt a *)
Definition rk4_poly (z : R) : R := 1 + z + z^2 / 2 + z^3 / 6 + z^4 / 24.
(** Python's round(x, n) == 0 *)
Definition rounds_to_zero (n : nat) (x : R) : Prop := Rabs x <= / 2 * / 10 ^ n.
