(** Kinetic energy and transforms, for the energy budget theorems. *)
From Coq Require Import Reals List Arith ZArith.
From Verif Require Import Base.Cplx Base.Sums Base.Fin.
Open Scope R_scope.

Section Energy.
Context {D I X : Type} (F : fin D) (ms : list I) (w : I -> R).
(** real inner product of two spectral fields; w counts the conjugate modes that the
    real-to-complex layout leaves out *)
Definition inner (a b : I -> C) : R := RsumL ms (fun k => w k * Re (Cconj (a k) * b k)%C).
(** rate of work of v on u *)
Definition power (u v : D -> I -> C) : R := RsumL (elems F) (fun i => inner (u i) (v i)).
(** half of the sum of squares *)
Definition energy (u : D -> I -> C) : R :=
  RsumL (elems F) (fun i => RsumL ms (fun k => w k * Cnorm2 (u i k))) / 2.
(** sum of K2 |u|^2 *)
Definition gradsq (K2 : I -> R) (u : D -> I -> C) : R :=
  RsumL (elems F) (fun i => RsumL ms (fun k => w k * (K2 k * Cnorm2 (u i k)))).
(** forward is, up to the factor c, the transpose of backward *)
Definition adjoint (xs : list X) (c : R) (backward : (I -> C) -> X -> R) (forward : (X -> R) -> I -> C) : Prop :=
  forall a f, inner a (forward f) = c * RsumL xs (fun x => backward a x * f x).
End Energy.

(** e^(i t) *)
Definition cis (t : R) : C := (cos t, sin t).

(** * The real-to-complex discrete Fourier transform in three dimensions.
    N: mesh of the stored modes, M: mesh of the (padded) physical space, tr: truncation. *)
Section Rfft.
Context (N M : ax3 -> nat) (tr : nat * nat * nat -> R).
Notation idx := (nat * nat * nat)%type.
Definition grid (a b c : nat) : list idx := list_prod (list_prod (seq 0 a) (seq 0 b)) (seq 0 c).
Definition modes3 : list idx := grid (N x0) (N x1) (N x2 / 2 + 1).
Definition points3 : list idx := grid (M x0) (M x1) (M x2).
(** numpy.fft.fftfreq(n, 1/n) *)
Definition freq (n k : nat) : Z := if (2 * k <? n)%nat then Z.of_nat k else (Z.of_nat k - Z.of_nat n)%Z.
Definition wave3 (k x : idx) : C :=
  let '(k0, k1, k2) := k in let '(j0, j1, j2) := x in
  cis (2 * PI * (IZR (freq (N x0) k0) * INR j0 / INR (M x0) + IZR (freq (N x1) k1) * INR j1 / INR (M x1)
                 + INR k2 * INR j2 / INR (M x2))).
(** modes of the last axis with and without a conjugate partner on a mesh of n points *)
Definition mult2 (n : nat) (k : idx) : R :=
  let '(_, _, k2) := k in if ((k2 =? 0) || (2 * k2 =? n))%nat%bool then 1 else 2.
Definition npoints : R := INR (M x0) * INR (M x1) * INR (M x2).
Definition irfft3 (a : idx -> C) (x : idx) : R :=
  RsumL modes3 (fun k => tr k * mult2 (M x2) k * Re (a k * wave3 k x)%C).
Definition rfft3 (f : idx -> R) (k : idx) : C :=
  (RtoC (tr k / npoints) * CsumL points3 (fun x => RtoC (f x) * Cconj (wave3 k x)))%C.
(** scaled wavenumbers of a box with sides 2 pi / k0 *)
Definition wavenumber (k0 : ax3 -> R) (i : ax3) (k : idx) : R :=
  let '(a, b, c) := k in
  match i with x0 => IZR (freq (N x0) a) | x1 => IZR (freq (N x1) b) | x2 => INR c end * k0 i.
End Rfft.
