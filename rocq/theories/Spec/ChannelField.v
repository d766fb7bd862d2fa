(** Functions of three real variables represented by channel coefficients, their partial
    derivatives, and weighted projections.  Independent of the solvers. *)
From Coq Require Import Reals List Arith.
From Verif Require Import Base.Cplx Base.Sums Base.Fin Spec.Chebyshev Spec.Channel.
Open Scope R_scope.

(** A point: one coordinate per direction. *)
Definition point := ax3 -> R.
Definition move (p : point) (d : ax3) (s : R) : point := fun e => if eqb3 e d then s else p e.

(** l is the partial derivative of f in direction d at p *)
Definition is_partial (d : ax3) (f : point -> R) (p : point) (l : R) : Prop :=
  derivable_pt_lim (fun s => f (move p d s)) (p d) l.

(** G c d is the derivative of component c in direction d, everywhere *)
Definition is_gradient (v : ax3 -> point -> R) (G : ax3 -> ax3 -> point -> R) : Prop :=
  forall c d p, is_partial d (v c) p (G c d p).

(** curl of a vector field with gradient G *)
Definition curl_of (G : ax3 -> ax3 -> point -> R) (c : ax3) (p : point) : R :=
  match c with
  | x0 => G x2 x1 p - G x1 x2 p
  | x1 => G x0 x2 p - G x2 x0 p
  | x2 => G x1 x0 p - G x0 x1 p
  end.
(** (v . grad) v *)
Definition advection (v : ax3 -> point -> R) (G : ax3 -> ax3 -> point -> R) (c : ax3) (p : point) : R :=
  v x0 p * G c x0 p + v x1 p * G c x1 p + v x2 p * G c x2 p.
Definition cross_of (a b : ax3 -> point -> R) (c : ax3) (p : point) : R :=
  match c with
  | x0 => a x1 p * b x2 p - a x2 p * b x1 p
  | x1 => a x2 p * b x0 p - a x0 p * b x2 p
  | x2 => a x0 p * b x1 p - a x1 p * b x0 p
  end.
Definition kinetic (v : ax3 -> point -> R) (p : point) : R :=
  (v x0 p * v x0 p + v x1 p * v x1 p + v x2 p * v x2 p) / 2.

(** e^{i t} *)
Definition expi (t : R) : C := (cos t, sin t).

(** The real function with coefficients F in the products  b_i(normal) * e^{i(K1_j y + K2_k z)},
    i < nb, j < n1, k < n2.  wt counts the modes that are not stored (2 for a mode standing for
    its conjugate too) and truncation (0 for a discarded mode). *)
Section Eval.
Context (cn c1 c2 : ax3) (n1 n2 : nat) (wt : nat -> nat -> R) (K1 K2 : nat -> R).
Definition field (nb : nat) (b : nat -> R -> R) (F : nat -> nat -> column) (p : point) : R :=
  Rsum n1 (fun j => Rsum n2 (fun k =>
    wt j k * Re (Csum nb (fun i => F j k i * RtoC (b i (p cn)))
                 * expi (K1 j * p c1 + K2 k * p c2))%C)).
End Eval.

(** Shen's Dirichlet basis *)
Definition phi (i : nat) (x : R) : R := T i x - T (i + 2) x.

(** r holds the coefficients of the projection of f on the first n functions of b, in the inner
    product with weight 1/sqrt(1-x^2) *)
Definition is_projection (n : nat) (b : nat -> R -> R) (f : R -> C) (r : column) : Prop :=
  supp n r /\
  forall i, (i < n)%nat ->
    Cwint (fun x => ((f x - Csum n (fun l => r l * RtoC (b l x))) * RtoC (b i x))%C) C0.
(** the function with coefficients a in the basis b has derivative f *)
Definition series (n : nat) (b : nat -> R -> R) (a : column) (x : R) : C :=
  Csum n (fun i => a i * RtoC (b i x))%C.
Definition is_derivative (F f : R -> C) : Prop := forall x, Cderiv F x (f x).
