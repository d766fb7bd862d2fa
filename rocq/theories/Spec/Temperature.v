(** The temperature of the Rayleigh-Benard solvers as a function of the point.  Independent of the solvers. *)
From Coq Require Import Reals Arith.
From Verif Require Import Base.Cplx Base.Sums Base.Fin Spec.Chebyshev Spec.Channel Spec.ChannelField.
Open Scope R_scope.

(** N functions: the Dirichlet basis, then the linear functions that are 1 at one wall and 0 at the other *)
Definition lift_basis (N i : nat) (x : R) : R :=
  if (i =? N - 2)%nat then (1 + x) / 2 else if (i =? N - 1)%nat then (1 - x) / 2 else phi i x.

Section Field.
Context (cn c1 c2 : ax3) (n1 n2 : nat) (wt : nat -> nat -> R) (K1 K2 : nat -> R).
Definition tfield (N : nat) (P : nat -> nat -> column) : point -> R :=
  field cn c1 c2 n1 n2 wt K1 K2 N (lift_basis N) P.
(** wall temperatures a and b, the same at all points of a wall *)
Definition wall_temperatures (f : point -> R) (a b : R) : Prop :=
  forall p, (p cn = 1 -> f p = a) /\ (p cn = - 1 -> f p = b).
End Field.

(** G d is the partial derivative of f in direction d *)
Definition is_grad (f : point -> R) (G : ax3 -> point -> R) : Prop := forall d p, is_partial d f p (G d p).
(** (v . grad) f *)
Definition advected (v : ax3 -> point -> R) (G : ax3 -> point -> R) (p : point) : R :=
  v x0 p * G x0 p + v x1 p * G x1 p + v x2 p * G x2 p.
