(** The field a column of N coefficients stands for when the basis vanishes at the walls and the last two
    coefficients are the values at x = 1 and x = -1. *)
From Coq Require Import Reals.
From Verif Require Import Base.Cplx Base.Sums.
Open Scope R_scope.

Definition lifted (N : nat) (f : nat -> R -> R) (p : nat -> C) (x : R) : C :=
  (Csum (N - 2) (fun m => p m * RtoC (f m x)) + RtoC ((1 + x) / 2) * p (N - 2)%nat + RtoC ((1 - x) / 2) * p (N - 1)%nat)%C.
(** a linear functional, as the product with a test function under a quadrature rule *)
Definition linear_functional (L : (R -> C) -> C) : Prop :=
  (forall (a b : C) u v, L (fun x => a * u x + b * v x)%C = (a * L u + b * L v)%C).
