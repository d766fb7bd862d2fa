(** Rooted trees and the order conditions of Runge-Kutta methods (Butcher; Hairer,
    Norsett, Wanner I, section II.2), for a tableau with rational coefficients. *)
From Coq Require Import QArith List Arith.
Import ListNotations.
Open Scope Q_scope.

(** A rooted tree = root plus the list of its subtrees (planar representation:
    every ordering of the subtrees is a different term, so quantifying over these
    terms covers every rooted tree, several times). *)
Inductive tree := Node (children : list tree).

(** number of vertices *)
Fixpoint order (t : tree) : nat :=
  match t with Node ts => S (fold_right (fun t n => (order t + n)%nat) 0%nat ts) end.
Definition forest_order (ts : list tree) : nat :=
  fold_right (fun t n => (order t + n)%nat) 0%nat ts.

(** density gamma(t) = order(t) * product of the densities of the subtrees *)
Fixpoint gamma (t : tree) : Q :=
  match t with
  | Node ts => inject_Z (Z.of_nat (order t)) * fold_right (fun t q => gamma t * q) 1 ts
  end.

(** scalar product of a row of coefficients with a vector ([Qred] only normalises
    the fraction: Qred x == x) *)
Fixpoint dot (u v : list Q) : Q :=
  match u, v with
  | x :: u, y :: v => Qred (x * y + dot u v)
  | _, _ => 0
  end.

(** elementary weights: Phi_i(root [t_1..t_m]) = prod_l sum_j a_ij Phi_j(t_l) *)
Fixpoint Phi (A : list (list Q)) (t : tree) : list Q :=
  match t with
  | Node ts => map (fun row => fold_right (fun v q => Qred (dot row v * q)) 1 (map (Phi A) ts)) A
  end.

(** the method (A, b) satisfies the order condition of tree t *)
Definition order_condition (A : list (list Q)) (b : list Q) (t : tree) : Prop :=
  dot b (Phi A t) * gamma t == 1.
(** the method has order p: all conditions of trees with at most p vertices *)
Definition has_order (A : list (list Q)) (b : list Q) (p : nat) : Prop :=
  forall t, (order t <= p)%nat -> order_condition A b t.
