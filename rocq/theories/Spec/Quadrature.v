(** Definite integrals, by antiderivatives, and the test functions of the quadrature theorems. *)
From Coq Require Import Reals Arith List.
From Verif Require Import Base.Sums.
Open Scope R_scope.

(** v is the integral of p over [a, b] *)
Definition Int (p : R -> R) (a b v : R) : Prop :=
  exists F, (forall x, derivable_pt_lim F x (p x)) /\ v = F b - F a.
(** V is the iterated integral of u over [a0,b0] x [a1,b1] x [a2,b2] *)
Definition Int3 (u : R -> R -> R -> R) (a0 b0 a1 b1 a2 b2 V : R) : Prop :=
  exists (h : R -> R -> R) (g : R -> R),
    (forall x y, Int (fun z => u x y z) a2 b2 (h x y)) /\
    (forall x, Int (fun y => h x y) a1 b1 (g x)) /\ Int g a0 b0 V.

(** polynomial of degree < n *)
Definition poly (n : nat) (a : nat -> R) (x : R) : R := Rsum n (fun k => a k * x ^ k).
(** one Fourier mode of wavenumber m and any phase on a period Lp *)
Definition wave (Lp : R) (m : nat) (phi : R) (y : R) : R := cos (2 * PI * INR m * y / Lp + phi).
(** points of the three grids *)
Definition x_GC (M k : nat) : R := cos (PI * (INR k + 1 / 2) / INR M).
Definition x_GL (M k : nat) : R := cos (PI * INR k / INR (M - 1)).
Definition x_per (Lp : R) (N j : nat) : R := INR j * Lp / INR N.

(** a function of (wall distance, two periodic coordinates) sampled with the wall normal stored
    along dimension [axis] of the array *)
Definition sampled (axis : nat) (f : R -> R -> R -> R) (xw : nat -> R) (ya yb : nat -> R)
    (i j k : nat) : R :=
  match axis with
  | O => f (xw i) (ya j) (yb k)
  | S O => f (xw j) (ya i) (yb k)
  | _ => f (xw k) (ya i) (yb j)
  end.
(** sum of an array over the plane with index i in dimension axis *)
Definition plane (axis : nat) (n : nat -> nat) (U : nat -> nat -> nat -> R) (i : nat) : R :=
  match axis with
  | O => Rsum (n 1%nat) (fun j => Rsum (n 2%nat) (fun k => U i j k))
  | S O => Rsum (n 0%nat) (fun j => Rsum (n 2%nat) (fun k => U j i k))
  | _ => Rsum (n 0%nat) (fun j => Rsum (n 1%nat) (fun k => U j k i))
  end.
(** the two other dimensions, in order *)
Definition oth1 (axis : nat) : nat := match axis with O => 1 | _ => 0 end.
Definition oth2 (axis : nat) : nat := match axis with O => 2 | S O => 2 | _ => 1 end.

(** boxes of ranks that cover an array of shape n once *)
Definition owns (lo len : nat -> nat -> nat) (r i j k : nat) : Prop :=
  (lo r 0 <= i < lo r 0 + len r 0 /\ lo r 1 <= j < lo r 1 + len r 1
   /\ lo r 2 <= k < lo r 2 + len r 2)%nat.
Definition decomposition (P : nat) (n : nat -> nat) (lo len : nat -> nat -> nat) : Prop :=
  (forall r a, (r < P)%nat -> (a < 3)%nat -> (lo r a + len r a <= n a)%nat) /\
  (forall i j k, (i < n 0)%nat -> (j < n 1)%nat -> (k < n 2)%nat ->
     exists r, (r < P)%nat /\ owns lo len r i j k /\
       forall r', (r' < P)%nat -> owns lo len r' i j k -> r' = r).
(** the local arrays u hold the boxes of the global array U *)
Definition scattered (P : nat) (lo len : nat -> nat -> nat) (U : nat -> nat -> nat -> R)
    (u : nat -> nat -> nat -> nat -> R) : Prop :=
  forall r i j k, (r < P)%nat -> (i < len r 0)%nat -> (j < len r 1)%nat -> (k < len r 2)%nat ->
    u r i j k = U (lo r 0 + i)%nat (lo r 1 + j)%nat (lo r 2 + k)%nat.
