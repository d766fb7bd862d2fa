(** Chebyshev polynomials, the Dirichlet and Neumann bases of Shen, derivatives and the
    weighted inner product. *)
From Coq Require Import Reals List Arith.
From Verif Require Import Base.Cplx Base.Sums.
Open Scope R_scope.

(** T_0 = 1, T_1 = x, T_{n+2} = 2 x T_{n+1} - T_n *)
Fixpoint TT (n : nat) (x : R) : R * R :=
  match n with
  | O => (1, x)
  | S n => let '(a, b) := TT n x in (b, 2 * x * b - a)
  end.
Definition T (n : nat) (x : R) : R := fst (TT n x).

(** The function with coefficients v in the Dirichlet basis T_k - T_{k+2}, k = 0 .. N-3 *)
Definition dirichlet (N : nat) (v : nat -> C) (x : R) : C :=
  Csum (N - 2) (fun k => (v k * RtoC (T k x - T (k + 2) x))%C).
(** Chebyshev series *)
Definition cheb (N : nat) (b : nat -> C) (x : R) : C :=
  Csum N (fun k => (b k * RtoC (T k x))%C).
(** Neumann test functions *)
Definition neumann (k : nat) (x : R) : R := T k x - (INR k / INR (k + 2)) ^ 2 * T (k + 2) x.

(** derivative of a complex function of a real variable *)
Definition Cderiv (f : R -> C) (x : R) (l : C) : Prop :=
  derivable_pt_lim (fun y => fst (f y)) x (fst l) /\ derivable_pt_lim (fun y => snd (f y)) x (snd l).

(** z is the integral of f(x)/sqrt(1-x^2) over [-1,1], that is of f(cos t) over [0,pi] *)
Definition wint (f : R -> R) (z : R) : Prop :=
  exists F, (forall t, derivable_pt_lim F t (f (cos t))) /\ z = F PI - F 0.
Definition Cwint (f : R -> C) (z : C) : Prop :=
  wint (fun x => fst (f x)) (fst z) /\ wint (fun x => snd (f x)) (snd z).
