(** Textbook one-step methods for u' = f(u) on arrays V = D -> I -> C. *)
From Coq Require Import Reals List.
From Verif Require Import Base.Cplx Base.Sums.
Import ListNotations.
Open Scope R_scope.

Section Spec.
Context {D I : Type}.
Notation V := (D -> I -> C).
Context (f : V -> V).

Definition plus (u : V) (c : R) (v : V) : V := fun i k => (u i k + RtoC c * v i k)%C.

(** Classical fourth-order Runge-Kutta *)
Definition rk4_k1 (u : V) := f u.
Definition rk4_k2 (dt : R) (u : V) := f (plus u (dt / 2) (rk4_k1 u)).
Definition rk4_k3 (dt : R) (u : V) := f (plus u (dt / 2) (rk4_k2 dt u)).
Definition rk4_k4 (dt : R) (u : V) := f (plus u dt (rk4_k3 dt u)).
Definition rk4 (dt : R) (u : V) : V := fun i k =>
  (u i k + RtoC (dt / 6) * (rk4_k1 u i k + RtoC 2 * rk4_k2 dt u i k
                            + RtoC 2 * rk4_k3 dt u i k + rk4_k4 dt u i k))%C.

Definition euler (dt : R) (u : V) : V := plus u dt (f u).

(** Two-step Adams-Bashforth started with an Euler step: the sequence u_0, u_1, ... *)
Fixpoint ab2_seq (dt : R) (u0 : V) (n : nat) : V * V :=   (* (u_n, u_{n+1}) *)
  match n with
  | O => (u0, euler dt u0)
  | S n => let '(a, b) := ab2_seq dt u0 n in
           (b, fun i k => (b i k + RtoC (3/2 * dt) * f b i k - RtoC (1/2 * dt) * f a i k)%C)
  end.
Definition ab2 (dt : R) (u0 : V) (n : nat) : V := fst (ab2_seq dt u0 n).

(** Explicit Runge-Kutta method with coefficients A, b and s stages:
    k_i = f(u + dt * sum_{j<i} A_ij k_j),  u' = u + dt * sum_i b_i k_i *)
Section General.
Context (A : nat -> nat -> R) (b : nat -> R).
Definition combo (u : V) (dt : R) (n : nat) (w : nat -> R) (ks : nat -> V) : V :=
  fun i k => (u i k + RtoC dt * Csum n (fun j => RtoC (w j) * ks j i k))%C.
Fixpoint rk_stages (dt : R) (u : V) (n : nat) : list V :=
  match n with
  | O => []
  | S m => let ks := rk_stages dt u m in
           ks ++ [f (combo u dt m (A m) (fun j => nth j ks (fun _ _ => C0)))]
  end.
Definition rk_k (dt : R) (u : V) (i : nat) : V := nth i (rk_stages dt u (S i)) (fun _ _ => C0).
Definition rk_step (s : nat) (dt : R) (u : V) : V := combo u dt s b (rk_k dt u).
(** difference between the solution with weights b and with weights bhat *)
Definition rk_error (bhat : nat -> R) (s : nat) (dt : R) (u : V) : V :=
  combo (fun _ _ => C0) dt s (fun j => b j - bhat j) (rk_k dt u).
(** The same method when the first stage is not evaluated but given: k_0 = k0.
    With k0 = f(u) it is [rk_step]. *)
Fixpoint rk_stages_from (k0 : V) (dt : R) (u : V) (n : nat) : list V :=
  match n with
  | O => []
  | S m => let ks := rk_stages_from k0 dt u m in
           ks ++ [match m with O => k0 | _ => f (combo u dt m (A m) (fun j => nth j ks (fun _ _ => C0))) end]
  end.
Definition rk_k_from (k0 : V) (dt : R) (u : V) (i : nat) : V :=
  nth i (rk_stages_from k0 dt u (S i)) (fun _ _ => C0).
Definition rk_step_from (s : nat) (k0 : V) (dt : R) (u : V) : V := combo u dt s b (rk_k_from k0 dt u).
End General.

(** f is linear (over the reals) *)
Definition linear_map := forall u c v, f (plus u c v) = plus (f u) c (f v).

(** Adams-Bashforth steps with the sizes [dts] from the field u, when p = dt_prev * f(u_prev) *)
Fixpoint ab2_next (dts : list R) (u p : V) : V :=
  match dts with
  | [] => u
  | dt :: dts => ab2_next dts (fun i k => (u i k + RtoC (3/2 * dt) * f u i k - RtoC (1/2) * p i k)%C)
                              (fun i k => (RtoC dt * f u i k)%C)
  end.
End Spec.
