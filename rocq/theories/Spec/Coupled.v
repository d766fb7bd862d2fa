(** Independent statements for the coupled velocity-pressure channel solvers. *)
From Coq Require Import Reals List Arith.
From Verif Require Import Base.Cplx Base.Sums Base.Fin Spec.Chebyshev Spec.Channel Spec.ChannelField.
Open Scope R_scope.

(** z = the inner product of f, a polynomial of degree < N, with the Chebyshev polynomial T_i, when
    the norms of the Chebyshev polynomials are h: pi, pi/2, pi/2, ... for the exact weighted
    integral and for Gauss points; Gauss-Lobatto points give pi instead of pi/2 for the last one. *)
Definition cheb_inner (N : nat) (h : nat -> R) (f : R -> C) (i : nat) (z : C) : Prop :=
  exists d, (forall x, f x = cheb N d x) /\ (z = RtoC (h i) * d i)%C.

(** The rows (q, u') and (q, u) of the pressure test functions *)
Definition pressure_rows (N : nat) (h : nat -> R) (qdu qu : column -> column) : Prop :=
  (forall i, (i < N)%nat -> 0 < h i) /\
  (forall u f i, (i < N)%nat -> is_derivative (series (N - 2) phi u) f -> cheb_inner N h f i (qdu u i)) /\
  (forall u i, (i < N)%nat -> cheb_inner N h (series (N - 2) phi u) i (qu u i)).

(** [x] = (velocity, pressure) solves the block system with right hand side [b]: the rows of [M x]
    are those of [b], except that in the mode with both wavenumbers zero the pressure rows 0 and
    N-1 are replaced by  p_0 = 0  and  p_{N-1} = 0. *)
Definition block_solution (N n1 n2 : nat) (K1 K2 : nat -> R)
    (x Mx b : (ax3 -> nat -> nat -> column) * (nat -> nat -> column)) : Prop :=
  forall j k, (j < n1)%nat -> (k < n2)%nat ->
    (forall c, agree (N - 2) (fst Mx c j k) (fst b c j k)) /\
    (forall i, (i < N)%nat -> ~ (K1 j = 0 /\ K2 k = 0 /\ (i = 0 \/ i = N - 1)%nat) -> snd Mx j k i = snd b j k i) /\
    (K1 j = 0 -> K2 k = 0 -> snd x j k 0%nat = C0 /\ snd x j k (N - 1)%nat = C0) /\
    (forall c, supp (N - 2) (fst x c j k)) /\ supp N (snd x j k).

(** The velocity with the coefficients u in Shen's Dirichlet basis, wall normal direction 0 *)
Definition dvel (N n1 n2 : nat) (wt : nat -> nat -> R) (K1 K2 : nat -> R)
    (u : ax3 -> nat -> nat -> column) : ax3 -> point -> R :=
  fun c => field x0 x1 x2 n1 n2 wt K1 K2 (N - 2) phi (u c).
(** The pressure gradient of one mode tested with the velocity functions, from (v, p') and (v, p) *)
Definition grad_p (vdp vp : column -> column) (k1 k2 : R) (p : column) (c : ax3) : column :=
  fun i => match c with
           | x0 => vdp p i
           | x1 => (Ci * RtoC k1 * vp p i)%C
           | x2 => (Ci * RtoC k2 * vp p i)%C
           end.

(** A velocity without divergence, and without slip at the walls x = -1 and x = 1 *)
Definition divergence_free (v : ax3 -> point -> R) : Prop :=
  exists G, is_gradient v G /\ forall p, G x0 x0 p + G x1 x1 p + G x2 x2 p = 0.
Definition no_slip (v : ax3 -> point -> R) : Prop :=
  forall c p, p x0 = - 1 \/ p x0 = 1 -> v c p = 0.

(** Additive Runge-Kutta with an impulse P_l added by the stages l = 1 .. m:
    E X_m = E X_0 + dt * sum_j ( ae m j * N_j + ai m j * L X_j ) - dt * sum_{l=1..m} P_l *)
Definition ark_stage_impulse (n : nat) (E L : column -> column) (dt : R)
    (ae ai : nat -> nat -> R) (s : nat) (N X P : nat -> column) (m : nat) : Prop :=
  forall i, (i < n)%nat ->
    (E (X m) i = E (X 0%nat) i + RtoC dt *
       Csum (S s) (fun j => RtoC (ae m j) * N j i + RtoC (ai m j) * L (X j) i)
       - RtoC dt * Csum m (fun l => P (S l) i))%C.
