(** The channel matrices as inner products of polynomials with the functions of a basis, and the
    velocity of the solvers KMM, KMMr and KMMRK3 as a function of the point.  Independent of the solvers. *)
From Coq Require Import Reals List Arith.
From Verif Require Import Base.Cplx Base.Sums Base.Fin Spec.Chebyshev Spec.Channel Spec.ChannelField.
Open Scope R_scope.

(** Shen's biharmonic basis *)
Definition psi (i : nat) (x : R) : R :=
  T i x - 2 * (INR i + 2) / (INR i + 3) * T (i + 2) x + (INR i + 1) / (INR i + 3) * T (i + 4) x.

(** z = (f, g) for polynomials of degree < N when the Chebyshev polynomials are orthogonal with the norms h:
    pi, pi/2, pi/2, ... for the weighted integral and for Gauss points; Gauss-Lobatto points give pi
    instead of pi/2 for the last one. *)
Definition inner (N : nat) (h : nat -> R) (f : R -> C) (g : R -> R) (z : C) : Prop :=
  exists (d : column) (e : nat -> R),
    (forall x, f x = cheb N d x) /\ (forall x, g x = Rsum N (fun i => e i * T i x)) /\
    (z = Csum N (fun i => RtoC (h i * e i) * d i))%C.

(** f is the m-th derivative of F *)
Fixpoint nth_derivative (m : nat) (F f : R -> C) : Prop :=
  match m with
  | O => forall x, F x = f x
  | S m => exists F1, is_derivative F F1 /\ nth_derivative m F1 f
  end.

(** Row i < n of M u is the inner product of the m-th derivative of the function with coefficients u in the
    basis b with the i-th of the test functions t *)
Definition rows (N : nat) (h : nat -> R) (m nb : nat) (b : nat -> R -> R) (nt : nat) (t : nat -> R -> R)
    (M : column -> column) : Prop :=
  forall u f i, (i < nt)%nat -> nth_derivative m (series nb b u) f -> inner N h f (t i) (M u i).

(** The velocity: the wall normal component (direction cn) in the biharmonic basis with N-4 functions, the
    two others in the Dirichlet basis with N-2 functions *)
Definition kvel (cn c1 c2 : ax3) (N n1 n2 : nat) (wt : nat -> nat -> R) (K1 K2 : nat -> R)
    (u : ax3 -> nat -> nat -> column) (c : ax3) : point -> R :=
  if eqb3 c cn then field cn c1 c2 n1 n2 wt K1 K2 (N - 4) psi (u c)
  else field cn c1 c2 n1 n2 wt K1 K2 (N - 2) phi (u c).
(** no slip at the walls of direction cn *)
Definition no_slip_in (cn : ax3) (v : ax3 -> point -> R) : Prop :=
  forall c p, p cn = - 1 \/ p cn = 1 -> v c p = 0.

(** Residuals of one Crank-Nicolson step at a point x of the normal line, for one mode with k2 = ky^2 + kz^2.
    u, u2, u4: the old wall normal velocity, its second and fourth derivative; v, v2, v4: the new one;
    c0, dc1, dc2: the convection, wall normal component and derivatives of the two others.
    (lap v - lap u)/dt = (-k2 c0 - i ky dc1 - i kz dc2) + nu (lap^2 u + lap^2 v)/2 *)
Definition residual_u (nu dt k2 ky kz : R) (u u2 u4 v v2 v4 c0 dc1 dc2 : R -> C) (x : R) : C :=
  (RtoC (/ dt) * ((v2 x - RtoC k2 * v x) - (u2 x - RtoC k2 * u x))
   - (- RtoC k2 * c0 x - Ci * RtoC ky * dc1 x - Ci * RtoC kz * dc2 x)
   - RtoC (nu / 2) * ((u4 x - RtoC (2 * k2) * u2 x + RtoC (k2 * k2) * u x)
                      + (v4 x - RtoC (2 * k2) * v2 x + RtoC (k2 * k2) * v x)))%C.
(** (v - u)/dt = f + nu (lap u + lap v)/2 *)
Definition residual_d (nu dt k2 : R) (u u2 v v2 f : R -> C) (x : R) : C :=
  (RtoC (/ dt) * (v x - u x) - f x
   - RtoC (nu / 2) * ((u2 x - RtoC k2 * u x) + (v2 x - RtoC k2 * v x)))%C.
