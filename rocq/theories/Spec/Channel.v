(** Independent statements for the channel solvers: what is assumed of shenfun's
    matrices and solvers, the semi-discrete equations, and the order conditions. *)
From Coq Require Import Reals List.
From Verif Require Import Base.Cplx Base.Sums.
Open Scope R_scope.

(** A column of coefficients along the wall normal direction. *)
Notation column := (nat -> C).

Definition agree (n : nat) (u v : column) : Prop := forall i, (i < n)%nat -> u i = v i.
(** Only the first n coefficients (the degrees of freedom of the basis) are used. *)
Definition supp (n : nat) (u : column) : Prop := forall i, (n <= i)%nat -> u i = C0.

Definition linear (M : column -> column) : Prop :=
  forall (a b : C) (u v : column) (i : nat),
    M (fun i => (a * u i + b * v i)%C) i = (a * M u i + b * M v i)%C.

(** [S] solves the n x n system with matrix [M]: it returns a solution, in the
    basis, and it is a left inverse too (the matrix is nonsingular). *)
Definition solves (n : nat) (M S : column -> column) : Prop :=
  (forall b, agree n (M (S b)) b) /\
  (forall b, supp n (S b)) /\
  (forall b u, supp n u -> agree n b (M u) -> forall i, S b i = u i).

(** Rows of a two-term and a three-term linear combination of matrices. *)
Definition comb2 (a : R) (A : column -> column) (b : R) (B : column -> column) : column -> column :=
  fun u i => (RtoC a * A u i + RtoC b * B u i)%C.
Definition comb3 a A b B c (D : column -> column) : column -> column :=
  fun u i => (comb2 a A b B u i + RtoC c * D u i)%C.

(** Crank-Nicolson for  d(E x)/dt = h + L x  over a step dt, h being given:
    E (x' - x)/dt = h + L (x + x')/2  in the first n rows. *)
Definition crank_nicolson (n : nat) (E L : column -> column) (dt : R) (h x x' : column) : Prop :=
  forall i, (i < n)%nat ->
    (RtoC (/ dt) * (E x' i - E x i) = h i + RtoC (/ 2) * (L x i + L x' i))%C.

(** Operators of the wall normal velocity / vorticity equations at the wavenumber k2 = ky^2+kz^2:
    laplacian of u:  D^2 - k2;   nu * biharmonic:  nu (D^4 - 2 k2 D^2 + k2^2);
    diffusion of the vorticity and of the mean flow: nu (D^2 - k2). *)
Definition lap (k2 : R) (A B : column -> column) : column -> column := comb2 1 A (- k2) B.
Definition bih (nu k2 : R) (S A B : column -> column) : column -> column :=
  comb3 nu S (- (2 * nu * k2)) A (nu * (k2 * k2)) B.
Definition visc (nu k2 : R) (A B : column -> column) : column -> column :=
  comb2 nu A (- (nu * k2)) B.

(** Right hand sides of the two equations for a given convection term (N0, N1, N2), N0
    being the wall normal component, tested with the two bases:
    (dy^2+dz^2) N0 - d/dx (dy N1 + dz N2)   and   dy N2 - dz N1. *)
Definition rhs_u (k1 k2 : R) (ksq : R) (BBD CBD : column -> column) (N0 N1 N2 : column) : column :=
  fun i => (- (RtoC ksq) * BBD N0 i - Ci * RtoC k1 * CBD N1 i - Ci * RtoC k2 * CBD N2 i)%C.
Definition rhs_g (k1 k2 : R) (BDD : column -> column) (N1 N2 : column) : column :=
  fun i => (Ci * RtoC k1 * BDD N2 i - Ci * RtoC k2 * BDD N1 i)%C.

(** ** Additive Runge-Kutta methods *)
(** s+1 stage values X 0 .. X s of  d(E x)/dt = N + L x :
    E X_m = E X_0 + dt * sum_j ( ae m j * N_j + ai m j * L X_j ). *)
Definition ark_stage (n : nat) (E L : column -> column) (dt : R)
    (ae ai : nat -> nat -> R) (s : nat) (N X : nat -> column) (m : nat) : Prop :=
  forall i, (i < n)%nat ->
    (E (X m) i = E (X 0%nat) i + RtoC dt *
       Csum (S s) (fun j => RtoC (ae m j) * N j i + RtoC (ai m j) * L (X j) i))%C.

(** Order conditions for a tableau with s+1 stages whose last row holds the weights
    (stiffly accurate); c are the abscissae. *)
Section Order.
Context (s : nat) (ae ai : nat -> nat -> R) (c : nat -> R).
Definition consistent_rows (a : nat -> nat -> R) : Prop :=
  forall m, (m <= s)%nat -> Rsum (S s) (a m) = c m.
Definition weight_moment (a : nat -> nat -> R) (p : nat) : R :=
  Rsum (S s) (fun j => a s j * c j ^ p).
Definition order2 (a : nat -> nat -> R) : Prop :=
  weight_moment a 0 = 1 /\ weight_moment a 1 = / 2.
Definition order3 (a : nat -> nat -> R) : Prop :=
  order2 a /\ weight_moment a 2 = / 3 /\
  Rsum (S s) (fun j => a s j * Rsum (S s) (fun l => a j l * c l)) = / 6.
End Order.

(** ** Continuity and wall normal vorticity of one mode (k1, k2) *)
(** d is the wall normal derivative of u projected on the Dirichlet basis (n functions)
    when B d = D u, with B the mass matrix and D = (phi_i, psi_j'). *)
Definition is_dx (n : nat) (B D : column -> column) (u d : column) : Prop :=
  supp n d /\ agree n (B d) (D u).
Definition continuity (n : nat) (B D : column -> column) (k1 k2 : R) (u v w : column) : Prop :=
  forall d, is_dx n B D u d -> forall i, (d i + Ci * RtoC k1 * v i + Ci * RtoC k2 * w i = 0)%C.
Definition normal_vorticity (k1 k2 : R) (v w om : column) : Prop :=
  forall i, (Ci * RtoC k1 * w i - Ci * RtoC k2 * v i = om i)%C.

(** The mode with both wavenumbers zero is stored at local index (0,0) of rank 0 and
    nowhere else; n1, n2 are the local numbers of modes. *)
Definition zero_mode_on_root (n1 n2 : nat) (root : bool) (K1 K2 : nat -> R) : Prop :=
  forall j k, (j < n1)%nat -> (k < n2)%nat ->
    (K1 j = 0 /\ K2 k = 0 <-> root = true /\ j = 0%nat /\ k = 0%nat).

(** ** The three stage method of Spalart, Moser and Rogers used by the RK3 solvers,
    written as an additive Runge-Kutta tableau (last row = weights). *)
Definition rk3_c (m : nat) : R := nth m (0 :: 8/15 :: 2/3 :: 1 :: nil) 0.
Definition rk3_ae (m j : nat) : R :=
  nth j (nth m ((0 :: 0 :: 0 :: 0 :: nil) ::
                (8/15 :: 0 :: 0 :: 0 :: nil) ::
                (1/4 :: 5/12 :: 0 :: 0 :: nil) ::
                (1/4 :: 0 :: 3/4 :: 0 :: nil) :: nil) nil) 0.
Definition rk3_ai (m j : nat) : R :=
  nth j (nth m ((0 :: 0 :: 0 :: 0 :: nil) ::
                (4/15 :: 4/15 :: 0 :: 0 :: nil) ::
                (4/15 :: 1/3 :: 1/15 :: 0 :: nil) ::
                (4/15 :: 1/3 :: 7/30 :: 1/6 :: nil) :: nil) nil) 0.
