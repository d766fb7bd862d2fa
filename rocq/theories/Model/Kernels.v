(** Model of the compiled elementwise kernels: spectralDNS/optimization/numba_module.py,
    pythran_maths.py, pythran_module.py, cython_maths.in, cython_solvers.in and
    cython_integrators.in.

    An array is a shape and a function from index tuples.  Every read and write is checked
    against the shape, [None] is an access out of bounds (undefined behaviour in the compiled
    code: boundscheck is off in cython, numba and pythran).  The array arguments of one call
    are distinct objects.  Loop nests are written out as in the code.  Arithmetic is exact. *)
From Coq Require Import Reals List Arith Bool.
From Verif Require Import Base.Cplx.
Import ListNotations.
Open Scope R_scope.

(** arguments of numba_module.py:4-184 *)
Record arr (A : Type) := mkArr { shape : list nat; data : list nat -> A }.
Arguments mkArr {A}. Arguments shape {A}. Arguments data {A}.

(** all indices in range *)
(** index check, cython_maths.in:1-12 *)
Fixpoint inb (idx sh : list nat) : bool :=
  match idx, sh with
  | [], [] => true
  | i :: idx, n :: sh => (i <? n)%nat && inb idx sh
  | _, _ => false
  end.
(** equality of index tuples, numba_module.py:4-184 *)
Fixpoint leqb (a b : list nat) : bool :=
  match a, b with
  | [], [] => true
  | x :: a, y :: b => (x =? y)%nat && leqb a b
  | _, _ => false
  end.

(** sequencing of statements, numba_module.py:4-184 *)
Definition bind {A B} (o : option A) (f : A -> option B) : option B :=
  match o with Some a => f a | None => None end.
Notation "x <- e ;; f" := (bind e (fun x => f)) (at level 100, e at level 99, f at level 200, right associativity).

(** read of an array element, numba_module.py:4-184 *)
Definition get {A} (a : arr A) (idx : list nat) : option A :=
  if inb idx (shape a) then Some (data a idx) else None.
(** write of an array element, numba_module.py:4-184 *)
Definition put {A} (a : arr A) (idx : list nat) (v : A) : option (arr A) :=
  if inb idx (shape a) then Some (mkArr (shape a) (fun l => if leqb l idx then v else data a l)) else None.
(** a[idx].real = x,  a[idx].imag = x *)
(** cython_maths.in:39-86 *)
Definition put_re (a : arr C) (idx : list nat) (x : R) : option (arr C) :=
  z <- get a idx ;; put a idx (x, Im z).
(** cython_maths.in:39-86 *)
Definition put_im (a : arr C) (idx : list nat) (x : R) : option (arr C) :=
  z <- get a idx ;; put a idx (Re z, x).
(** a.shape[d] *)
(** numba_module.py:4-184 *)
Definition dim {A} (a : arr A) (d : nat) : nat := nth d (shape a) 0%nat.
(** for i in range(n) *)
(** numba_module.py:4-184 *)
Definition for_ {S} (n : nat) (body : nat -> S -> option S) (s : S) : option S :=
  fold_left (fun o i => bind o (body i)) (seq 0 n) (Some s).

(** ** cross1: numba_module.py:86-101, pythran_maths.py:68-82, cython_maths.in:13-30 (same text) *)
Definition k_cross1 (c a b : arr R) : option (arr R) :=
  for_ (dim a 1) (fun i => for_ (dim a 2) (fun j => for_ (dim a 3) (fun k c =>
    a0 <- get a [0;i;j;k]%nat ;; a1 <- get a [1;i;j;k]%nat ;; a2 <- get a [2;i;j;k]%nat ;;
    b0 <- get b [0;i;j;k]%nat ;; b1 <- get b [1;i;j;k]%nat ;; b2 <- get b [2;i;j;k]%nat ;;
    c <- put c [0;i;j;k]%nat (a1*b2 - a2*b1) ;;
    c <- put c [1;i;j;k]%nat (a2*b0 - a0*b2) ;;
    put c [2;i;j;k]%nat (a0*b1 - a1*b0)))) c.

(** x + 1j*y for real x, y *)
(** numba_module.py:104-134 *)
Definition cmk (x y : R) : C := (RtoC x + Ci * RtoC y)%C.

(** ** cross2a: numba_module.py:103-118, pythran_maths.py:86-100 *)
Definition k_cross2a (c : arr C) (a : arr R) (b : arr C) : option (arr C) :=
  for_ (dim a 1) (fun i => for_ (dim a 2) (fun j => for_ (dim a 3) (fun k c =>
    a0 <- get a [0;i;j;k]%nat ;; a1 <- get a [1;i;j;k]%nat ;; a2 <- get a [2;i;j;k]%nat ;;
    b0 <- get b [0;i;j;k]%nat ;; b1 <- get b [1;i;j;k]%nat ;; b2 <- get b [2;i;j;k]%nat ;;
    c <- put c [0;i;j;k]%nat (cmk (- (a1*Im b2 - a2*Im b1)) (a1*Re b2 - a2*Re b1)) ;;
    c <- put c [1;i;j;k]%nat (cmk (- (a2*Im b0 - a0*Im b2)) (a2*Re b0 - a0*Re b2)) ;;
    put c [2;i;j;k]%nat (cmk (- (a0*Im b1 - a1*Im b0)) (a0*Re b1 - a1*Re b0))))) c.

(** ** cross2c, sparse wavenumber arrays (n0,1,1), (1,n1,1), (1,1,n2): numba_module.py:120-135 *)
Definition k_cross2c_numba (c : arr C) (ka kb kc : arr R) (b : arr C) : option (arr C) :=
  for_ (dim b 1) (fun i => for_ (dim b 2) (fun j => for_ (dim b 3) (fun k c =>
    a0 <- get ka [i;0;0]%nat ;; a1 <- get kb [0;j;0]%nat ;; a2 <- get kc [0;0;k]%nat ;;
    b0 <- get b [0;i;j;k]%nat ;; b1 <- get b [1;i;j;k]%nat ;; b2 <- get b [2;i;j;k]%nat ;;
    c <- put c [0;i;j;k]%nat (cmk (- (a1*Im b2 - a2*Im b1)) (a1*Re b2 - a2*Re b1)) ;;
    c <- put c [1;i;j;k]%nat (cmk (- (a2*Im b0 - a0*Im b2)) (a2*Re b0 - a0*Re b2)) ;;
    put c [2;i;j;k]%nat (cmk (- (a0*Im b1 - a1*Im b0)) (a0*Re b1 - a1*Re b0))))) c.

(** the views K[0][:,0,0], K[1][0,:,0], K[2][0,0,:]; [None] when a fixed index is out of range *)
(** numba_module.py:137-141, 145-147 *)
Definition view0 (a : arr R) : option (arr R) :=
  if (0 <? dim a 1)%nat && (0 <? dim a 2)%nat
  then Some (mkArr [dim a 0] (fun l => data a (match l with i :: _ => [i;0;0]%nat | [] => [] end))) else None.
(** numba_module.py:137-141, 145-147 *)
Definition view1 (a : arr R) : option (arr R) :=
  if (0 <? dim a 0)%nat && (0 <? dim a 2)%nat
  then Some (mkArr [dim a 1] (fun l => data a (match l with j :: _ => [0;j;0]%nat | [] => [] end))) else None.
(** numba_module.py:137-141, 145-147 *)
Definition view2 (a : arr R) : option (arr R) :=
  if (0 <? dim a 0)%nat && (0 <? dim a 1)%nat
  then Some (mkArr [dim a 2] (fun l => data a (match l with k :: _ => [0;0;k]%nat | [] => [] end))) else None.

(** pythran_module.py:29-34 with pythran_maths.py:104-118: 1D views *)
Definition k_cross2c_pythran (c : arr C) (ka kb kc : arr R) (b : arr C) : option (arr C) :=
  va <- view0 ka ;; vb <- view1 kb ;; vc <- view2 kc ;;
  for_ (dim b 1) (fun i => for_ (dim b 2) (fun j => for_ (dim b 3) (fun k c =>
    a0 <- get va [i] ;; a1 <- get vb [j] ;; a2 <- get vc [k] ;;
    b0 <- get b [0;i;j;k]%nat ;; b1 <- get b [1;i;j;k]%nat ;; b2 <- get b [2;i;j;k]%nat ;;
    c <- put c [0;i;j;k]%nat (cmk (- (a1*Im b2 - a2*Im b1)) (a1*Re b2 - a2*Re b1)) ;;
    c <- put c [1;i;j;k]%nat (cmk (- (a2*Im b0 - a0*Im b2)) (a2*Re b0 - a0*Re b2)) ;;
    put c [2;i;j;k]%nat (cmk (- (a0*Im b1 - a1*Im b0)) (a0*Re b1 - a1*Re b0))))) c.

(** ** cython _cross2, cython_maths.in:39-60: real and imaginary parts written separately *)
Definition cy_row (c : arr C) (i j k : nat) (a0 a1 a2 : R) (b0 b1 b2 : C) : option (arr C) :=
  c <- put_re c [0;i;j;k]%nat (- (a1*Im b2 - a2*Im b1)) ;;
  c <- put_im c [0;i;j;k]%nat (a1*Re b2 - a2*Re b1) ;;
  c <- put_re c [1;i;j;k]%nat (- (a2*Im b0 - a0*Im b2)) ;;
  c <- put_im c [1;i;j;k]%nat (a2*Re b0 - a0*Re b2) ;;
  c <- put_re c [2;i;j;k]%nat (- (a0*Im b1 - a1*Im b0)) ;;
  put_im c [2;i;j;k]%nat (a0*Re b1 - a1*Re b0).
Definition cy_cross2 (c : arr C) (a : arr R) (b : arr C) : option (arr C) :=
  for_ (dim a 1) (fun i => for_ (dim a 2) (fun j => for_ (dim a 3) (fun k c =>
    a0 <- get a [0;i;j;k]%nat ;; a1 <- get a [1;i;j;k]%nat ;; a2 <- get a [2;i;j;k]%nat ;;
    b0 <- get b [0;i;j;k]%nat ;; b1 <- get b [1;i;j;k]%nat ;; b2 <- get b [2;i;j;k]%nat ;;
    cy_row c i j k a0 a1 a2 b0 b1 b2))) c.
(** cython _cross3, cython_maths.in:62-86 *)
Definition cy_cross3 (c : arr C) (kx ky kz : arr R) (b : arr C) : option (arr C) :=
  for_ (dim b 1) (fun i c =>
    a0 <- get kx [i;0;0]%nat ;;
    for_ (dim b 2) (fun j c =>
      a1 <- get ky [0;j;0]%nat ;;
      for_ (dim b 3) (fun k c =>
        a2 <- get kz [0;0;k]%nat ;;
        b0 <- get b [0;i;j;k]%nat ;; b1 <- get b [1;i;j;k]%nat ;; b2 <- get b [2;i;j;k]%nat ;;
        cy_row c i j k a0 a1 a2 b0 b1 b2) c) c) c.

(** ** two-dimensional versions, cython_maths.in:89-126 *)
Definition cy_cross1_2D (c a b : arr R) : option (arr R) :=
  for_ (dim a 1) (fun i => for_ (dim a 2) (fun j c =>
    a0 <- get a [0;i;j]%nat ;; a1 <- get a [1;i;j]%nat ;;
    b0 <- get b [0;i;j]%nat ;; b1 <- get b [1;i;j]%nat ;;
    put c [i;j] (a0*b1 - a1*b0))) c.
Definition cy_cross2_2D (c : arr C) (a : arr R) (b : arr C) : option (arr C) :=
  for_ (dim a 1) (fun i => for_ (dim a 2) (fun j c =>
    a0 <- get a [0;i;j]%nat ;; a1 <- get a [1;i;j]%nat ;;
    b0 <- get b [0;i;j]%nat ;; b1 <- get b [1;i;j]%nat ;;
    c <- put_re c [i;j] (- (a0*Im b1 - a1*Im b0)) ;;
    put_im c [i;j] (a0*Re b1 - a1*Re b0))) c.
(** _cross3_2D, cython_maths.in:128-147 *)
Definition cy_cross3_2D (c : arr C) (kx ky : arr R) (b : arr C) : option (arr C) :=
  for_ (dim b 1) (fun i => for_ (dim b 2) (fun j c =>
    a0 <- get kx [i;j] ;; a1 <- get ky [i;j] ;;
    b0 <- get b [0;i;j]%nat ;; b1 <- get b [1;i;j]%nat ;;
    c <- put_re c [i;j] (- (a0*Im b1 - a1*Im b0)) ;;
    put_im c [i;j] (a0*Re b1 - a1*Re b0))) c.

(** ** add_pressure_diffusion_NS_: numba_module.py:144-162, pythran_maths.py:122-134; the state is
    (du, p_hat) *)
Definition sub_ (du : arr C) (idx : list nat) (z : C) : option (arr C) :=
  d <- get du idx ;; put du idx (d - z)%C.
Definition k_pressure_NS (du u_hat : arr C) (nu : R) (ksq ka kb kc : arr R) (p_hat : arr C) (kok : arr R)
    : option (arr C * arr C) :=
  kx <- view0 ka ;; ky <- view1 kb ;; kz <- view2 kc ;;
  for_ (dim ksq 0) (fun i s =>
    k0 <- get kx [i] ;;
    for_ (dim ksq 1) (fun j s =>
      k1 <- get ky [j] ;;
      for_ (dim ksq 2) (fun k '(du, p) =>
        q <- get ksq [i;j;k] ;; let z := nu * q in
        k2 <- get kz [k] ;;
        d0 <- get du [0;i;j;k]%nat ;; e0 <- get kok [0;i;j;k]%nat ;;
        d1 <- get du [1;i;j;k]%nat ;; e1 <- get kok [1;i;j;k]%nat ;;
        d2 <- get du [2;i;j;k]%nat ;; e2 <- get kok [2;i;j;k]%nat ;;
        p <- put p [i;j;k] (d0 * RtoC e0 + d1 * RtoC e1 + d2 * RtoC e2)%C ;;
        ph <- get p [i;j;k] ;; u0 <- get u_hat [0;i;j;k]%nat ;;
        du <- sub_ du [0;i;j;k]%nat (ph * RtoC k0 + u0 * RtoC z)%C ;;
        ph <- get p [i;j;k] ;; u1 <- get u_hat [1;i;j;k]%nat ;;
        du <- sub_ du [1;i;j;k]%nat (ph * RtoC k1 + u1 * RtoC z)%C ;;
        ph <- get p [i;j;k] ;; u2 <- get u_hat [2;i;j;k]%nat ;;
        du <- sub_ du [2;i;j;k]%nat (ph * RtoC k2 + u2 * RtoC z)%C ;;
        Some (du, p)) s) s) (du, p_hat).

(** cython add_pressure_diffusion_NS_, cython_solvers.in:40-80: real and imaginary parts *)
Definition cy_du (du : arr C) (idx : list nat) (ph u : C) (k z : R) : option (arr C) :=
  d <- get du idx ;;
  du <- put_re du idx (Re d - (Re ph * k + Re u * z)) ;;
  d <- get du idx ;;
  put_im du idx (Im d - (Im ph * k + Im u * z)).
Definition cy_pressure_NS (du u_hat : arr C) (nu : R) (ksq ka kb kc : arr R) (p_hat : arr C) (kok : arr R)
    : option (arr C * arr C) :=
  kx <- view0 ka ;; ky <- view1 kb ;; kz <- view2 kc ;;
  for_ (dim ksq 0) (fun i s =>
    k0 <- get kx [i] ;;
    for_ (dim ksq 1) (fun j s =>
      k1 <- get ky [j] ;;
      for_ (dim ksq 2) (fun k '(du, p) =>
        q <- get ksq [i;j;k] ;; let z := nu * q in
        k2 <- get kz [k] ;;
        d0 <- get du [0;i;j;k]%nat ;; e0 <- get kok [0;i;j;k]%nat ;;
        d1 <- get du [1;i;j;k]%nat ;; e1 <- get kok [1;i;j;k]%nat ;;
        d2 <- get du [2;i;j;k]%nat ;; e2 <- get kok [2;i;j;k]%nat ;;
        p <- put_re p [i;j;k] (Re d0 * e0 + Re d1 * e1 + Re d2 * e2) ;;
        p <- put_im p [i;j;k] (Im d0 * e0 + Im d1 * e1 + Im d2 * e2) ;;
        ph <- get p [i;j;k] ;;
        u0 <- get u_hat [0;i;j;k]%nat ;; du <- cy_du du [0;i;j;k]%nat ph u0 k0 z ;;
        u1 <- get u_hat [1;i;j;k]%nat ;; du <- cy_du du [1;i;j;k]%nat ph u1 k1 z ;;
        u2 <- get u_hat [2;i;j;k]%nat ;; du <- cy_du du [2;i;j;k]%nat ph u2 k2 z ;;
        Some (du, p)) s) s) (du, p_hat).

(** add_pressure_diffusion_NS2D, cython_solvers.in:106-127 *)
Definition cy_pressure_NS2D (du u_hat : arr C) (nu : R) (ksq kx ky : arr R) (p_hat : arr C) (kok : arr R)
    : option (arr C * arr C) :=
  for_ (dim ksq 0) (fun i s =>
    k0 <- get kx [i;0]%nat ;;
    for_ (dim ksq 1) (fun j '(du, p) =>
      q <- get ksq [i;j] ;; let z := nu * q in
      k1 <- get ky [0;j]%nat ;;
      d0 <- get du [0;i;j]%nat ;; e0 <- get kok [0;i;j]%nat ;;
      d1 <- get du [1;i;j]%nat ;; e1 <- get kok [1;i;j]%nat ;;
      p <- put p [i;j] (d0 * RtoC e0 + d1 * RtoC e1)%C ;;
      ph <- get p [i;j] ;; u0 <- get u_hat [0;i;j]%nat ;;
      du <- sub_ du [0;i;j]%nat (ph * RtoC k0 + u0 * RtoC z)%C ;;
      ph <- get p [i;j] ;; u1 <- get u_hat [1;i;j]%nat ;;
      du <- sub_ du [1;i;j]%nat (ph * RtoC k1 + u1 * RtoC z)%C ;;
      Some (du, p)) s) (du, p_hat).

(** add_pressure_diffusion_Bq2D, cython_solvers.in:82-104 *)
Definition cy_pressure_Bq2D (du ur_hat p_hat : arr C) (kok kx ky ksq : arr R) (nu Ri Pr : R)
    : option (arr C * arr C) :=
  for_ (dim ksq 0) (fun i s =>
    k0 <- get kx [i;0]%nat ;;
    for_ (dim ksq 1) (fun j '(du, p) =>
      q <- get ksq [i;j] ;; let z := nu * q in
      k1 <- get ky [0;j]%nat ;;
      d0 <- get du [0;i;j]%nat ;; e0 <- get kok [0;i;j]%nat ;;
      d1 <- get du [1;i;j]%nat ;; e1 <- get kok [1;i;j]%nat ;;
      r <- get ur_hat [2;i;j]%nat ;;
      p <- put p [i;j] (d0 * RtoC e0 + d1 * RtoC e1 - RtoC Ri * r * RtoC e1)%C ;;
      ph <- get p [i;j] ;; u0 <- get ur_hat [0;i;j]%nat ;;
      du <- sub_ du [0;i;j]%nat (ph * RtoC k0 + u0 * RtoC z)%C ;;
      ph <- get p [i;j] ;; u1 <- get ur_hat [1;i;j]%nat ;;
      du <- sub_ du [1;i;j]%nat (ph * RtoC k1 + u1 * RtoC z + RtoC Ri * r)%C ;;
      du <- sub_ du [2;i;j]%nat (r * RtoC z / RtoC Pr)%C ;;
      Some (du, p)) s) (du, p_hat).

(** ** channel kernels *)
(** _mult_K1j on the views K[1][0,:,0], K[2][0,0]: numba_module.py:173-184,
    pythran_module.py:41-43 with pythran_maths.py:147-153 *)
Definition k_mult_K1j (kb kc : arr R) (a f : arr C) : option (arr C) :=
  ky <- view1 kb ;; kz <- view2 kc ;;
  for_ (dim a 0) (fun i => for_ (dim a 1) (fun j => for_ (dim a 2) (fun k f =>
    z <- get kz [k] ;; x <- get a [i;j;k] ;;
    f <- put f [0;i;j;k]%nat (Ci * RtoC z * x)%C ;;
    y <- get ky [j] ;; x <- get a [i;j;k] ;;
    put f [1;i;j;k]%nat (- Ci * RtoC y * x)%C))) f.
(** cython mult_K1j, cython_maths.in:149-168 *)
Definition cy_mult_K1j (kb kc : arr R) (a f : arr C) : option (arr C) :=
  for_ (dim a 0) (fun i => for_ (dim a 1) (fun j f =>
    y <- get kb [0;j;0]%nat ;;
    for_ (dim a 2) (fun k f =>
      z <- get kc [0;0;k]%nat ;; x <- get a [i;j;k] ;;
      f <- put f [0;i;j;k]%nat (Ci * RtoC z * x)%C ;;
      put f [1;i;j;k]%nat (- Ci * RtoC y * x)%C) f)) f.

(** compute_vw: numba_module.py:164-171, pythran_maths.py:138-144, cython_solvers.in:129-146 *)
Definition k_compute_vw (u_hat f_hat g_hat : arr C) (kok : arr R) : option (arr C) :=
  for_ (dim u_hat 1) (fun i => for_ (dim u_hat 2) (fun j => for_ (dim u_hat 3) (fun k u =>
    e0 <- get kok [0;i;j;k]%nat ;; e1 <- get kok [1;i;j;k]%nat ;;
    f <- get f_hat [i;j;k] ;; g <- get g_hat [i;j;k] ;;
    u <- put u [1;i;j;k]%nat (- Ci * (RtoC e0 * f - RtoC e1 * g))%C ;;
    put u [2;i;j;k]%nat (- Ci * (RtoC e1 * f + RtoC e0 * g))%C))) u_hat.

(** assembleAB_KMM, cython_solvers.in:27-37 *)
Definition cy_assembleAB (H0 H H1 : arr C) : option (arr C) :=
  for_ (dim H 0) (fun l => for_ (dim H 1) (fun i => for_ (dim H 2) (fun j => for_ (dim H 3) (fun k H0 =>
    h <- get H [l;i;j;k] ;; h1 <- get H1 [l;i;j;k] ;;
    put H0 [l;i;j;k] (RtoC 1.5 * h - RtoC 0.5 * h1)%C)))) H0.

(** ** integrators *)
(** for i in range(shape[0]): for j in range(shape[1]): ... *)
(** numba_module.py:4-70 *)
Fixpoint nest {S} (sh : list nat) (body : list nat -> S -> option S) (s : S) : option S :=
  match sh with
  | [] => body [] s
  | n :: sh => for_ n (fun i => nest sh (fun l => body (i :: l))) s
  end.

Section Integrators.
Context {ctx : Type} (ComputeRHS : ctx -> arr C -> arr C -> arr C * ctx).
(** the arguments U_hat, U_hat0, U_hat1, dU that are updated in place, and the solver context *)
(** numba_module.py:37-85 *)
Record kst := mkKst { kU : arr C; kU0 : arr C; kU1 : arr C; kdU : arr C; kctx : ctx }.

(** loop1: numba_module.py:3-11, pythran_maths.py:1-10; cython_integrators.in:27-31 (memory view
    copies) and RK4_2D l.114-119 *)
Definition loop1 (U : arr C) (UU : arr C * arr C) : option (arr C * arr C) :=
  nest (shape U) (fun l '(U0, U1) =>
    z <- get U l ;; U1 <- put U1 l z ;; U0 <- put U0 l z ;; Some (U0, U1)) UU.
(** loop2: numba_module.py:13-19; cython l.36-41, 123-127 *)
Definition loop2 (dU U U0 : arr C) (b dt : R) : option (arr C) :=
  nest (shape dU) (fun l U =>
    u0 <- get U0 l ;; d <- get dU l ;; put U l (u0 + RtoC b * RtoC dt * d)%C) U.
(** loop3: numba_module.py:21-27; cython l.42-46, 129-132 *)
Definition loop3 (dU U1 : arr C) (a dt : R) : option (arr C) :=
  nest (shape dU) (fun l U1 =>
    u1 <- get U1 l ;; d <- get dU l ;; put U1 l (u1 + RtoC a * RtoC dt * d)%C) U1.
(** loop4: numba_module.py:29-35; cython l.49-51, 134-137 *)
Definition loop4 (U U1 : arr C) : option (arr C) :=
  nest (shape U) (fun l U => z <- get U1 l ;; put U l z) U.
(** loop5: numba_module.py:48-54; cython l.63-67 *)
Definition loop5 (dU U : arr C) (dt : R) : option (arr C) :=
  nest (shape dU) (fun l U => u <- get U l ;; d <- get dU l ;; put U l (u + d * RtoC dt)%C) U.
(** loop6: numba_module.py:56-62; cython l.89-94 (p0 = 1.5, p1 = 0.5) *)
Definition loop6 (dU U U0 : arr C) (dt : R) : option (arr C) :=
  nest (shape dU) (fun l U =>
    u <- get U l ;; d <- get dU l ;; u0 <- get U0 l ;;
    put U l (u + RtoC 1.5 * d * RtoC dt - RtoC 0.5 * u0)%C) U.
(** loop7: numba_module.py:64-70; cython l.96-100 *)
Definition loop7 (dU U0 : arr C) (dt : R) : option (arr C) :=
  nest (shape dU) (fun l U0 => d <- get dU l ;; put U0 l (d * RtoC dt)%C) U0.

(** RK4: numba_module.py:37-46, pythran_module.py:4-13, cython RK4 and RK4_2D.  The arrays of
    coefficients a and b have 4 and 3 entries; b is read for rk < 3 only. *)
Definition k_stage (a b : list R) (dt : R) (rk : nat) (s : kst) : option kst :=
  let '(dU, c) := ComputeRHS (kctx s) (kdU s) (kU s) in
  U <- (if (rk <? 3)%nat then (bb <- nth_error b rk ;; loop2 dU (kU s) (kU0 s) bb dt) else Some (kU s)) ;;
  aa <- nth_error a rk ;;
  U1 <- loop3 dU (kU1 s) aa dt ;;
  Some (mkKst U (kU0 s) U1 dU c).
Definition k_RK4 (a b : list R) (dt : R) (s : kst) : option (kst * R * R) :=
  UU <- loop1 (kU s) (kU0 s, kU1 s) ;;
  s <- for_ 4 (k_stage a b dt) (mkKst (kU s) (fst UU) (snd UU) (kdU s) (kctx s)) ;;
  U <- loop4 (kU s) (kU1 s) ;;
  Some (mkKst U (kU0 s) (kU1 s) (kdU s) (kctx s), dt, dt).

(** ForwardEuler: numba_module.py:72-75, pythran_module.py:15-18, cython l.54-68 and l.141-154 *)
Definition k_ForwardEuler (dt : R) (s : kst) : option (kst * R * R) :=
  let '(dU, c) := ComputeRHS (kctx s) (kdU s) (kU s) in
  U <- loop5 dU (kU s) dt ;;
  Some (mkKst U (kU0 s) (kU1 s) dU c, dt, dt).

(** AB2: numba_module.py:77-84, pythran_module.py:20-27, cython l.70-101 with [first] = 0;
    cython AB2_2D l.156-184 with [first] = 1 *)
Definition k_AB2 (first : nat) (dt : R) (tstep : nat) (s : kst) : option (kst * R * R) :=
  let '(dU, c) := ComputeRHS (kctx s) (kdU s) (kU s) in
  U <- (if (tstep =? first)%nat then loop5 dU (kU s) dt else loop6 dU (kU s) (kU0 s) dt) ;;
  U0 <- loop7 dU (kU0 s) dt ;;
  Some (mkKst U U0 (kU1 s) dU c, dt, dt).
End Integrators.
