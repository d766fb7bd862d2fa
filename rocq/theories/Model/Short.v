(** Model of the stand-alone solver /repo/spectralDNS3D_short.py: wavenumbers and dealiasing
    mask, the slab-decomposed transforms, the right hand side and the Runge-Kutta loop.

    [N] is the mesh size, [P] = num_processes, [Np] = N // P (l.26), [r] the rank, Nf = N//2+1.
    Every rank's array is a flat C-ordered memory block [nat -> A]; [ix2 d1 d2] is the offset of
    element (i,j,k) of an array of shape (_, d1, d2).  MPI.Alltoall is modelled on the family of
    all ranks' blocks.  The numpy/pyfftw one- and two-dimensional transforms are parameters. *)
From Coq Require Import Reals ZArith List Arith.
From Verif Require Import Base.Cplx Base.Sums Base.Fin Model.Maths Model.NS Model.Integrators.
Import ListNotations.

(** ** Wavenumbers, l.38-46 *)
Open Scope Z_scope.

(** numpy.fft.fftfreq(N, 1./N)[i]: 0..(N-1)//2, then -(N//2)..-1 (l.38); exact arithmetic, so the
    factor 1/(N*(1/N)) is 1.  The later conversion to int (l.41) is then exact. *)
Definition fftfreq (N i : Z) : Z := if i <? (N - 1) / 2 + 1 then i else i - N.
Definition kx (N i : Z) : Z := fftfreq N i.
(** l.39-40 kz = kx[:(N//2+1)].copy(); kz[-1] *= -1 *)
Definition kz (N i : Z) : Z := if i =? N / 2 then - kx N i else kx N i.

(** l.41 K on rank r, local index (i,j,k) of shape (N, Np, N//2+1) *)
Definition Kshort (N Np r : Z) (d : ax3) (ijk : Z * Z * Z) : Z :=
  let '(i, j, k) := ijk in
  match d with x0 => kx N i | x1 => kx N (r * Np + j) | x2 => kz N k end.

(** l.44 kmax_dealias = 2./3.*(N//2+1), exact arithmetic *)
Definition kmax_dealias (N : Z) : R := (2 / 3 * IZR (N / 2 + 1))%R.
(** abs(K[d]) < kmax_dealias *)
(** l.45-46 *)
Definition below_kmax (N k : Z) : bool :=
  if Rlt_dec (IZR (Z.abs k)) (kmax_dealias N) then true else false.
(** l.45-46 dealias *)
Definition dealias (N Np r : Z) (ijk : Z * Z * Z) : bool :=
  (below_kmax N (Kshort N Np r x0 ijk) && below_kmax N (Kshort N Np r x1 ijk)
   && below_kmax N (Kshort N Np r x2 ijk))%bool.
Close Scope Z_scope.

(** ** Slab transforms, l.50-62 *)
Open Scope nat_scope.
Section Slabs.
Context {A : Type}.

(** offset of (i,j,k) in a C-ordered array of shape (_, d1, d2) *)
(** l.28-37 *)
Definition ix2 (d1 d2 i j k : nat) : nat := (i * d1 + j) * d2 + k.
(** offset of (i,j,k,l) in a C-ordered array of shape (_, d1, d2, d3) *)
(** l.52, 60 *)
Definition ix3 (d1 d2 d3 i j k l : nat) : nat := ((i * d1 + j) * d2 + k) * d3 + l.

(** rollaxis(x.reshape(s0, s1, s2, s3), 1).reshape(...): element f of the new (contiguous) array is
    element (i1, i0, i2, i3) of x where (i0, i1, i2, i3) are the C-order indices of f in shape
    (s1, s0, s2, s3); reshape of a contiguous array does not move data (l.52, l.60). *)
Definition rollaxis1 (s0 s1 s2 s3 : nat) (x : nat -> A) (f : nat) : A :=
  let i0 := f / (s0 * s2 * s3) in
  let i1 := (f / (s2 * s3)) mod s0 in
  let i2 := (f / s3) mod s2 in
  let i3 := f mod s3 in
  x (ix3 s1 s2 s3 i1 i0 i2 i3).

(** comm.Alltoall(MPI.IN_PLACE, buf) with blocks of m elements (l.53, l.59): block s of rank r
    becomes block r of rank s. *)
Definition Alltoall (m : nat) (x : nat -> nat -> A) (r f : nat) : A :=
  x (f / m) (r * m + f mod m).
End Slabs.

Section FFT.
Context (N P Np : nat).
Let Nf := N / 2 + 1.

(** One-dimensional complex transforms along axis 0 and two-dimensional real transforms over axes
    (1,2), given on one line / one plane. *)
Context (fft1 ifft1 : (nat -> C) -> nat -> C).
Context (rfft2 : (nat -> nat -> R) -> nat -> nat -> C) (irfft2 : (nat -> nat -> C) -> nat -> nat -> R).

(** rfft2(u, axes=(1, 2)), l.51: real array of shape (Np, N, N) to complex of shape (Np, N, Nf) *)
Definition rfft2_axes12 (u : nat -> R) (f : nat) : C :=
  rfft2 (fun j k => u (ix2 N N (f / (N * Nf)) j k)) ((f / Nf) mod N) (f mod Nf).
(** irfft2(Uc_hatT, axes=(1, 2)), l.61 *)
Definition irfft2_axes12 (v : nat -> C) (f : nat) : R :=
  irfft2 (fun j k => v (ix2 N Nf (f / (N * N)) j k)) ((f / N) mod N) (f mod N).
(** fft(fu, axis=0) / ifft(fu, axis=0), arrays of shape (N, Np, Nf), l.54, l.58 *)
Definition along0 (op : (nat -> C) -> nat -> C) (v : nat -> C) (f : nat) : C :=
  op (fun i => v (ix2 Np Nf i ((f / Nf) mod Np) (f mod Nf))) (f / (Np * Nf)).

(** l.52-53: Uc_hatT (Np, N, Nf) on every rank to fu (N, Np, Nf) on every rank *)
Definition transpose_fwd {A} (UcT : nat -> nat -> A) : nat -> nat -> A :=
  Alltoall (Np * Np * Nf) (fun r => rollaxis1 Np P Np Nf (UcT r)).
(** l.59-60 *)
Definition transpose_bwd {A} (Uc : nat -> nat -> A) : nat -> nat -> A :=
  fun r => rollaxis1 P Np Np Nf (Alltoall (Np * Np * Nf) Uc r).

(** l.50-55 fftn_mpi, all ranks *)
Definition fftn_mpi (u : nat -> nat -> R) : nat -> nat -> C :=
  fun r => along0 fft1 (transpose_fwd (fun r => rfft2_axes12 (u r)) r).
(** l.57-62 ifftn_mpi, all ranks *)
Definition ifftn_mpi (fu : nat -> nat -> C) : nat -> nat -> R :=
  fun r => irfft2_axes12 (transpose_bwd (fun r => along0 ifft1 (fu r)) r).
End FFT.
Close Scope nat_scope.

(** ** Right hand side and time step, l.64-106 (one global array; the decomposition is the subject
    of the previous section).  [T] is the pair (ifftn_mpi, fftn_mpi). *)
Open Scope R_scope.
Section Solver.
Context {I X : Type} (T : transf I X) (K : ax3 -> I -> R) (dealias : I -> bool) (nu : R).
Notation vec := (svec ax3 I).
Notation pvec := (pvec ax3 X).

(** global arrays of the script that survive between statements *)
(** l.28-37 *)
Record short := mkShort {
  sU : pvec; sU_hat : vec; sU_hat0 : vec; sU_hat1 : vec; s_dU : vec; s_curl : pvec; sP_hat : sfield I }.

(** l.64-68 Cross(a, b, c) *)
Definition Cross (a b : pvec) (c : vec) : vec :=
  let c := upd F3 c x0 (fwd T (fun x => a x1 x * b x2 x - a x2 x * b x1 x)) in
  let c := upd F3 c x1 (fwd T (fun x => a x2 x * b x0 x - a x0 x * b x2 x)) in
  let c := upd F3 c x2 (fwd T (fun x => a x0 x * b x1 x - a x1 x * b x0 x)) in
  c.

(** l.70-74 Curl(a, c) *)
Definition Curl (a : vec) (c : pvec) : pvec :=
  let c := upd F3 c x2 (bwd T (fun k => (Ci * (RtoC (K x0 k) * a x1 k - RtoC (K x1 k) * a x0 k))%C)) in
  let c := upd F3 c x1 (bwd T (fun k => (Ci * (RtoC (K x2 k) * a x0 k - RtoC (K x0 k) * a x2 k))%C)) in
  let c := upd F3 c x0 (bwd T (fun k => (Ci * (RtoC (K x1 k) * a x2 k - RtoC (K x2 k) * a x1 k))%C)) in
  c.

(** l.76-86 ComputeRHS(dU, rk); K2 and K_over_K2 as at l.42-43 *)
Definition ComputeRHS_short (rk : nat) (s : short) : short :=
  let U := if Nat.ltb 0 rk
           then fold_left (fun U i => upd F3 U i (bwd T (sU_hat s i))) (elems F3) (sU s)
           else sU s in                                                                     (* l.77-79 *)
  let curl := Curl (sU_hat s) (s_curl s) in                                                 (* l.80 *)
  let dU := Cross U curl (s_dU s) in                                                        (* l.81 *)
  let dU : vec := fun i k => if dealias k then dU i k else C0 in                            (* l.82 *)
  let P : sfield I := fun k => CsumL (elems F3) (fun i => (dU i k * RtoC (K_over_K2_of F3 K i k))%C) in (* l.83 *)
  let dU : vec := fun i k => (dU i k - P k * RtoC (K i k))%C in                             (* l.84 *)
  let dU : vec := fun i k => (dU i k - RtoC (nu * K2_of F3 K k) * sU_hat s i k)%C in        (* l.85 *)
  mkShort U (sU_hat s) (sU_hat0 s) (sU_hat1 s) dU curl P.

(** l.47-48 *)
Definition short_a : list R := [1/6; 1/3; 1/3; 1/6].
Definition short_b : list R := [0.5; 0.5; 1].

(** l.101-105 *)
Definition short_stage (dt : R) (s : short) (rk : nat) : short :=
  let s := ComputeRHS_short rk s in
  let U_hat := if Nat.ltb rk 3 then (fun i k => sU_hat0 s i k + RtoC (nth rk short_b 0 * dt)%R * s_dU s i k)%C
               else sU_hat s in
  let U_hat1 := (fun i k => sU_hat1 s i k + RtoC (nth rk short_a 0 * dt)%R * s_dU s i k)%C in
  mkShort (sU s) U_hat (sU_hat0 s) U_hat1 (s_dU s) (s_curl s) (sP_hat s).

(** l.100-108, one pass through the time loop *)
Definition short_step (dt : R) (s : short) : short :=
  let s := mkShort (sU s) (sU_hat s) (sU_hat s) (sU_hat s) (s_dU s) (s_curl s) (sP_hat s) in  (* l.100 *)
  let s := fold_left (short_stage dt) [0; 1; 2; 3]%nat s in
  let U := fold_left (fun U i => upd F3 U i (bwd T (sU_hat1 s i))) (elems F3) (sU s) in
  mkShort U (sU_hat1 s) (sU_hat0 s) (sU_hat1 s) (s_dU s) (s_curl s) (sP_hat s).

(** l.91-92 U_hat from the initial velocity *)
Definition short_init (U0 : pvec) (U_hat U_hat0 U_hat1 dU : vec) (curl : pvec) (P : sfield I) : short :=
  mkShort U0 (fold_left (fun U i => upd F3 U i (fwd T (U0 i))) (elems F3) U_hat) U_hat0 U_hat1 dU curl P.

(** n passes through the loop (l.97; the number of passes is fixed by t and T) *)
Fixpoint short_steps (dt : R) (n : nat) (s : short) : short :=
  match n with O => s | S m => short_steps dt m (short_step dt s) end.
End Solver.
Arguments short I X : clear implicits.
