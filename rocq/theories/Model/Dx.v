(** Model of dx, spectralDNS/utilities/__init__.py:82-120.

    Every rank [r] of [P] ranks holds the box FST.local_slice(False) of the global array: along
    dimension [a] the indices [lo r a .. lo r a + len r a - 1].  FST.comm.Reduce with MPI.SUM
    adds the arrays of all ranks on rank 0.  The discrete cosine transforms are FFTW's
    REDFT00 (dctn type=1) and REDFT01 (type=3).  Arithmetic is exact. *)
From Coq Require Import Reals List Arith Bool.
From Verif Require Import Base.Sums.
Open Scope R_scope.

(** FFTW REDFT00 of M values *)
(** utilities/__init__.py:98-99 *)
Definition dct1 (M : nat) (X : nat -> R) (k : nat) : R :=
  X 0%nat + (-1) ^ k * X (M - 1)%nat
  + 2 * Rsum (M - 2) (fun j => X (S j) * cos (PI * INR (S j) * INR k / INR (M - 1))).
(** FFTW REDFT01 of M values *)
(** utilities/__init__.py:112-113 *)
Definition dct3 (M : nat) (X : nat -> R) (k : nat) : R :=
  X 0%nat + 2 * Rsum (M - 1) (fun j => X (S j) * cos (PI * INR (S j) * (INR k + 1 / 2) / INR M)).

(** l.101-104 *)
Definition w_GL (k : nat) : R :=
  if Nat.odd k then 0 else match k with O => 1 | _ => 2 / (1 - INR k ^ 2) end.
(** l.97-105 without the area *)
Definition sum_GL (M : nat) (c : nat -> R) : R :=
  Rsum M (fun k => dct1 M c k / INR (M - 1) * w_GL k).

(** l.108-110: d[::2] = (2./M)/hstack((1., 1.-k*k)), k = 2*(1 + arange((M-1)//2)) *)
Definition hstk (m : nat) : R :=
  match m with O => 1 | S m => let k := 2 * (1 + INR m) in 1 - k * k end.
Definition d_GC (M i : nat) : R := if Nat.even i then 2 / INR M / hstk (i / 2) else 0.
(** l.108-114 without the area *)
Definition sum_GC (M : nat) (c : nat -> R) : R :=
  Rsum M (fun k => c k * dct3 M (d_GC M) k).

(** FST.bases[axis]: family chebyshev with quad GL or GC, or another family with the given
    weights (l.115-118) *)
Inductive basis := ChebGL | ChebGC | Weights (w : nat -> R).
Definition weighted (b : basis) (M : nat) (c : nat -> R) : R :=
  match b with
  | ChebGL => sum_GL M c
  | ChebGC => sum_GC M c
  | Weights w => Rsum M (fun k => c k * w k)
  end.

Section Dx.
Context (P : nat) (lo len : nat -> nat -> nat).      (* rank, dimension *)
Context (u : nat -> nat -> nat -> nat -> R).         (* rank, local indices *)
Context (axis : nat) (b : basis) (M : nat).          (* M = FST.shape()[axis] *)
Context (L : nat -> R) (N : nat -> nat).             (* config.params.L, .N *)

(** l.84-86: np.sum over the other two axes *)
Definition uu (r i : nat) : R :=
  match axis with
  | O => Rsum (len r 1) (fun j => Rsum (len r 2) (fun k => u r i j k))
  | S O => Rsum (len r 0) (fun j => Rsum (len r 2) (fun k => u r j i k))
  | _ => Rsum (len r 0) (fun j => Rsum (len r 1) (fun k => u r j k i))
  end.
(** l.90-91: cc[sl] = uu *)
Definition cc (r i : nat) : R :=
  if ((lo r axis <=? i)%nat && (i <? lo r axis + len r axis)%nat)%bool then uu r (i - lo r axis)%nat else 0.
(** l.92: Reduce, contents of c on rank 0 *)
Definition c_root (i : nat) : R := Rsum P (fun r => cc r i).
(** np.prod(np.take(L/N, sx)) *)
(** utilities/__init__.py:105, 114 *)
Definition area : R :=
  match axis with
  | O => L 1%nat / INR (N 1%nat) * (L 2%nat / INR (N 2%nat))
  | S O => L 0%nat / INR (N 0%nat) * (L 2%nat / INR (N 2%nat))
  | _ => L 0%nat / INR (N 0%nat) * (L 1%nat / INR (N 1%nat))
  end.
(** what rank [r] returns, l.94-120 *)
Definition dx (r : nat) : R := if (r =? 0)%nat then weighted b M c_root * area else 0.
End Dx.
