(** Model of the compiled line operators in spectralDNS/shen/LUsolve.pyx.

    A C pointer into an array is a memory (function from addresses to numbers), an offset and
    a stride; cython's boundscheck and wraparound are off (l.1-2), so nothing is checked and
    the theorems have to say which addresses are read and written.  The input arrays and the
    output arrays are distinct objects.  C doubles are exact reals. *)
From Coq Require Import Reals List Arith.
From Verif Require Import Base.Cplx.
Open Scope R_scope.

Definition mem := nat -> C.
Definition set (m : mem) (a : nat) (x : C) : mem := fun b => if (b =? a)%nat then x else m b.

(** ** Mult_CTD_1D_ptr, LUsolve.pyx:116-160 *)
Record ctd := mkCtd { su0 : C; su1 : C; su2 : C; su3 : C; cbv : mem; cbw : mem }.

Section CTD.
Context (N : nat) (v w : mem) (o st : nat).

(** l.139-155, one pass with loop index i *)
Definition ctd_body (i : nat) (c : ctd) : ctd :=
  let ii := (o + i * st)%nat in
  let bv := set (cbv c) ii (RtoC (- 2 * (INR i + 1)) * v (o + (i - 1) * st)%nat)%C in
  let bw := set (cbw c) ii (RtoC (- 2 * (INR i + 1)) * w (o + (i - 1) * st)%nat)%C in
  if Nat.even i then
    let s0 := (su0 c + v (o + (i + 1) * st)%nat)%C in
    let s2 := (su2 c + w (o + (i + 1) * st)%nat)%C in
    mkCtd s0 (su1 c) s2 (su3 c) (set bv ii (bv ii - s0 * RtoC 4)%C) (set bw ii (bw ii - s2 * RtoC 4)%C)
  else
    let s1 := (su1 c + v (o + (i + 1) * st)%nat)%C in
    let s3 := (su3 c + w (o + (i + 1) * st)%nat)%C in
    mkCtd (su0 c) s1 (su2 c) s3 (set bv ii (bv ii - s1 * RtoC 4)%C) (set bw ii (bw ii - s3 * RtoC 4)%C).

(** for i in xrange(i, 0, -1) *)
(** LUsolve.pyx:138 *)
Fixpoint ctd_loop (i : nat) (c : ctd) : ctd :=
  match i with
  | O => c
  | S i' => ctd_loop i' (ctd_body i c)
  end.

(** LUsolve.pyx:131-160, index k*st *)
Definition at_ (k : nat) : nat := (o + k * st)%nat.
(** l.127-160 *)
Definition Mult_CTD_1D (bv bw : mem) : mem * mem :=
  let bv := set bv (at_ (N - 1)) C0 in
  let bv := set bv (at_ (N - 2)) (RtoC (- 2 * (INR N - 1)) * v (at_ (N - 3)))%C in
  let bv := set bv (at_ (N - 3)) (RtoC (- 2 * (INR N - 2)) * v (at_ (N - 4)))%C in
  let bw := set bw (at_ (N - 1)) C0 in
  let bw := set bw (at_ (N - 2)) (RtoC (- 2 * (INR N - 1)) * w (at_ (N - 3)))%C in
  let bw := set bw (at_ (N - 3)) (RtoC (- 2 * (INR N - 2)) * w (at_ (N - 4)))%C in
  let c := ctd_loop (N - 4) (mkCtd C0 C0 C0 C0 bv bw) in
  let s0 := (su0 c + v (at_ 1%nat))%C in
  let bv := set (cbv c) (at_ 0%nat) (- s0 * RtoC 2)%C in
  let s2 := (su2 c + w (at_ 1%nat))%C in
  let bw := set (cbw c) (at_ 0%nat) (- s2 * RtoC 2)%C in
  (bv, bw).
End CTD.

(** ** Mult_CTD_3D_ptr, LUsolve.pyx:162-182, on C-contiguous arrays of shape (n0, n1, n2) *)
Section CTD3.
Context (N n0 n1 n2 : nat) (v w : mem).
Definition addr (i j k : nat) : nat := ((i * n1 + j) * n2 + k)%nat.
Definition strides (axis : nat) : nat := match axis with O => (n1 * n2)%nat | S O => n2 | _ => 1%nat end.
Definition lines (axis : nat) : list nat :=
  match axis with
  | O => flat_map (fun j => map (fun k => addr 0 j k) (seq 0 n2)) (seq 0 n1)
  | S O => flat_map (fun i => map (fun k => addr i 0 k) (seq 0 n2)) (seq 0 n0)
  | S (S O) => flat_map (fun i => map (fun j => addr i j 0) (seq 0 n1)) (seq 0 n0)
  | _ => nil
  end.
Definition Mult_CTD_3D (axis : nat) (bv bw : mem) : mem * mem :=
  fold_left (fun '(bv, bw) o => Mult_CTD_1D N v w o (strides axis) bv bw) (lines axis) (bv, bw).
End CTD3.

(** ** Mult_Div_1D, LUsolve.pyx:37-114 *)
Section Div.
Context (N : nat) (m n : R) (u v w : nat -> C).
Definition Md : nat := (N - 3)%nat.
(** the vectors: resize() fills with zeros, l.62-78 *)
Definition frac (i : nat) : R := (INR i * 1) / (INR i + 2).
Definition bii (i : nat) : R := if (i <? Md)%nat then PI / 2 * (1 + (frac (i + 1)) ^ 2) else 0.
Definition bp2 (i : nat) : R := if (i <? Md - 2)%nat then - PI / 2 * (frac (i + 1)) ^ 2 else 0.
Definition bm2 (i : nat) : R := if ((1 <=? i)%nat && (i <? Md)%nat)%bool then - PI / 2 else 0.
Definition cm1 (i : nat) : R := if (i <? Md)%nat then - (INR (i + 1) + 1) * PI else 0.
Definition cp1 (i : nat) : R :=
  if (i <? Md - 1)%nat then - PI * (2 - (frac (i + 1)) ^ 2 * (INR (i + 1) + 3)) else 0.
Definition cp3 (i : nat) : R := if (i <? Md - 3)%nat then - 2 * PI * (1 - (frac (i + 1)) ^ 2) else 0.

Definition mv (a : R) (x y : C) : C := (RtoC (m * a) * x + RtoC (n * a) * y)%C.

Record divst := mkDiv { d0 : C; d1 : C; db : mem }.
(** l.94-107 *)
Definition div_body (i : nat) (c : divst) : divst :=
  let b := set (db c) i
    ((mv (bm2 i) (v (i - 1)%nat) (w (i - 1)%nat) + mv (bii i) (v (i + 1)%nat) (w (i + 1)%nat)
      + mv (bp2 i) (v (i + 3)%nat) (w (i + 3)%nat)) * Ci
     + RtoC (cm1 i) * u i + RtoC (cp1 i) * u (i + 2)%nat)%C in
  if Nat.even i then
    let s := (d0 c + u (i + 4)%nat)%C in
    mkDiv s (d1 c) (set b i (b i + s * RtoC (cp3 i))%C)
  else
    let s := (d1 c + u (i + 4)%nat)%C in
    mkDiv (d0 c) s (set b i (b i + s * RtoC (cp3 i))%C).
Fixpoint div_loop (i : nat) (c : divst) : divst :=
  match i with O => c | S i' => div_loop i' (div_body i c) end.

(** l.80-114 *)
Definition Mult_Div_1D (b : mem) : mem :=
  let M := Md in
  let b := set b (M - 1)%nat
    ((mv (bm2 (M - 1)) (v (M - 2)%nat) (w (M - 2)%nat) + mv (bii (M - 1)) (v M) (w M)) * Ci
     + RtoC (cm1 (M - 1)) * u (M - 1)%nat)%C in
  let b := set b (M - 2)%nat
    ((mv (bm2 (M - 2)) (v (M - 3)%nat) (w (M - 3)%nat) + mv (bii (M - 2)) (v (M - 1)%nat) (w (M - 1)%nat)) * Ci
     + RtoC (cm1 (M - 2)) * u (M - 2)%nat + RtoC (cp1 (M - 2)) * u M)%C in
  let b := set b (M - 3)%nat
    ((mv (bm2 (M - 3)) (v (M - 4)%nat) (w (M - 4)%nat) + mv (bii (M - 3)) (v (M - 2)%nat) (w (M - 2)%nat)
      + mv (bp2 (M - 3)) (v M) (w M)) * Ci
     + RtoC (cm1 (M - 3)) * u (M - 3)%nat + RtoC (cp1 (M - 3)) * u (M - 1)%nat)%C in
  let c := div_loop (M - 4) (mkDiv C0 C0 b) in
  let b := set (db c) 0%nat
    (RtoC (cm1 0) * u 0%nat + RtoC (cp1 0) * u 2%nat
     + Ci * (mv (bii 0) (v 1%nat) (w 1%nat) + mv (bp2 0) (v 3%nat) (w 3%nat)))%C in
  let s0 := (d0 c + u 4%nat)%C in
  set b 0%nat (b 0%nat + s0 * RtoC (cp3 0))%C.
End Div.

(** ** Mult_Div_3D, LUsolve.pyx:20-35: the slices [:, i, j] of arrays indexed (k, i, j) *)
Definition arr3 := nat -> nat -> nat -> C.
Definition Mult_Div_3D (N s0 s1 : nat) (m n : nat -> nat -> R) (u v w b : arr3) : arr3 :=
  fold_left (fun b '(i, j) =>
      let line (a : arr3) := fun k => a k i j in
      let r := Mult_Div_1D N (m i j) (n i j) (line u) (line v) (line w) (line b) in
      fun k i' j' => if ((i' =? i)%nat && (j' =? j)%nat)%bool then r k else b k i' j')
    (list_prod (seq 0 s0) (seq 0 s1)) b.
