(** Model of the stand-alone C++ program /repo/cpp/spectralDNS.cpp: wavenumber tables, mask and the Runge-Kutta loop.

    Every rank loops over its own part of each spectral array with the global index i + local_1_start, so the arrays are
    modelled as global arrays.  [rfftn] is fftw_mpi_execute_dft_r2c and [irfftn] is fftw_mpi_execute_dft_c2r; the latter
    also gives what is left in its input array, because a multidimensional c2r transform of FFTW is free to overwrite it
    (neither is scaled).  Exact arithmetic; timers and the padding of the real arrays are left out. *)
From Coq Require Import Reals ZArith List.
From Verif Require Import Base.Cplx Base.Sums Base.Fin Model.Maths.
Import ListNotations.

(** ** Tables *)
Open Scope Z_scope.
(** l.90-99: the first loop fills 0..N/2-1, the second N-N/2..N-1; the vector starts as zeros *)
Definition cpp_kx (N i : Z) : Z := if i <? N / 2 then i else if N - N / 2 <=? i then i - N else 0.
(** l.90-97 *)
Definition cpp_kz (N k : Z) : Z := if k =? N / 2 then N / 2 else if k <? N / 2 then k else 0.
(** the factors used for the first, second and third component at element (i, j, k): kx[i+local_1_start], kx[j], kz[k]
    (l.188-190, 232-235) *)
Definition cpp_K (N : Z) (d : ax3) (ijk : Z * Z * Z) : Z :=
  let '(i, j, k) := ijk in match d with x0 => cpp_kx N i | x1 => cpp_kx N j | x2 => cpp_kz N k end.
(** l.122 *)
Definition cpp_kmax (N : Z) : R := (2 / 3 * IZR (N / 2 + 1))%R.
(** abs(kx[i]) < kmax, l.128 *)
Definition cpp_below (N k : Z) : Z := if Rlt_dec (IZR (Z.abs k)) (cpp_kmax N) then 1 else 0.
(** l.123-129; the last factor reads kx[k], not kz[k] *)
Definition cpp_dealias (N : Z) (ijk : Z * Z * Z) : Z :=
  let '(i, j, k) := ijk in cpp_below N (cpp_kx N i) * cpp_below N (cpp_kx N j) * cpp_below N (cpp_kx N k).
(** l.131-138 *)
Definition cpp_kk (N : Z) (ijk : Z * Z * Z) : Z :=
  let '(i, j, k) := ijk in
  let m := cpp_kx N i * cpp_kx N i + cpp_kx N j * cpp_kx N j + cpp_kx N k * cpp_kx N k in
  if 0 <? m then m else 1.
Close Scope Z_scope.

(** ** Initial velocity, l.112-115: at the point (i, j, k) of the mesh x = dx*(i+local_0_start), y = dx*j, z = dx*k *)
Open Scope R_scope.
(** l.113-115 *)
Definition cpp_initial (d : ax3) (x y z : R) : R :=
  match d with x0 => sin x * cos y * cos z | x1 => - cos x * sin y * cos z | x2 => 0 end.

(** ** Time loop *)
Section Solver.
Context {I X : Type} (rfftn : pfield X -> sfield I) (irfftn : sfield I -> pfield X * sfield I) (tot : R).
Context (K : ax3 -> I -> R) (kk : I -> R) (dealias : I -> R) (nu dt : R).
Notation vec := (svec ax3 I).
Notation pvec := (pvec ax3 X).

(** the arrays that survive a stage: (U,V,W), (U_hat,V_hat,W_hat) and their copies 0 and 1, l.57-77 *)
Record cpp := mkCpp { cU : pvec; cU_hat : vec; cU_hat0 : vec; cU_hat1 : vec }.

(** l.172-180, 192-200: three c2r transforms and the division by tot; second component: the input arrays afterwards *)
Definition cpp_ifft (u : vec) : pvec * vec :=
  (fun d x => fst (irfftn (u d)) x / tot, fun d => snd (irfftn (u d))).

(** l.47-50 *)
Definition cpp_a : list R := [1/6; 1/3; 1/3; 1/6].
Definition cpp_b : list R := [0.5; 0.5; 1].

(** l.170-259, one pass through the loop over rk *)
Definition cpp_stage (s : cpp) (rk : nat) : cpp :=
  let '(U, U_hat) := if Nat.ltb 0 rk then cpp_ifft (cU_hat s) else (cU s, cU_hat s) in      (* l.170-181 *)
  let curl : vec := fun d k => match d with                                                 (* l.183-191 *)
    | x2 => (Ci * (RtoC (K x0 k) * U_hat x1 k - RtoC (K x1 k) * U_hat x0 k))%C
    | x1 => (Ci * (RtoC (K x2 k) * U_hat x0 k - RtoC (K x0 k) * U_hat x2 k))%C
    | x0 => (Ci * (RtoC (K x1 k) * U_hat x2 k - RtoC (K x2 k) * U_hat x1 k))%C
    end in
  let Cu := fst (cpp_ifft curl) in                                                          (* l.192-200 *)
  let tmp : pvec := fun d x => match d with                                                 (* l.203-211 *)
    | x0 => U x1 x * Cu x2 x - U x2 x * Cu x1 x
    | x1 => U x2 x * Cu x0 x - U x0 x * Cu x2 x
    | x2 => U x0 x * Cu x1 x - U x1 x * Cu x0 x
    end in
  let dU : vec := fun d => rfftn (tmp d) in                                                 (* l.213-215 *)
  let dU : vec := fun d k => (dU d k * RtoC (dealias k * dt))%C in                          (* l.217-225 *)
  let P : sfield I := fun k =>                                                              (* l.232 *)
    ((dU x0 k * RtoC (K x0 k) + dU x1 k * RtoC (K x1 k) + dU x2 k * RtoC (K x2 k)) / RtoC (kk k))%C in
  let dU : vec := fun d k =>                                                                (* l.233-235 *)
    (dU d k - (P k * RtoC (K d k) + RtoC (nu * dt * kk k)%R * U_hat d k))%C in
  let U_hat := if Nat.ltb rk 3                                                              (* l.238-250 *)
               then (fun d k => cU_hat0 s d k + RtoC (nth rk cpp_b 0%R) * dU d k)%C else U_hat in
  let U_hat1 := (fun d k => cU_hat1 s d k + RtoC (nth rk cpp_a 0%R) * dU d k)%C in          (* l.251-259 *)
  mkCpp U U_hat (cU_hat0 s) U_hat1.

(** l.147-269, one pass through the time loop *)
Definition cpp_step (s : cpp) : cpp :=
  let s := mkCpp (cU s) (cU_hat s) (cU_hat s) (cU_hat s) in                                 (* l.149-160 *)
  let s := fold_left cpp_stage [0; 1; 2; 3]%nat s in
  mkCpp (cU s) (cU_hat1 s) (cU_hat0 s) (cU_hat1 s).                                         (* l.261-269 *)
(** n passes, l.145 *)
Fixpoint cpp_steps (n : nat) (s : cpp) : cpp :=
  match n with O => s | S m => cpp_steps m (cpp_step s) end.

(** l.108-120: the state before the loop *)
Definition cpp_init (U0 : pvec) (U_hat0 U_hat1 : vec) : cpp := mkCpp U0 (fun d => rfftn (U0 d)) U_hat0 U_hat1.

(** l.273-285 and 297-309: the number printed; [pts] are the mesh points, dx*dx*dx/L/L/L = 1/tot *)
Definition cpp_energy (pts : list X) (s : cpp) : R :=
  RsumL pts (fun x => cU s x0 x * cU s x0 x + cU s x1 x * cU s x1 x + cU s x2 x * cU s x2 x) * (0.5 / tot).
End Solver.
Arguments cpp I X : clear implicits.
