(** Model of demo/Isotropic.py: initialize (l.29-76) and update (l.154-187).

    shenfun's energy_fourier(u, T) is the Parseval sum over all components and modes with the
    weight [w] of the modes (2 where the conjugate is not stored); it is reduced over the ranks.
    The random phases are arbitrary complex numbers alpha, beta per mode.  A NaN makes the
    assertion of l.184 fail; both failures are [None].  Diagnostics and plotting (l.189-) are not
    modelled. *)
From Coq Require Import Reals List.
From Verif Require Import Base.Cplx Base.Sums Base.Fin Model.Maths Model.NS Model.VV.
Open Scope R_scope.

Section Iso.
Context {I X : Type} (ms : list I) (w : I -> R).
Context (K : ax3 -> I -> R) (K2 : I -> R) (KoK2 : ax3 -> I -> R).
Context (is0 : I -> bool).            (* the mode with index (0, 0, 0), owned by rank 0 *)
Notation vec := (svec ax3 I).

(** shenfun.fourier.energy_fourier *)
(** Isotropic.py:67, 76, 167-168, 182, 242, 280 *)
Definition energy_fourier (u : vec) : R :=
  RsumL (elems F3) (fun i => RsumL ms (fun k => w k * Cnorm2 (u i k))).

(** l.32-33 k2_mask = np.where(K2 <= kf**2, 1, 0) *)
Definition k2_mask (kf : R) (k : I) : R := if Rle_dec (K2 k) (kf ^ 2) then 1 else 0.

(** U_hat[:, 0, 0, 0] = 0 on rank 0 (l.63-64, l.161-162) *)
Definition zero_mean (u : vec) : vec := fun i k => if is0 k then C0 else u i k.

(** l.154-187; returns (U_hat, W_hat, energy_new) *)
Definition update_iso (vv : bool) (kf target : R) (U_hat W_hat : vec) : option (vec * vec * R) :=
  let U_hat := zero_mean U_hat in
  let U_hat := if vv then cross2 U_hat KoK2 W_hat else U_hat in
  let energy_new := energy_fourier U_hat in
  let energy_lower := energy_fourier (fun i k => (U_hat i k * RtoC (k2_mask kf k))%C) in
  let energy_upper := energy_new - energy_lower in
  if Req_EM_T energy_lower 0 then None else
  let alpha2 := (target - energy_upper) / energy_lower in
  if Rlt_dec alpha2 0 then None else
  let alpha := sqrt alpha2 in
  let U_hat := fun i k => (U_hat i k * RtoC (alpha * k2_mask kf k + (1 - k2_mask kf k)))%C in
  let energy_new := energy_fourier U_hat in
  if Rlt_dec (sqrt ((energy_new - target) ^ 2)) (/ 10000000) then
    Some (U_hat, (if vv then cross2 W_hat K U_hat else W_hat), energy_new)
  else None.

(** np.where(x == 0, 1, x) *)
(** Isotropic.py:36, 38, 41 *)
Definition nz (x : R) : R := if Req_EM_T x 0 then 1 else x.
(** l.35-52: the random field *)
Definition rogallo (alpha beta : I -> C) : vec := fun i k =>
  let kn := nz (sqrt (K2 k)) in
  let k1 := K x0 k in let k2 := K x1 k in let k3 := K x2 k in
  let ksq := nz (sqrt (k1 ^ 2 + k2 ^ 2)) in
  match i with
  | x0 => ((alpha k * RtoC kn * RtoC k2 + beta k * RtoC k1 * RtoC k3) / RtoC (kn * ksq))%C
  | x1 => ((beta k * RtoC k2 * RtoC k3 - alpha k * RtoC kn * RtoC k1) / RtoC (kn * ksq))%C
  | x2 => (beta k * RtoC ksq / RtoC kn)%C
  end.
(** l.29-76; T0 is the transform pair of c.T; returns (U_hat, W_hat, target_energy).
    [None]: division by zero energy or negative target, U_hat becomes NaN. *)
Definition initialize_iso (vv : bool) (T0 : transf I X) (mask : I -> bool) (alpha beta : I -> C)
    (Re_lam nu kd : R) (W_hat : vec) : option (vec * vec * R) :=
  let U_hat := rogallo alpha beta in                                       (* l.50-52 *)
  let U_hat := mask_nyquist (Some mask) U_hat in                           (* l.53-54 *)
  let U := if vv then bwdV T0 (velocity_hat KoK2 W_hat) else bwdV T0 U_hat in  (* l.56 solver.get_velocity *)
  let U_hat := fwdV T0 U in                                                (* l.57 *)
  let dv := fun k => (RtoC (K x0 k) * U_hat x0 k + RtoC (K x1 k) * U_hat x1 k + RtoC (K x2 k) * U_hat x2 k)%C in
  let U_hat := fun i k => (U_hat i k - dv k * RtoC (KoK2 i k))%C in        (* l.61 *)
  let U_hat := zero_mean U_hat in                                          (* l.63-64 *)
  let energy := / 2 * energy_fourier U_hat in                              (* l.67 *)
  let target := Re_lam * (nu * kd) ^ 2 / sqrt (20 / 3) in                  (* l.68 *)
  if Req_EM_T energy 0 then None else
  if Rlt_dec (target / energy) 0 then None else
  let U_hat := fun i k => (U_hat i k * RtoC (sqrt (target / energy)))%C in (* l.69 *)
  let W_hat := if vv then cross2 W_hat K U_hat else W_hat in               (* l.71-72 *)
  Some (U_hat, W_hat, energy_fourier U_hat).                               (* l.76 *)
End Iso.
