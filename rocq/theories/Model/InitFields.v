(** Model of the initial fields of the periodic demos: demo/TG.py, demo/TGMHD.py, demo/KelvinHelmholtz.py,
    demo/KelvinHelmoltzBoussinesq.py, demo/Vortices.py, demo/Vortices2D.py (demo/TG2D.py is in Model/TG2D.v,
    demo/Isotropic.py in Model/Isotropic.v).  [mesh] is the array X, [T] the transform of the space T. *)
From Coq Require Import Reals List Arith.
From Verif Require Import Base.Cplx Base.Sums Base.Fin Model.Maths Model.NS Model.Accessors.
Open Scope R_scope.

Section Three.
Context {I X : Type} (T : transf I X) (mesh : ax3 -> X -> R).
(** TG.py:24-27 and 32-35, the same in TGMHD.py:6-8 *)
Definition TG_field (U : pvec ax3 X) : pvec ax3 X :=
  let U := upd F3 U x0 (fun x => sin (mesh x0 x) * cos (mesh x1 x) * cos (mesh x2 x)) in
  let U := upd F3 U x1 (fun x => - cos (mesh x0 x) * sin (mesh x1 x) * cos (mesh x2 x)) in
  upd F3 U x2 (fun _ => 0).
(** TG.py:23-28 initialize1 (solvers with NS in their name); returns U_hat *)
Definition TG_initialize1 (U : pvec ax3 X) : svec ax3 I := set_velocity_NS T (TG_field U).
(** TG.py:30-36 initialize2 (VV); returns (U_hat, W_hat) *)
Definition TG_initialize2 (K : ax3 -> I -> R) (U : pvec ax3 X) (U_hat W_hat : svec ax3 I) : svec ax3 I * svec ax3 I :=
  let '(U_hat, W_hat) := set_velocity_VV T (TG_field U) U_hat W_hat in
  let W_hat := cross2 W_hat K U_hat in
  (U_hat, W_hat).
(** TGMHD.py:9-11 *)
Definition TGMHD_B (B : pvec ax3 X) : pvec ax3 X :=
  let B := upd F3 B x0 (fun x => sin (mesh x0 x) * sin (mesh x1 x) * cos (mesh x2 x)) in
  let B := upd F3 B x1 (fun x => cos (mesh x0 x) * cos (mesh x1 x) * cos (mesh x2 x)) in
  upd F3 B x2 (fun _ => 0).
(** TGMHD.py:4-12; U = UB[:3] and B = UB[3:] are views *)
Definition TGMHD_initialize (UB : pvec ax6 X) : svec ax6 I :=
  let U := TG_field (fun i => UB (inl i)) in
  let B := TGMHD_B (fun i => UB (inr i)) in
  fwdV T (fun r => match r with inl i => U i | inr i => B i end).
(** TGMHD.py:22-23 k and b: sum(U*U)*dx[0]*dx[1]*dx[2]/L[0]/L[1]/L[2]/2; the reduce is one sum over the mesh *)
Definition TG_energy (pts : list X) (dx L : ax3 -> R) (U : pvec ax3 X) : R :=
  RsumL (elems F3) (fun i => RsumL pts (fun x => U i x * U i x))
    * dx x0 * dx x1 * dx x2 / L x0 / L x1 / L x2 / 2.

(** Vortices.py:6-15: [random] is config.params.init == 'random', [randn] the random numbers; returns W_hat *)
Definition Vortices_initialize (random : bool) (randn : pvec ax3 X) : svec ax3 I :=
  let curl := fun (_ : ax3) (_ : X) => 0 in
  let curl := if random then fun i x => 0.3 * randn i x
    else upd F3 curl x0 (fun x =>
      exp (- ((mesh x1 x - PI) ^ 2 + (mesh x2 x - PI + PI / 4) ^ 2) / 0.2)
      + exp (- ((mesh x1 x - PI) ^ 2 + (mesh x2 x - PI - PI / 4) ^ 2) / 0.2)
      - 0.5 * exp (- ((mesh x1 x - PI - PI / 4) ^ 2 + (mesh x2 x - PI - PI / 4) ^ 2) / 0.4)) in
  fwdV T curl.
(** Vortices.py:17-26; returns Source *)
Definition Vortices_source (random : bool) : svec ax3 I :=
  let U := fun (_ : ax3) (_ : X) => 0 in
  let U := if random then upd F3 U x0 (fun x =>
      100 * exp (- ((mesh x1 x - PI) ^ 2 + (mesh x2 x - PI + PI / 4) ^ 2) / 0.01)
      + 100 * exp (- ((mesh x1 x - PI) ^ 2 + (mesh x2 x - PI - PI / 4) ^ 2) / 0.01)
      - 0.5 * 100 * exp (- ((mesh x1 x - PI - PI / 4) ^ 2 + (mesh x2 x - PI - PI / 4) ^ 2) / 0.04))
    else U in
  fwdV T U.
End Three.

Section Two.
Context {I : Type} (T : transf I (nat * nat)) (mesh : ax2 -> nat * nat -> R).
(** Vortices2D.py:10-12 *)
Definition Vortices2D_w : pfield (nat * nat) := fun x =>
    exp (- ((mesh a0 x - PI) ^ 2 + (mesh a1 x - PI + PI / 4) ^ 2) / 0.2)
    + exp (- ((mesh a0 x - PI) ^ 2 + (mesh a1 x - PI - PI / 4) ^ 2) / 0.2)
    - 0.5 * exp (- ((mesh a0 x - PI - PI / 4) ^ 2 + (mesh a1 x - PI - PI / 4) ^ 2) / 0.4).
(** Vortices2D.py:9-17; returns U_hat *)
Definition Vortices2D_initialize (KoK2 : ax2 -> I -> R) (U : pvec ax2 (nat * nat)) : svec ax2 I :=
  let w_hat := fwd T Vortices2D_w in
  let U := upd F2 U a0 (bwd T (fun k => Ci * RtoC (KoK2 a1 k) * w_hat k)%C) in
  let U := upd F2 U a1 (bwd T (fun k => - Ci * RtoC (KoK2 a0 k) * w_hat k)%C) in
  fwdV T U.
(** an assignment to the columns lo <= j < hi of a row *)
(** KelvinHelmholtz.py:10-13 *)
Definition set_columns (lo hi : nat) (f g : nat * nat -> R) : nat * nat -> R :=
  fun x => if ((lo <=? snd x) && (snd x <? hi))%nat%bool then f x else g x.
(** KelvinHelmholtz.py:6-13, N1 = N[1] *)
Definition KH_field (N1 : nat) (U1 U2 A delta : R) (U : pvec ax2 (nat * nat)) : pvec ax2 (nat * nat) :=
  let Um := 0.5 * (U1 - U2) in
  let U := upd F2 U a1 (fun x => A * sin (2 * mesh a0 x)) in
  let U := upd F2 U a0 (set_columns 0 (N1 / 4) (fun x => U1 - Um * exp ((mesh a1 x - 0.5 * PI) / delta)) (U a0)) in
  let U := upd F2 U a0 (set_columns (N1 / 4) (N1 / 2) (fun x => U2 + Um * exp (- 1 * (mesh a1 x - 0.5 * PI) / delta)) (U a0)) in
  let U := upd F2 U a0 (set_columns (N1 / 2) (3 * N1 / 4) (fun x => U2 + Um * exp ((mesh a1 x - 1.5 * PI) / delta)) (U a0)) in
  upd F2 U a0 (set_columns (3 * N1 / 4) N1 (fun x => U1 - Um * exp (- 1 * (mesh a1 x - 1.5 * PI) / delta)) (U a0)).
(** KelvinHelmholtz.py:5-22, [is00] the mode [0, 0] (one process, or rank 0); returns U_hat *)
Definition KH_initialize (K KoK2 : ax2 -> I -> R) (mask : option (I -> bool)) (is00 : I -> bool)
    (N1 : nat) (U1 U2 A delta : R) (U : pvec ax2 (nat * nat)) : svec ax2 I :=
  let U_hat := fwdV T (KH_field N1 U1 U2 A delta U) in
  let s := fun k => (RtoC (K a0 k) * U_hat a0 k + RtoC (K a1 k) * U_hat a1 k)%C in
  let U_hat := fun i k => (U_hat i k - s k * RtoC (KoK2 i k))%C in
  let U_hat := fun (i : ax2) k => if is00 k then C0 else U_hat i k in
  mask_nyquist mask U_hat.

(** KelvinHelmoltzBoussinesq.py:11 *)
Definition tanh (x : R) : R := (exp x - exp (- x)) / (exp x + exp (- x)).
(** KelvinHelmoltzBoussinesq.py:7-15; U = Ur[:2], rho = Ur[2] are views *)
Definition KHB_field (N1 : nat) (A delta rho1 rho2 : R) (Ur : pvec axb (nat * nat)) : pvec axb (nat * nat) :=
  let Ur := upd Fb Ur (Some a1) (fun x => A * sin (2 * mesh a0 x)) in
  let rho0 := 0.5 * (rho1 + rho2) in
  let Ur := upd Fb Ur (Some a0) (set_columns 0 (N1 / 2) (fun x => tanh ((mesh a1 x - 0.5 * PI) / delta)) (Ur (Some a0))) in
  let Ur := upd Fb Ur (Some a0) (set_columns (N1 / 2) N1 (fun x => - tanh ((mesh a1 x - 1.5 * PI) / delta)) (Ur (Some a0))) in
  let Ur := upd Fb Ur None (set_columns 0 (N1 / 2) (fun x => 2 + tanh ((mesh a1 x - 0.5 * PI) / delta)) (Ur None)) in
  let Ur := upd Fb Ur None (set_columns (N1 / 2) N1 (fun x => 2 - tanh ((mesh a1 x - 1.5 * PI) / delta)) (Ur None)) in
  upd Fb Ur None (fun x => Ur None x - rho0).
(** KelvinHelmoltzBoussinesq.py:5-17; returns Ur_hat *)
Definition KHB_initialize (N1 : nat) (A delta rho1 rho2 : R) (Ur : pvec axb (nat * nat)) : svec axb I :=
  fwdV T (KHB_field N1 A delta rho1 rho2 Ur).
End Two.
