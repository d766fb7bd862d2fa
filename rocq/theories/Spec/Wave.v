(** Real trigonometric sums as functions of the point, and their partial derivatives. *)
From Coq Require Import Reals List.
From Verif Require Import Base.Cplx Base.Sums Base.Fin Spec.Energy.
Open Scope R_scope.

Section Wave.
Context {D I : Type} (F : fin D) (ms : list I) (w : I -> R) (K : D -> I -> R).
(** the point is [y : D -> R]; k . y *)
Definition phase (k : I) (y : D -> R) : R := RsumL (elems F) (fun i => K i k * y i).
(** the real function with the (stored) Fourier coefficients a: sum_k w_k Re(a_k e^(i k.y)) *)
Definition trig (a : I -> C) (y : D -> R) : R :=
  RsumL ms (fun k => w k * Re (a k * cis (phase k y))%C).
End Wave.

(** the partial derivative of f in direction i at y is d *)
Definition partial {D} (F : fin D) (f : (D -> R) -> R) (i : D) (y : D -> R) (d : R) : Prop :=
  derivable_pt_lim (fun t => f (upd F y i t)) (y i) d.
(** the transform evaluates that function at the mesh points *)
Definition samples {D I X} (F : fin D) (ms : list I) (w : I -> R) (K : D -> I -> R) (mesh : D -> X -> R)
    (backward : (I -> C) -> X -> R) : Prop :=
  forall a x, backward a x = trig F ms w K a (fun i => mesh i x).
(** d is the Jacobian of the field with coefficients u at the mesh point x. *)
Definition jacobian {D E I X} (F : fin D) ms w (K : D -> I -> R) (mesh : D -> X -> R) (u : E -> I -> C) (x : X) (d : E -> D -> R) : Prop :=
  forall i j, partial F (trig F ms w K (u i)) j (fun a => mesh a x) (d i j).
(** the curl of a vector field with partial derivatives d_j u_i = d i j *)
Definition curl_of (d : ax3 -> ax3 -> R) (i : ax3) : R :=
  match i with x0 => d x2 x1 - d x1 x2 | x1 => d x0 x2 - d x2 x0 | x2 => d x1 x0 - d x0 x1 end.
(** the mesh of the box with sides 2 pi / k0 *)
Definition mesh3 (M : ax3 -> nat) (k0 : ax3 -> R) (i : ax3) (x : nat * nat * nat) : R :=
  let '(a, b, c) := x in
  2 * PI / k0 i * INR (match i with x0 => a | x1 => b | x2 => c end) / INR (M i).
