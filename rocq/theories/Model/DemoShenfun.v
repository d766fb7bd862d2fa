(** Model of /repo/demo/NS_shenfun.py, the Navier-Stokes solver written directly with shenfun.

    The arrays are those of Model/Short.v ([short]); [T] is the pair (T.backward, T.forward), [K] the scaled
    wavenumbers without the Nyquist frequency (l.30).  Times are real numbers. *)
From Coq Require Import Reals List Arith.
From Verif Require Import Base.Cplx Base.Sums Base.Fin Model.Maths Model.NS Model.Short.
Import ListNotations.
Open Scope R_scope.

Section Demo.
Context {I X : Type} (T : transf I X) (K : ax3 -> I -> R) (nu : R).
Notation vec := (svec ax3 I).
Notation pvec := (pvec ax3 X).

(** l.36-40 *)
Definition demo_Cross (a b : pvec) (c : vec) : vec :=
  let c := upd F3 c x0 (fwd T (fun x => a x1 x * b x2 x - a x2 x * b x1 x)) in
  let c := upd F3 c x1 (fwd T (fun x => a x2 x * b x0 x - a x0 x * b x2 x)) in
  let c := upd F3 c x2 (fwd T (fun x => a x0 x * b x1 x - a x1 x * b x0 x)) in
  c.
(** l.42-46 *)
Definition demo_Curl (a : vec) (c : pvec) : pvec :=
  let c := upd F3 c x2 (bwd T (fun k => (Ci * (RtoC (K x0 k) * a x1 k - RtoC (K x1 k) * a x0 k))%C)) in
  let c := upd F3 c x1 (bwd T (fun k => (Ci * (RtoC (K x2 k) * a x0 k - RtoC (K x0 k) * a x2 k))%C)) in
  let c := upd F3 c x0 (bwd T (fun k => (Ci * (RtoC (K x1 k) * a x2 k - RtoC (K x2 k) * a x1 k))%C)) in
  c.
(** TV.backward, TV.forward: component by component; l.50, 62, 77 *)
Definition TV_backward (u : vec) (U : pvec) : pvec := fold_left (fun U i => upd F3 U i (bwd T (u i))) (elems F3) U.
Definition TV_forward (U : pvec) (u : vec) : vec := fold_left (fun u i => upd F3 u i (fwd T (U i))) (elems F3) u.

(** l.48-56; K2 and K_over_K2 as at l.31-32 *)
Definition demo_ComputeRHS (rk : nat) (s : short I X) : short I X :=
  let U := if Nat.ltb 0 rk then TV_backward (sU_hat s) (sU s) else sU s in                  (* l.49-50 *)
  let curl := demo_Curl (sU_hat s) (s_curl s) in                                            (* l.51 *)
  let dU := demo_Cross U curl (s_dU s) in                                                   (* l.52 *)
  let P : sfield I := fun k => CsumL (elems F3) (fun i => (dU i k * RtoC (K_over_K2_of F3 K i k))%C) in (* l.53 *)
  let dU : vec := fun i k => (dU i k - P k * RtoC (K i k))%C in                             (* l.54 *)
  let dU : vec := fun i k => (dU i k - RtoC (nu * K2_of F3 K k) * sU_hat s i k)%C in        (* l.55 *)
  mkShort U (sU_hat s) (sU_hat0 s) (sU_hat1 s) dU curl P.
(** l.33-34 *)
Definition demo_a : list R := [1/6; 1/3; 1/3; 1/6].
Definition demo_b : list R := [0.5; 0.5; 1].
(** l.71-75 *)
Definition demo_stage (dt : R) (s : short I X) (rk : nat) : short I X :=
  let s := demo_ComputeRHS rk s in
  let U_hat := if Nat.ltb rk 3 then (fun i k => sU_hat0 s i k + RtoC (nth rk demo_b 0 * dt)%R * s_dU s i k)%C
               else sU_hat s in
  let U_hat1 := (fun i k => sU_hat1 s i k + RtoC (nth rk demo_a 0 * dt)%R * s_dU s i k)%C in
  mkShort (sU s) U_hat (sU_hat0 s) U_hat1 (s_dU s) (s_curl s) (sP_hat s).
(** l.70-77 *)
Definition demo_step (dt : R) (s : short I X) : short I X :=
  let s := mkShort (sU s) (sU_hat s) (sU_hat s) (sU_hat s) (s_dU s) (s_curl s) (sP_hat s) in  (* l.70 *)
  let s := fold_left (demo_stage dt) [0; 1; 2; 3]%nat s in
  mkShort (TV_backward (sU_hat1 s) (sU s)) (sU_hat1 s) (sU_hat0 s) (sU_hat1 s) (s_dU s) (s_curl s) (sP_hat s).
(** l.58-62: the state before the loop, the velocity given *)
Definition demo_init (U0 : pvec) (U_hat U_hat0 U_hat1 dU : vec) (curl : pvec) (P : sfield I) : short I X :=
  mkShort U0 (TV_forward U0 U_hat) U_hat0 U_hat1 dU curl P.
(** l.67-77: the loop, at most [fuel] passes; None when the fuel runs out *)
Fixpoint demo_loop (end_time dt : R) (fuel : nat) (t : R) (tstep : nat) (s : short I X) : option (R * nat * short I X) :=
  if Rlt_dec t (end_time - 1e-8) then
    match fuel with
    | O => None
    | S f => demo_loop end_time dt f (t + dt) (S tstep) (demo_step dt s)
    end
  else Some (t, tstep, s).
(** l.79, with the points of all processes in [pts]; [n] = N[0]*N[1]*N[2] *)
Definition demo_k (n : R) (pts : list X) (s : short I X) : R :=
  0.5 * RsumL (elems F3) (fun d => RsumL pts (fun x => sU s d x * sU s d x)) / n.
End Demo.
