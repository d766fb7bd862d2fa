(** Model of spectralDNS/maths/integrators.py (numpy versions).

    The solution array is [V = D -> I -> C] (component, mode).  [ComputeRHS] is an
    arbitrary stateful function: it receives the context (all buffers the solver
    keeps), the old contents of the rhs array and the field, and returns the new
    rhs array and context.  All buffers that survive between calls are explicit. *)
From Coq Require Import Reals ZArith List Bool Arith.
From Verif Require Import Base.Cplx Base.Sums Base.Fin Model.Maths.
Import ListNotations.
Open Scope R_scope.

Section Integrators.
Context {D I ctx : Type}.
Notation V := (svec D I).

(** elementwise x + c*y with a real scalar c *)
(** numpy statements of integrators.py:66-84, 156-174 *)
Definition axpy (x : V) (c : R) (y : V) : V := fun i k => (x i k + RtoC c * y i k)%C.
(** integrators.py:80, 174 *)
Definition vscal (c : R) (y : V) : V := fun i k => (RtoC c * y i k)%C.
(** integrators.py:217 *)
Definition vzero : V := fun _ _ => C0.

Context (ComputeRHS : ctx -> V -> V -> V * ctx).   (* context, rhs buffer, u |-> rhs, context *)

(** Buffers captured by the closures of getintegrator, integrators.py:177-239:
    u0 (context.u), u1 = u0.copy() (l.181), u2 = u0.copy() (l.187), rhs
    (context.dU), fY_hat (l.217) and offset (l.215), plus the solver context. *)
Record istate := mkIstate {
  s_u0 : V; s_u1 : V; s_u2 : V; s_rhs : V; s_fY : nat -> V; s_off : Z; s_ctx : ctx }.

(** getintegrator, integrators.py:177-239: initial buffers *)
Definition init_istate (u0 rhs : V) (c : ctx) : istate :=
  mkIstate u0 u0 u0 rhs (fun _ => vzero) 0%Z c.

(** integrators.py:185-186 *)
Definition rk4_a : list R := [1/6; 1/3; 1/3; 1/6].
Definition rk4_b : list R := [0.5; 0.5; 1].

(** integrators.py:153-157, body of the stage loop *)
Definition rk4_stage (dt : R) (st : istate) (rk : nat) : istate :=
  let '(rhs, c) := ComputeRHS (s_ctx st) (s_rhs st) (s_u0 st) in
  let u0 := if Nat.ltb rk 3 then axpy (s_u1 st) (nth rk rk4_b 0 * dt) rhs else s_u0 st in
  let u2 := axpy (s_u2 st) (nth rk rk4_a 0 * dt) rhs in
  mkIstate u0 (s_u1 st) u2 rhs (s_fY st) (s_off st) c.

(** integrators.py:149-159 RK4; returns (u0, dt, dt) *)
Definition RK4 (dt : R) (st : istate) : istate * R * R :=
  let st := mkIstate (s_u0 st) (s_u0 st) (s_u0 st) (s_rhs st) (s_fY st) (s_off st) (s_ctx st) in
  let st := fold_left (rk4_stage dt) [0; 1; 2; 3]%nat st in
  (mkIstate (s_u2 st) (s_u1 st) (s_u2 st) (s_rhs st) (s_fY st) (s_off st) (s_ctx st), dt, dt).

(** integrators.py:161-165 ForwardEuler *)
Definition ForwardEuler (dt : R) (st : istate) : istate * R * R :=
  let '(rhs, c) := ComputeRHS (s_ctx st) (s_rhs st) (s_u0 st) in
  (mkIstate (axpy (s_u0 st) dt rhs) (s_u1 st) (s_u2 st) rhs (s_fY st) (s_off st) c, dt, dt).

(** integrators.py:167-175 AB2 *)
Definition AB2 (dt : R) (tstep : nat) (st : istate) : istate * R * R :=
  let '(rhs, c) := ComputeRHS (s_ctx st) (s_rhs st) (s_u0 st) in
  let u0 := if Nat.eqb tstep 0 then axpy (s_u0 st) dt rhs
            else fun i k => (s_u0 st i k + (RtoC (1.5 * dt) * rhs i k - RtoC 0.5 * s_u1 st i k))%C in
  (mkIstate u0 (vscal dt rhs) (s_u2 st) rhs (s_fY st) (s_off st) c, dt, dt).

(** ** adaptiveRK *)

(** fY_hat[n] = v *)
(** integrators.py:66-71 *)
Definition updn (fY : nat -> V) (n : nat) (v : V) : nat -> V :=
  fun m => if Nat.eqb m n then v else fY m.

(** (i + offset[0]) % s; Python's % is the floor modulus [Z.modulo] *)
(** integrators.py:66-84 *)
Definition ring (s : nat) (off : Z) (i : nat) : nat :=
  Z.to_nat ((Z.of_nat i + off) mod Z.of_nat s).

Section RK.
Context (A : nat -> nat -> R) (b bhat : nat -> R) (s : nat).

(** integrators.py:66-71: one stage: form Y_i in its ring slot, evaluate, store *)
Definition rk_stage_eval (dt : R) (i : nat) (st : istate) : istate :=
  let off := s_off st in
  let fY := updn (s_fY st) (ring s off i) (s_u0 st) in                     (* l.66 *)
  let fY := fold_left (fun fY j => updn fY (ring s off i)
                (axpy (fY (ring s off i)) (dt * A i j) (fY (ring s off j))))
              (seq 0 i) fY in                                              (* l.67-68 *)
  let '(rhs, c) := ComputeRHS (s_ctx st) (s_rhs st) (fY (ring s off i)) in (* l.70 *)
  mkIstate (s_u0 st) (s_u1 st) (s_u2 st) rhs (updn fY (ring s off i) rhs) off c. (* l.71 *)

(** integrators.py:64-71 the stage loop.  additional_callback (l.73-75) is a user
    hook, by default a no-op (spectralinit.py:39-41), and is not modelled. *)
Definition rk_stages_loop (fsal : bool) (tstep : nat) (dt : R) (st : istate) : istate :=
  fold_left (fun st i =>
      if orb (negb fsal) (orb (Nat.eqb tstep 0) (negb (Nat.eqb i 0)))
      then rk_stage_eval dt i st else st) (seq 0 s) st.

(** integrators.py:78-84 u0_new and err *)
Definition rk_new (dt : R) (st : istate) : V :=
  fold_left (fun v j => axpy v (dt * b j) (s_fY st (ring s (s_off st) j))) (seq 1 (s - 1))
            (axpy (s_u0 st) (dt * b 0%nat) (s_fY st (ring s (s_off st) 0))).
Definition rk_err (dt : R) (st : istate) : V :=
  fold_left (fun v j => axpy v (dt * (b j - bhat j)) (s_fY st (ring s (s_off st) j))) (seq 1 (s - 1))
            (vscal (dt * (b 0%nat - bhat 0%nat)) (s_fY st (ring s (s_off st) 0))).

(** integrators.py:54-57 *)
Definition facmax_default : R := 2.
Definition fac : R := 0.8.
Definition facmin : R := 0.01.

(** integrators.py:116-118 factor = min(facmax, max(facmin, fac*pow(1/est, exponent))),
    exponent = 1/(err_order+1) with err_order = 4.  numpy's 1/0.0 is inf, so the
    factor is facmax when est = 0.  est is never negative (a maximum of square roots);
    NaN is not modelled. *)
Definition factor (facmax est : R) : R :=
  if Req_EM_T est 0 then facmax
  else Rmin facmax (Rmax facmin (fac * Rpower (/ est) (/ 5))).

Context (est_of : V -> V -> V -> R).    (* u0, u0_new, err |-> est, integrators.py:86-99 *)

(** One pass through the [while True] body, integrators.py:61-143.
    Result: Retry (state, dt, facmax) on [continue], Accept on [break]. *)
Inductive attempt_result :=
  | Retry (st : istate) (dt facmax : R)
  | Accept (st : istate) (dt dt_prev : R).

Definition attempt (fsal adaptive : bool) (tstep : nat) (dt facmax : R) (st : istate)
    : attempt_result :=
  let dt_prev := dt in                                                        (* l.61 *)
  let off := if fsal then ((s_off st - 1) mod Z.of_nat s)%Z else s_off st in  (* l.62-63 *)
  let st := mkIstate (s_u0 st) (s_u1 st) (s_u2 st) (s_rhs st) (s_fY st) off (s_ctx st) in
  let st := rk_stages_loop fsal tstep dt st in                                (* l.64-75 *)
  let u0_new := rk_new dt st in                                               (* l.78-83 *)
  let err := rk_err dt st in
  let st := mkIstate (s_u0 st) u0_new (s_u2 st) (s_rhs st) (s_fY st) (s_off st) (s_ctx st) in
  let est := est_of (s_u0 st) u0_new err in                                   (* l.86-99 *)
  let fct := factor facmax est in                                             (* l.116-118 *)
  if adaptive then
    let dt := dt * fct in                                                     (* l.129 *)
    if Rlt_dec 1 est then                                                     (* l.130 est > 1.0 *)
      Retry (mkIstate (s_u0 st) (s_u1 st) (s_u2 st) (s_rhs st) (s_fY st)
               (if fsal then (s_off st + 1)%Z else s_off st) (s_ctx st)) dt 1 (* l.131-138 *)
    else Accept st dt dt_prev
  else Accept st dt dt_prev.

(** integrators.py:60-147 the loop, with explicit fuel ([None] = not finished
    after [fuel] passes); returns (u0, dt, dt_prev). *)
Fixpoint adaptive_loop (fuel : nat) (fsal adaptive : bool) (tstep : nat) (dt facmax : R)
    (st : istate) : option (istate * R * R) :=
  match fuel with
  | O => None
  | S fuel =>
      match attempt fsal adaptive tstep dt facmax st with
      | Retry st dt facmax => adaptive_loop fuel fsal adaptive tstep dt facmax st
      | Accept st dt dt_prev =>
          Some (mkIstate (s_u1 st) (s_u1 st) (s_u2 st) (s_rhs st) (s_fY st) (s_off st) (s_ctx st),
                dt, dt_prev)                                                  (* l.146-147 *)
      end
  end.

Definition adaptiveRK (fuel : nat) (fsal adaptive : bool) (tstep : nat) (dt : R) (st : istate) :=
  adaptive_loop fuel fsal adaptive tstep dt facmax_default st.
End RK.
End Integrators.
Arguments istate D I ctx : clear implicits.

(** The choices accepted by --integrator (config.py:224-226, 243-245) *)
Inductive integ := IRK4 | IForwardEuler | IAB2 | IBS5 (adaptive : bool).
