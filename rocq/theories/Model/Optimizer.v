(** Model of spectralDNS/optimization/__init__.py: the [optimizer] decorator and the module
    registry, and of the names and parameter lists found in the optimised modules. *)
From Coq Require Import String List Bool Arith.
Import ListNotations.
Open Scope string_scope.

(** What a name in a module can be bound to.  [PyFun] carries the positional parameters. *)
(** optimization/__init__.py:32-41 *)
Inductive pyobj := PyFun (params : list string) | PyNone | PyOther (truth : bool).
(** Python truth value, used by [if not fun] (l.37, l.40): functions are true, None is false *)
Definition truthy (o : pyobj) : bool :=
  match o with PyFun _ => true | PyNone => false | PyOther b => b end.
Definition namespace := string -> option pyobj.

(** What the decorator reads.  [None] = reading it raises (missing attribute or key, or a value of
    the wrong type such as None in "_".join).  [c_mesh] is the module attribute config.mesh (l.41);
    config.py defines no such name, so it is [None] in the shipped code. *)
Record config := mkConfig {
  c_globals : string -> option namespace;   (* globals() of optimization/__init__.py *)
  c_optimization : option string;           (* config.params.optimization *)
  c_precision : option string;              (* config.params.precision *)
  c_dim : option nat;                       (* len(config.params.N) *)
  c_solver : option string;                 (* config.params.solver *)
  c_mesh : option string }.

(** getattr(mod, name, None) *)
(** optimization/__init__.py:32, 35, 38, 41 *)
Definition getattr (md : namespace) (name : string) : pyobj :=
  match md name with Some o => o | None => PyNone end.

(** optimization/__init__.py:25, 48: an exception ends the try block *)
Definition bind {A B} (x : option A) (f : A -> option B) : option B :=
  match x with Some a => f a | None => None end.

(** l.26-41, the body of the try block up to the definition of the wrapper; [None] = an exception *)
Definition lookup_fun (c : config) (name : string) : option pyobj :=
  bind (c_optimization c) (fun opt =>
  bind (c_precision c) (fun prec =>
  bind (c_globals c (opt ++ "_" ++ prec)) (fun md =>
  bind (c_dim c) (fun d =>
  let f := if Nat.eqb d 2 then getattr md (name ++ "_2D") else getattr md name in
  bind (if truthy f then Some f else
        bind (c_solver c) (fun s => Some (getattr md (name ++ "_" ++ s)))) (fun f =>
  if truthy f then Some f else
  bind (c_mesh c) (fun m => Some (getattr md (name ++ "_" ++ m)))))))).

(** l.43-55: the wrapper calls [fun] or, after any exception, the numpy function *)
Inductive wrapped := Kernel (fn : pyobj) | Numpy.
Definition optimizer (c : config) (name : string) : wrapped :=
  match lookup_fun c name with Some f => Kernel f | None => Numpy end.

(** Calling the wrapper with n positional arguments *)
(** optimization/__init__.py:44-46, 51-53 *)
Inductive call_result := RunsNumpy | RunsKernel | RaisesTypeError.
(** optimization/__init__.py:44-46, 51-53 *)
Definition call (w : wrapped) (n : nat) : call_result :=
  match w with
  | Numpy => RunsNumpy
  | Kernel (PyFun ps) => if Nat.eqb (length ps) n then RunsKernel else RaisesTypeError
  | Kernel _ => RaisesTypeError
  end.

(** ** The shipped modules *)
(** definitions of numba_module.py:4-184 *)
Definition table := list (string * list string).
(** optimization/__init__.py:32, 35 *)
Fixpoint find (t : table) (n : string) : option (list string) :=
  match t with
  | [] => None
  | (m, ps) :: t => if String.eqb m n then Some ps else find t n
  end.
(** only functions are listed; imported helper modules (np, jit) are not *)
(** optimization/__init__.py:57-79 *)
Definition ns_of (t : table) : namespace :=
  fun n => match find t n with Some ps => Some (PyFun ps) | None => None end.

(** numba_module.py, top-level functions *)
(** numba_module.py:4-178 *)
Definition numba_table : table := [
  ("loop1", ["U_hat"; "U_hat0"; "U_hat1"]); ("loop2", ["dU"; "U_hat"; "U_hat0"; "b"; "dt"]);
  ("loop3", ["dU"; "U_hat1"; "a"; "dt"]); ("loop4", ["U_hat"; "U_hat1"]);
  ("RK4", ["U_hat"; "U_hat0"; "U_hat1"; "dU"; "a"; "b"; "dt"; "solver"; "context"]);
  ("loop5", ["dU"; "U_hat"; "dt"]); ("loop6", ["dU"; "U_hat"; "U_hat0"; "dt"]); ("loop7", ["dU"; "U_hat0"; "dt"]);
  ("ForwardEuler", ["U_hat"; "dU"; "dt"; "solver"; "context"]);
  ("AB2", ["U_hat"; "U_hat0"; "dU"; "dt"; "tstep"; "solver"; "context"]);
  ("cross1", ["c"; "a"; "b"]); ("cross2a", ["c"; "a"; "b"]); ("cross2c", ["c"; "a0"; "a1"; "a2"; "b"]);
  ("cross2", ["c"; "a"; "b"]);
  ("add_pressure_diffusion_NS", ["du"; "u_hat"; "nu"; "ksq"; "kk"; "p_hat"; "k_over_k2"]);
  ("add_pressure_diffusion_NS_", ["du"; "u_hat"; "nu"; "ksq"; "kx"; "ky"; "kz"; "p_hat"; "k_over_k2"]);
  ("compute_vw", ["u_hat"; "f_hat"; "g_hat"; "k_over_k2"]); ("mult_K1j", ["K"; "a"; "f"]);
  ("_mult_K1j", ["Ky"; "Kz"; "a"; "f"])].

(** pythran_module.py:1-43 (own functions and those imported from pythran_maths) *)
Definition pythran_table : table := [
  ("loop1", ["U_hat"; "U_hat0"; "U_hat1"]); ("loop2", ["dU"; "U_hat"; "U_hat0"; "b"; "dt"]);
  ("loop3", ["dU"; "U_hat1"; "a"; "dt"]); ("loop4", ["U_hat"; "U_hat1"]);
  ("loop5", ["dU"; "U_hat"; "dt"]); ("loop6", ["dU"; "U_hat"; "U_hat0"; "dt"]); ("loop7", ["dU"; "U_hat0"; "dt"]);
  ("cross1", ["c"; "a"; "b"]); ("cross2a", ["c"; "a"; "b"]); ("cross2c", ["c"; "a0"; "a1"; "a2"; "b"]);
  ("add_pressure_diffusion_NS_", ["du"; "u_hat"; "nu"; "ksq"; "kx"; "ky"; "kz"; "p_hat"; "k_over_k2"]);
  ("_mult_K1j", ["Ky"; "Kz"; "a"; "f"]); ("compute_vw", ["u_hat"; "f_hat"; "g_hat"; "k_over_k2"]);
  ("RK4", ["U_hat"; "U_hat0"; "U_hat1"; "dU"; "a"; "b"; "dt"; "solver"; "context"]);
  ("ForwardEuler", ["U_hat"; "dU"; "dt"; "solver"; "context"]);
  ("AB2", ["U_hat"; "U_hat0"; "dU"; "dt"; "tstep"; "solver"; "context"]);
  ("cross2", ["c"; "a"; "b"]);
  ("add_pressure_diffusion_NS", ["du"; "u_hat"; "nu"; "ksq"; "kk"; "p_hat"; "k_over_k2"]);
  ("mult_K1j", ["K"; "a"; "f"])].

(** cython_double.py / cython_single.py: public functions of cython_integrators.in,
    cython_maths.in, cython_solvers.in (names with a leading underscore are not exported) *)
(** cython_integrators.in:8-156, cython_maths.in:13-149, cython_solvers.in:9-129 *)
Definition cython_table : table := [
  ("RK4", ["U_hat"; "U_hat0"; "U_hat1"; "dU"; "a"; "b"; "dt"; "solver"; "context"]);
  ("ForwardEuler", ["U_hat"; "U_hat0"; "dU"; "dt"; "solver"; "context"]);
  ("AB2", ["U_hat"; "U_hat0"; "dU"; "dt"; "tstep"; "solver"; "context"]);
  ("RK4_2D", ["U_hat"; "U_hat0"; "U_hat1"; "dU"; "a"; "b"; "dt"; "solver"; "context"]);
  ("ForwardEuler_2D", ["U_hat"; "U_hat0"; "dU"; "dt"; "solver"; "context"]);
  ("AB2_2D", ["U_hat"; "U_hat0"; "dU"; "dt"; "tstep"; "solver"; "context"]);
  ("cross1", ["c"; "a"; "b"]); ("cross2", ["c"; "a"; "b"]);
  ("cross1_2D", ["c"; "a"; "b"]); ("cross2_2D", ["c"; "a"; "b"]); ("mult_K1j", ["K"; "a"; "f"]);
  ("add_linear_KMM", ["rhs"; "u"; "g"; "work"; "AB"; "AC"; "SBB"; "ABB"; "BBB"; "nu"; "dt"; "K2"; "K4"]);
  ("add_diffusion_u_KMMRK3", ["d"; "u"; "AC"; "SBB"; "ABB"; "BBB"; "nu"; "dt"; "K2"; "K4"; "a"; "b"]);
  ("assembleAB_KMM", ["H_hat0"; "H_hat"; "H_hat1"]);
  ("add_pressure_diffusion_NS", ["du"; "u_hat"; "nu"; "ksq"; "kk"; "p_hat"; "k_over_k2"]);
  ("add_pressure_diffusion_NS_", ["du"; "u_hat"; "nu"; "ksq"; "kx"; "ky"; "kz"; "p_hat"; "k_over_k2"]);
  ("add_pressure_diffusion_Bq2D", ["du"; "ur_hat"; "p_hat"; "k_over_k2"; "k"; "ksq"; "nu"; "Ri"; "Pr"]);
  ("add_pressure_diffusion_NS2D", ["du"; "u_hat"; "nu"; "ksq"; "k"; "p_hat"; "k_over_k2"]);
  ("compute_vw", ["u_hat"; "f_hat"; "g_hat"; "k_over_k2"])].

(** l.57-79 the registry; each import may fail *)
Definition shipped_globals (has_cython has_numba has_numexpr has_pythran : bool) (key : string)
    : option namespace :=
  if ((String.eqb key "cython_double" || String.eqb key "cython_single") && has_cython)%bool then Some (ns_of cython_table)
  else if ((String.eqb key "numba_single" || String.eqb key "numba_double") && has_numba)%bool then Some (ns_of numba_table)
  else if (String.eqb key "numexpr_module" && has_numexpr)%bool then
    Some (ns_of [("cross1", ["c"; "a"; "b"]); ("cross2", ["c"; "a"; "b"]);
                 ("add_pressure_diffusion", ["dU"; "U_hat"; "K2"; "K"; "P_hat"; "K_over_K2"; "nu"])])
  else if ((String.eqb key "pythran_single" || String.eqb key "pythran_double") && has_pythran)%bool then Some (ns_of pythran_table)
  else None.

(** The shipped configuration space: solver, number of directions, optimization, precision *)
(** config.py:167-171, 228-305 *)
Definition shipped_config (hc hn hx hp : bool) (opt prec solver : string) (dim : nat) : config :=
  mkConfig (shipped_globals hc hn hx hp) (Some opt) (Some prec) (Some dim) (Some solver) None.

(** The decorated functions with the number of arguments they are called with, and the solver
    modules whose import executes the decoration (maths is imported by every solver;
    NS2D, VV import NS; Bq2D imports NS2D; KMMRK3, KMM_RB import KMM; KMMRK3_RB imports KMMRK3). *)
(** config.py:228-305 *)
Definition all_solvers : list (string * nat) := [("NS", 3); ("VV", 3); ("MHD", 3); ("NS2D", 2); ("Bq2D", 2);
  ("KMM", 3); ("KMMr", 3); ("KMMRK3", 3); ("KMM_RB", 3); ("KMMRK3_RB", 3); ("Coupled", 3); ("CoupledRK3", 3)].
(** lines given with each entry, cross.py:13 *)
Definition decorated : list (string * nat * list (string * nat)) := [
  ("cross1", 3, all_solvers); ("cross2", 3, all_solvers);                           (* maths/cross.py:13,27 *)
  ("RK4", 9, all_solvers); ("ForwardEuler", 5, all_solvers); ("AB2", 7, all_solvers); (* maths/integrators.py:149,161,167 *)
  ("add_pressure_diffusion", 7, [("NS", 3); ("VV", 3); ("NS2D", 2)]);               (* NS.py:203 *)
  ("add_pressure_diffusion", 9, [("Bq2D", 2)]);                                     (* Bq2D.py:130 *)
  ("add_pressure_diffusion", 8, [("MHD", 3)]);                                      (* MHD.py:132 *)
  ("add_linear", 5, [("VV", 3)]);                                                   (* VV.py:105 *)
  ("mult_K1j", 3, [("KMM", 3); ("KMMRK3", 3); ("KMM_RB", 3); ("KMMRK3_RB", 3)]);    (* KMM.py:242 *)
  ("assembleAB", 3, [("KMM", 3); ("KMMRK3", 3); ("KMM_RB", 3); ("KMMRK3_RB", 3); ("Coupled", 3); ("KMMr", 3)]);
  ("add_linear", 13, [("KMM", 3); ("KMM_RB", 3); ("KMMr", 3)]);                     (* KMM.py:403, KMMr.py:404 *)
  ("add_linear", 15, [("KMMRK3", 3); ("KMMRK3_RB", 3)]);                            (* KMMRK3.py:49 *)
  ("compute_vw", 4, [("KMM", 3); ("KMMRK3", 3); ("KMM_RB", 3); ("KMMRK3_RB", 3)])]. (* KMM.py:466 *)

(** ** Sessions: Python caches imported modules, so the decorators of a module run once, under the
    configuration of the first get_solver call that imports it (get_solver, __init__.py:46-51).
    [cache] maps (module, function) to its wrapper. *)
Definition cache := list (string * wrapped).
Fixpoint cached (k : cache) (n : string) : option wrapped :=
  match k with [] => None | (m, w) :: k => if String.eqb m n then Some w else cached k n end.
Definition import_function (c : config) (k : cache) (name : string) : cache :=
  match cached k name with Some _ => k | None => (name, optimizer c name) :: k end.
(** spectralDNS.maths is imported by every solver *)
(** cross.py:13-32, integrators.py:149-175 *)
Definition maths_functions : list string := ["cross1"; "cross2"; "RK4"; "ForwardEuler"; "AB2"].
(** __init__.py:49 *)
Definition get_solver_import (k : cache) (c : config) : cache :=
  fold_left (import_function c) maths_functions k.
(** __init__.py:19-66 *)
Definition session (cs : list config) : cache := fold_left get_solver_import cs [].
