(** Model of the planning effort of the FFTs in spectralDNS/config.py, where it is read in the solvers, and of the
    switches with [type=bool] of demo/OrrSommerfeld.py.

    [fft_plans] is one object for the whole session: the parser default, the value that PlanAction stores and the value
    that [update] writes back are all this object, so the state holds its contents once.  A dictionary given to [update]
    is a place [i]: it first owns a table, afterwards it holds the shared object. *)
From Coq Require Import String List Arith Bool.
Import ListNotations.
Open Scope string_scope.

(** a Python dict from str to str, in insertion order *)
(** config.py:150-151 *)
Definition dict := list (string * string).
(** config.py:157,312, d[k] = v *)
Fixpoint dset (k v : string) (d : dict) : dict :=
  match d with
  | [] => [(k, v)]
  | (k', v') :: d => if String.eqb k k' then (k, v) :: d else (k', v') :: dset k v d
  end.
(** config.py:157,312, dict.update *)
Definition dupdate (d new : dict) : dict := fold_left (fun d p => dset (fst p) (snd p) d) new d.
(** NS.py:22, KMM.py:34, the value if the key is there *)
Fixpoint dget (d : dict) (k : string) : option string :=
  match d with [] => None | (k', v) :: d => if String.eqb k k' then Some v else dget d k end.
(** config.py:150, the default factory *)
Definition measure : string := "FFTW_MEASURE".
(** config.py:150, __getitem__ of a defaultdict: a missing key is entered with the default *)
Definition dd_getitem (d : dict) (k : string) : string * dict :=
  match dget d k with Some v => (v, d) | None => (measure, dset k measure d) end.

(** what the entry 'planner_effort' of a dictionary given to [update] holds: config.py:311-313 *)
Inductive entry := Missing | Own (d : dict) | Shared.
(** config.py:150-158, 307-314 *)
Record pstate := PS { plans : dict; news : nat -> entry }.
(** config.py:150-151 *)
Definition fft_plans0 : dict := [("dct", measure)].
(** config.py:307-314, the part on the planning *)
Definition cfg_update (i : nat) (s : pstate) : pstate :=
  match news s i with
  | Missing => s
  | Own d => PS (dupdate (plans s) d) (fun j => if Nat.eqb j i then Shared else news s j)
  | Shared => PS (dupdate (plans s) (plans s)) (news s)
  end.
(** config.py:153-158, [d] is json.loads(values) *)
Definition plan_action (d : dict) (s : pstate) : pstate := PS (dupdate (plans s) d) (news s).
Inductive solver_name := NS_ | VV_ | MHD_ | NS2D_ | Bq2D_ | KMM_ | KMMr_ | KMMRK3_ | KMM_RB_ | KMMRK3_RB_ | Coupled_ | CoupledRK3_.
(** NS.py:22 (called by VV.py:21-24 and NS2D.py:11-15), MHD.py:22, Bq2D.py:21, KMM.py:34 (called by KMMRK3.py, KMM_RB.py:16), KMMr.py:32,
    Coupled.py:31, CoupledRK3.py:33 *)
Definition plan_key (sv : solver_name) : string :=
  match sv with NS_ | VV_ | MHD_ | NS2D_ | Bq2D_ => "fft" | _ => "dct" end.
(** the first lines of get_context: NS.py:21-22, KMM.py:33-34 *)
Definition context_effort (sv : solver_name) (s : pstate) : string * pstate :=
  let (v, d) := dd_getitem (plans s) (plan_key sv) in (v, PS d (news s)).

Inductive event := EUpdate (i : nat) | EOption (d : dict) | EContext (sv : solver_name).
(** one session: calls of update (config.py:307), parses with --planner_effort (config.py:153), contexts (NS.py:22) *)
Definition step (s : pstate) (e : event) : pstate :=
  match e with EUpdate i => cfg_update i s | EOption d => plan_action d s | EContext sv => snd (context_effort sv s) end.
(** config.py:150-158, 307-314 *)
Definition session (init : nat -> entry) (es : list event) : pstate := fold_left step es (PS fft_plans0 init).

(** argparse with [type=bool]: bool of the string. demo/OrrSommerfeld.py:195-197 *)
Definition bool_of_arg (a : option string) : bool :=
  match a with None => false | Some "" => false | Some _ => true end.
Inductive os_run := EpsRuns | SpatialRuns | OneRunWithTest | OneRun.
(** demo/OrrSommerfeld.py:203-245, the options given on the command line *)
Definition os_main (refinement eps spatial : option string) : os_run :=
  if bool_of_arg eps then EpsRuns else if bool_of_arg spatial then SpatialRuns
  else if bool_of_arg refinement then OneRunWithTest else OneRun.
