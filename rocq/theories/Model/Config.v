(** Model of spectralDNS/config.py (Params, the parsers, update) and of get_solver
    (spectralDNS/__init__.py:19-66), with the callbacks of solvers/spectralinit.py:31-43.

    argparse, importlib and the semantics of Python dictionaries are outside the repository; they are
    modelled by what is documented for them.  Simplifications: option values are not validated
    (type=, choices=) except where [accepts_choice] says so; a parameter named like a method of dict
    is not considered; precision of numpy integer arrays is 64 bits. *)
From Coq Require Import Reals ZArith List String Ascii Bool DecimalString.
From Coq Require Decimal DecimalZ.
Import ListNotations.
Open Scope string_scope.

(** ** Python values stored in the parameter dictionary *)
(** values met by config.py:135-148 *)
Inductive pyval :=
  | PNone
  | PInt (z : Z)
  | PFloat (x : R)
  | PStr (s : string)
  | PSeq (l : list pyval)          (* list or tuple *)
  | PVecZ (l : list Z)             (* numpy integer array *)
  | PVecR (l : list R)             (* numpy float array *)
  | PObj (n : nat).                (* anything else *)

(** raised at config.py:116, 121, 125, 126, 137, 142 *)
Inductive exn := EKey | EAssertion | EValue | EType | EOverflow | EName.
(** outcome of an access, config.py:110-148 *)
Inductive res (A : Type) := Ok (a : A) | Err (e : exn).
Arguments Ok {A}. Arguments Err {A}.

(** str(z) and int(s); int() also accepts surrounding blanks and underscores between digits, which
    are not modelled *)
(** config.py:137 str(f) *)
Definition py_str_int (z : Z) : string := NilZero.string_of_int (Z.to_int z).
(** config.py:137 int(...) *)
Definition py_int_str (s : string) : option Z := option_map Z.of_int (NilZero.int_of_string s).
(** config.py:137 dtype=int *)
Definition in_int64 (z : Z) : bool := andb (Z.leb (- 2^63) z) (Z.ltb z (2^63)).

(** the elements met by [for f in val] *)
(** config.py:137, 142 for f in val *)
Fixpoint chars (s : string) : list pyval :=
  match s with EmptyString => [] | String c s => PStr (String c EmptyString) :: chars s end.
(** config.py:137, 142 for f in val *)
Definition py_iter (v : pyval) : res (list pyval) :=
  match v with
  | PSeq l => Ok l
  | PVecZ l => Ok (map PInt l)
  | PVecR l => Ok (map PFloat l)
  | PStr s => Ok (chars s)
  | _ => Err EType
  end.

(** config.py:137 int(str(f)): the string of a float contains '.', 'e', 'n' or 'i' and is refused *)
Definition to_int (v : pyval) : res Z :=
  match v with
  | PInt z => match py_int_str (py_str_int z) with Some z => Ok z | None => Err EValue end
  | PStr s => match py_int_str s with Some z => Ok z | None => Err EValue end
  | _ => Err EValue
  end.
(** config.py:142 eval(str(f), ..., {'pi': pi}): [ev] evaluates a string *)
Definition to_real (ev : string -> res R) (v : pyval) : res R :=
  match v with
  | PInt z => Ok (IZR z)
  | PFloat x => Ok x
  | PStr s => ev s
  | _ => Err EName
  end.

Fixpoint mapM {A B} (f : A -> res B) (l : list A) : res (list B) :=
  match l with
  | [] => Ok []
  | a :: l => match f a with
              | Err e => Err e
              | Ok b => match mapM f l with Err e => Err e | Ok bs => Ok (b :: bs) end
              end
  end.

(** ** class Params, config.py:96-148.  Items and attributes are one dictionary (l.69 self.__dict__ = self). *)
Definition dict := string -> option pyval.
Definition empty_dict : dict := fun _ => None.
Definition put (d : dict) (k : string) (v : pyval) : dict := fun k' => if String.eqb k' k then Some v else d k'.
Definition del (d : dict) (k : string) : dict := fun k' => if String.eqb k' k then None else d k'.

Section Params.
Context (ev : string -> res R) (fl32 : R -> R).  (* eval on strings; rounding to float32 *)

(** l.135-148 __setitem__; __setattr__ (l.129-133) does the same to the dictionary *)
Definition setitem (d : dict) (k : string) (v : pyval) : res dict :=
  if orb (String.eqb k "M") (String.eqb k "N") then
    match py_iter v with
    | Err e => Err e
    | Ok l => match mapM to_int l with
              | Err e => Err e
              | Ok zs => if forallb in_int64 zs then Ok (put d k (PVecZ zs)) else Err EOverflow
              end
    end
  else if String.eqb k "L" then
    match py_iter v with
    | Err e => Err e
    | Ok l => match mapM (to_real ev) l with Err e => Err e | Ok xs => Ok (put d k (PVecR xs)) end
    end
  else Ok (put d k v).

(** params.update(new): collections.abc.MutableMapping.update calls __setitem__ for every key *)
(** __init__.py:46 *)
Fixpoint update_items (d : dict) (new : list (string * pyval)) : dict * option exn :=
  match new with
  | [] => (d, None)
  | (k, v) :: new => match setitem d k v with Err e => (d, Some e) | Ok d => update_items d new end
  end.

(** 2**M on a numpy int64 array *)
(** config.py:118 *)
Definition wrap64 (z : Z) : Z := ((z + 2^63) mod 2^64 - 2^63)%Z.
(** config.py:118 *)
Definition two_pow (m : list Z) : res pyval :=
  if existsb (fun z => Z.ltb z 0) m then Err EValue else Ok (PVecZ (map (fun z => wrap64 (2 ^ z)%Z) m)).
(** elementwise L / N with numpy broadcasting of vectors; a division by zero gives inf or nan in
    numpy, here an unspecified number *)
(** config.py:113 *)
Definition divide (l : list R) (n : list Z) : res pyval :=
  let q x z := Rdiv x (IZR z) in
  if Nat.eqb (List.length l) (List.length n) then Ok (PVecR (map (fun p => q (fst p) (snd p)) (combine l n)))
  else match l, n with
       | [x], _ => Ok (PVecR (map (q x) n))
       | _, [z] => Ok (PVecR (map (fun x => q x z) l))
       | _, _ => Err EValue
       end.

(** config.py:124 *)
Definition is_float_key (k : string) : bool :=
  existsb (String.eqb k) ["nu"; "dt"; "Ri"; "Pr"; "eta"].
(** the float type fl of l.125 applied to a value; None and containers are refused *)
Definition to_fl (single : bool) (v : pyval) : res pyval :=
  let r x := if single then fl32 x else x in
  match v with
  | PInt z => Ok (PFloat (r (IZR z)))
  | PFloat x => Ok (PFloat (r x))
  | PStr _ => Err EValue            (* numeric strings are accepted by numpy; not modelled *)
  | _ => Err EType
  end.
(** params.N: l.115-118 when the key is missing *)
Definition attr_N (d : dict) : res pyval :=
  match d "N" with
  | Some v => Ok v
  | None => match d "M" with
            | None => Err EAssertion
            | Some (PVecZ m) => two_pow m
            | Some (PInt m) => Ok (PInt (2 ^ m)%Z)     (* only after Params({'M': 6}), l.107-108 *)
            | Some _ => Err EType
            end
  end.
(** l.110-127 __getattr__ and __getattribute__ *)
Definition getattr (d : dict) (k : string) : res pyval :=
  if is_float_key k then
    match d "precision" with
    | None => Err EKey
    | Some p => match d k with
                | None => Err EKey
                | Some v => to_fl (match p with PStr s => String.eqb s "single" | _ => false end) v
                end
    end
  else if String.eqb k "N" then attr_N d
  else match d k with
       | Some v => Ok v
       | None => if String.eqb k "dx" then
                   match d "L" with
                   | None => Err EKey
                   | Some l => match attr_N d with
                               | Err e => Err e
                               | Ok n => match l, n with
                                         | PVecR l, PVecZ n => divide l n
                                         | _, _ => Err EType
                                         end
                               end
                   end
                 else Err EKey
       end.

(** A program's accesses to config.params that change it *)
(** config.py:74-84, 129-148 *)
Inductive pop := PSet (k : string) (v : pyval) | PDel (k : string) | PUpdate (new : list (string * pyval)).
(** an assignment that raises leaves the dictionary as it was; an update that raises keeps what it
    assigned before; deleting a missing key raises *)
(** config.py:83-84, 129-148 *)
Definition papply (d : dict) (o : pop) : dict :=
  match o with
  | PSet k v => match setitem d k v with Ok d => d | Err _ => d end
  | PDel k => del d k
  | PUpdate new => fst (update_items d new)
  end.
(** config.py:161 *)
Definition prun (d : dict) (l : list pop) : dict := fold_left papply l d.
End Params.

(** ** The parsers, config.py:163-305 *)
Inductive mesh := Triply | Doubly | Channel.
Definition mesh_name (m : mesh) : string :=
  match m with Triply => "triplyperiodic" | Doubly => "doublyperiodic" | Channel => "channel" end.

(** dest and default of the options shared by all meshes, l.166-209 *)
Definition common_opts : list (string * pyval) :=
  [("precision", PStr "double"); ("optimization", PStr ""); ("make_profile", PInt 0); ("dt", PFloat (/ 100)%R);
   ("T", PFloat (/ 10)%R); ("write_result", PFloat (10^8)%R); ("checkpoint", PFloat (10^8)%R); ("nu", PFloat (625 / 10^6)%R);
   ("t", PFloat 0%R); ("tstep", PInt 0); ("filemode", PStr "w"); ("dealias", PStr "2/3-rule"); ("decomposition", PStr "slab");
   ("ntol", PInt 7); ("threads", PInt 1); ("planner_effort", PObj 0); ("h5filename", PStr "results");
   ("verbose", PObj 1); ("mask_nyquist", PObj 1)].
(** l.211-305: dest and default of the options of each mesh, and of its solvers *)
Definition mesh_opts (m : mesh) : list (string * pyval) :=
  common_opts ++
  match m with
  | Triply => [("convection", PStr "Vortex"); ("L", PSeq [PFloat (2*PI); PFloat (2*PI); PFloat (2*PI)]%R);
               ("M", PSeq [PInt 6; PInt 6; PInt 6]); ("TOL", PFloat (/ 10^6)%R); ("integrator", PStr "RK4"); ("solver", PNone)]
  | Doubly => [("integrator", PStr "RK4"); ("L", PSeq [PFloat (2*PI); PFloat (2*PI)]%R); ("convection", PStr "Vortex");
               ("TOL", PFloat (/ 10^6)%R); ("M", PSeq [PInt 6; PInt 6]); ("solver", PNone)]
  | Channel => [("convection", PStr "Vortex"); ("L", PSeq [PInt 2; PFloat (2*PI)%R; PFloat (2*PI)%R]);
                ("M", PSeq [PInt 6; PInt 6; PInt 6]); ("Dquad", PStr "GC"); ("Bquad", PStr "GC"); ("Nquad", PStr "GC"); ("solver", PNone)]
  end.
Definition eta_opt := ("eta", PFloat (/ 100)%R).
Definition Ri_opt := ("Ri", PFloat (/ 10)%R).
Definition Pr_opt := ("Pr", PFloat 1%R).
Definition subparsers (m : mesh) : list (string * list (string * pyval)) :=
  match m with
  | Triply => [("NS", []); ("VV", []); ("MHD", [eta_opt]); ("Bq", [Ri_opt; Pr_opt])]
  | Doubly => [("NS2D", []); ("Bq2D", [Ri_opt; Pr_opt])]
  | Channel => [("KMM", [("integrator", PStr "implicit")]); ("KMMr", [("integrator", PStr "implicit")]);
                ("KMMRK3", [("integrator", PStr "implicitRK3")]); ("KMM_RB", [("integrator", PStr "implicit")]);
                ("KMMRK3_RB", [("integrator", PStr "implicitRK3")]); ("Coupled", [("integrator", PStr "implicit")]);
                ("CoupledRK3", [("integrator", PStr "implicit")])]
  end.

(** association lists: the last entry of a key counts *)
(** config.py:163-305, values of a namespace *)
Definition assoc (l : list (string * pyval)) (k : string) : option pyval :=
  fold_left (fun a p => if String.eqb (fst p) k then Some (snd p) else a) l None.
(** config.py:163-305, add_argument *)
Definition declares (l : list (string * pyval)) (k : string) : bool := existsb (fun p => String.eqb (fst p) k) l.

(** A command line: options before the solver name, the solver name, options after it *)
(** __init__.py:45 parse_args *)
Record cmdline := mkCmd { c_main : list (string * pyval); c_solver : option string; c_sub : list (string * pyval) }.

(** __init__.py:45, precedence of values *)
Definition or_else {A} (a b : option A) : option A := match a with Some _ => a | None => b end.

(** config.update(new, mesh) calls, oldest first: l.307-314, set_defaults of that mesh's parser.
    set_defaults overwrites the default of the parser's option objects.  The objects of the common
    options are shared by the three parsers (parents=[parser], l.212, 242, 264), so for them the mesh
    does not matter.  The options of the sub-parsers are not reached. *)
Definition updates := list (mesh * list (string * pyval)).
Definition mesh_eqb (a b : mesh) : bool :=
  match a, b with Triply, Triply | Doubly, Doubly | Channel, Channel => true | _, _ => false end.
Definition updated (m : mesh) (upd : updates) (k : string) : option pyval :=
  assoc (flat_map (fun u => if orb (declares common_opts k) (mesh_eqb (fst u) m) then snd u else []) upd) k.

(** argparse's parse_args on the parser of mesh m, after the config.update calls [upd].
    [None]: argparse reports an error and exits.  The namespace first gets the main parser's
    defaults and options; the sub-parser is run on a fresh namespace holding its own defaults and
    options, and everything in it is copied over. *)
(** __init__.py:45 *)
Definition parse_args (m : mesh) (upd : updates) (c : cmdline) : option (string -> option pyval) :=
  if negb (forallb (fun p => andb (declares (mesh_opts m) (fst p)) (negb (String.eqb (fst p) "solver"))) (c_main c)) then None
  else
    let main k := or_else (assoc (c_main c) k) (or_else (updated m upd k) (assoc (mesh_opts m) k)) in
    match c_solver c with
    | None => if c_sub c then Some main else None
    | Some s =>
        match find (fun p => String.eqb (fst p) s) (subparsers m) with
        | None => None                                   (* invalid choice *)
        | Some (_, opts) =>
            if negb (forallb (fun p => declares (opts) (fst p)) (c_sub c)) then None
            else Some (fun k => or_else (assoc (c_sub c) k) (or_else (assoc opts k)
                                 (if String.eqb k "solver" then Some (PStr s) else main k)))
        end
    end.

(** ** get_solver, __init__.py:44-66 *)
(** vars(args), l.46: the namespace as a dictionary *)
Definition sub_opts (m : mesh) (s : option string) : list (string * pyval) :=
  match s with
  | None => []
  | Some s => match find (fun p => String.eqb (fst p) s) (subparsers m) with Some (_, opts) => opts | None => [] end
  end.
Definition ns_keys (m : mesh) (upd : updates) (c : cmdline) : list string :=
  nodup string_dec (map fst (mesh_opts m) ++ map fst (sub_opts m (c_solver c)) ++ map fst (flat_map snd upd)).
Definition vars (m : mesh) (upd : updates) (c : cmdline) (ns : string -> option pyval) : list (string * pyval) :=
  flat_map (fun k => match ns k with Some v => [(k, v)] | None => [] end) (ns_keys m upd c).
(** the solver modules in spectralDNS/solvers *)
(** __init__.py:49-50, files of spectralDNS/solvers *)
Definition solver_modules : list string :=
  ["Bq2D"; "Coupled"; "CoupledRK3"; "KMM"; "KMMRK3"; "KMMRK3_RB"; "KMM_RB"; "KMMr"; "MHD"; "NS"; "NS2D"; "VV"; "spectralinit"].
(** __init__.py:48-52 *)
Inductive load := Loaded (name : string) | ModuleNotFound (name : string) | JoinTypeError.
(** l.48-52: import_module('.'.join(('spectralDNS.solvers', solver))); the only exception caught is
    AttributeError, which import_module does not raise here *)
Definition load_solver (solver : pyval) : load :=
  match solver with
  | PStr s => if existsb (String.eqb s) solver_modules then Loaded s else ModuleNotFound s
  | _ => JoinTypeError
  end.

(** The mesh and solver part of get_solver: the exit of argparse, or the module *)
(** __init__.py:44-52 *)
Definition select_solver (m : mesh) (upd : updates) (c : cmdline) : option load :=
  match parse_args m upd c with
  | None => None
  | Some ns => match ns "solver" with Some v => Some (load_solver v) | None => Some JoinTypeError end
  end.

(** ** Callbacks.  Namespaces of the modules that are loaded: the three callbacks of a module, or
    [None] when it has not been imported.  [cb]: a callback (0 = the default of spectralinit). *)
(** spectralinit.py:31-41 *)
Definition cb := nat.
(** spectralinit.py:31-41 *)
Record cbs := mkCbs { cb_update : cb; cb_regression : cb; cb_additional : cb }.
(** spectralinit.py:31-41 *)
Definition default_cbs : cbs := mkCbs 0 0 0.
(** __init__.py:49, sys.modules *)
Definition modules := string -> option cbs.

(** [from .X import *] at the top of a solver module: Bq2D:9, NS2D:9, VV:19, KMMRK3:8, KMMRK3_RB:8,
    KMM_RB:8; the others import spectralinit (NS:10, MHD:10, KMM:15, KMMr:14, Coupled:10, CoupledRK3:10) *)
Definition star_parent (s : string) : option string :=
  if String.eqb s "VV" then Some "NS" else
  if String.eqb s "NS2D" then Some "NS" else
  if String.eqb s "Bq2D" then Some "NS2D" else
  if String.eqb s "KMMRK3" then Some "KMM" else
  if String.eqb s "KMM_RB" then Some "KMM" else
  if String.eqb s "KMMRK3_RB" then Some "KMMRK3" else None.

Definition setm (ms : modules) (s : string) (c : cbs) : modules := fun s' => if String.eqb s' s then Some c else ms s'.
(** importlib.import_module: a module is executed the first time only; executing it imports its
    parent and copies the parent's current bindings.  [fuel] bounds the depth of the import chain. *)
(** __init__.py:49 *)
Fixpoint import_module (fuel : nat) (ms : modules) (s : string) : modules :=
  match ms s with
  | Some _ => ms
  | None =>
      match star_parent s, fuel with
      | Some p, S fuel =>
          let ms := import_module fuel ms p in
          setm ms s (match ms p with Some c => c | None => default_cbs end)
      | _, _ => setm ms s default_cbs
      end
  end.

(** get_solver for solver [s] with callbacks given or not, l.54-61; returns the module's namespace *)
Record gs_call := mkGs { g_solver : string; g_update : option cb; g_regression : option cb; g_additional : option cb }.
Definition given (a : option cb) (b : cb) : cb := match a with Some x => x | None => b end.
Definition get_solver_cbs (ms : modules) (g : gs_call) : modules :=
  let ms := import_module 3 ms (g_solver g) in
  let c := match ms (g_solver g) with Some c => c | None => default_cbs end in
  setm ms (g_solver g) (mkCbs (given (g_update g) (cb_update c)) (given (g_regression g) (cb_regression c))
                              (given (g_additional g) (cb_additional c))).
Definition no_modules : modules := fun _ => None.
Definition run_get_solver (l : list gs_call) : modules := fold_left get_solver_cbs l no_modules.

(** ** getConvection of the solvers *)
(** outcomes of getConvection, NS.py:164-201 *)
Inductive conv_result := ConvFound | ConvNotImplemented | ConvUnbound.  (* UnboundLocalError: Conv *)
(** config.py:215, 266 in a tuple of choices *)
Definition mem (s : string) (l : list string) : bool := existsb (String.eqb s) l.
(** NS:164-201, MHD:112-130, VV:85-103, NS2D:32-51, Bq2D:101-128, KMM:355-396 (also KMMRK3, KMM_RB,
    KMMRK3_RB), KMMr:357-397, Coupled:240-280, CoupledRK3:246-286 *)
Definition getConvection (solver conv : string) : conv_result :=
  if String.eqb solver "NS" then
    if mem conv ["Standard"; "Divergence"; "Skewed"; "Vortex"] then ConvFound else ConvUnbound
  else if String.eqb solver "MHD" then
    if mem conv ["Standard"; "Vortex"; "Skewed"] then ConvNotImplemented
    else if String.eqb conv "Divergence" then ConvFound else ConvUnbound
  else if mem solver ["VV"; "NS2D"; "Bq2D"] then
    if mem conv ["Standard"; "Divergence"; "Skewed"] then ConvNotImplemented
    else if String.eqb conv "Vortex" then ConvFound else ConvUnbound
  else if mem conv ["Standard"; "Divergence"; "Skew"; "Vortex"] then ConvFound else ConvUnbound.

(** choices of --convection: l.214-215, 248-249 (the string 'Vortex', so that [in] tests for a
    substring) and 265-266 *)
Fixpoint is_prefix (a b : string) : bool :=
  match a, b with
  | EmptyString, _ => true
  | String x a, String y b => andb (Ascii.eqb x y) (is_prefix a b)
  | _, EmptyString => false
  end.
Fixpoint is_substring (a b : string) : bool :=
  orb (is_prefix a b) (match b with EmptyString => false | String _ b => is_substring a b end).
Definition accepts_convection (m : mesh) (conv : string) : bool :=
  match m with
  | Triply => mem conv ["Standard"; "Divergence"; "Skewed"; "Vortex"]
  | Doubly => is_substring conv "Vortex"
  | Channel => mem conv ["Standard"; "Divergence"; "Skew"; "Vortex"]
  end.
