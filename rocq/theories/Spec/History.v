(** Vocabulary of the statements about parameters and get_solver: looking back in a history. *)
From Coq Require Import Reals ZArith List String Bool.
From Verif Require Import Model.Config.
Import ListNotations.
Open Scope string_scope.

(** the value given to key k by the latest of these assignments *)
Inductive latest {A} (k : string) : list (string * A) -> option A -> Prop :=
  | latest_none : latest k [] None
  | latest_here l v : latest k (l ++ [(k, v)]) (Some v)
  | latest_before l k' v r : k' <> k -> latest k l r -> latest k (l ++ [(k', v)]) r.

(** M or N as given by the user: integers or decimal strings *)
Inductive mesh_entry : pyval -> Z -> Prop :=
  | entry_int z : mesh_entry (PInt z) z
  | entry_str z : mesh_entry (PStr (py_str_int z)) z.
Definition int64 (z : Z) : Prop := (- 2^63 <= z < 2^63)%Z.
Definition mesh_value (v : pyval) (zs : list Z) : Prop :=
  exists l, v = PSeq l /\ Forall2 mesh_entry l zs /\ Forall int64 zs.

(** the single assignments a program's accesses amount to (update() assigns key by key) *)
Definition assigns (o : pop) : list (string * option pyval) :=
  match o with
  | PSet k v => [(k, Some v)]
  | PDel k => [(k, None)]
  | PUpdate new => map (fun p => (fst p, Some (snd p))) new
  end.
Definition assignments (l : list pop) : list (string * option pyval) := flat_map assigns l.

(** every assignment of the history is accepted (raises nothing) *)
Definition accepted (ev : string -> res R) (l : list (string * option pyval)) : Prop :=
  forall k v, In (k, Some v) l -> exists d, setitem ev empty_dict k v = Ok d.
(** lengths as given by the user: numbers or strings that evaluate to numbers *)
Inductive length_entry (ev : string -> res R) : pyval -> R -> Prop :=
  | lentry_float x : length_entry ev (PFloat x) x
  | lentry_int z : length_entry ev (PInt z) (IZR z)
  | lentry_str s x : ev s = Ok x -> length_entry ev (PStr s) x.
Definition length_value (ev : string -> res R) (v : pyval) (xs : list R) : Prop :=
  exists l, v = PSeq l /\ Forall2 (length_entry ev) l xs.
(** the key has a value / no value after these assignments *)
Definition last_set (k : string) (l : list (string * option pyval)) (v : pyval) : Prop := latest k l (Some (Some v)).
Definition unset (k : string) (l : list (string * option pyval)) : Prop := latest k l None \/ latest k l (Some None).

(** the three callbacks of get_solver *)
Inductive callback := CUpdate | CRegression | CAdditional.
Definition registered (k : callback) (g : gs_call) : option cb :=
  match k with CUpdate => g_update g | CRegression => g_regression g | CAdditional => g_additional g end.
(** the callback that solve() calls for solver s *)
Definition bound (k : callback) (ms : modules) (s : string) : option cb :=
  match ms s with
  | None => None
  | Some c => Some (match k with CUpdate => cb_update c | CRegression => cb_regression c | CAdditional => cb_additional c end)
  end.
(** solver modules that start with "from .p import *" for another solver module p *)
Definition star_imports : list (string * string) :=
  [("VV", "NS"); ("NS2D", "NS"); ("Bq2D", "NS2D"); ("KMMRK3", "KMM"); ("KMM_RB", "KMM"); ("KMMRK3_RB", "KMMRK3")].
(** s imports everything from p, directly or through other solver modules *)
Inductive derives : string -> string -> Prop :=
  | derives_1 s p : In (s, p) star_imports -> derives s p
  | derives_S s p q : In (s, p) star_imports -> derives p q -> derives s q.
(** the solver names a mesh accepts *)
Definition advertised (m : mesh) : list string :=
  match m with
  | Triply => ["NS"; "VV"; "MHD"; "Bq"]
  | Doubly => ["NS2D"; "Bq2D"]
  | Channel => ["KMM"; "KMMr"; "KMMRK3"; "KMM_RB"; "KMMRK3_RB"; "Coupled"; "CoupledRK3"]
  end.
(** the options of single solvers and their defaults *)
Definition solver_options (m : mesh) : list (string * string * pyval) :=
  match m with
  | Triply => [("MHD", "eta", PFloat (1 / 100)%R); ("Bq", "Ri", PFloat (1 / 10)%R); ("Bq", "Pr", PFloat 1%R)]
  | Doubly => [("Bq2D", "Ri", PFloat (1 / 10)%R); ("Bq2D", "Pr", PFloat 1%R)]
  | Channel => [("KMM", "integrator", PStr "implicit"); ("KMMr", "integrator", PStr "implicit");
                ("KMM_RB", "integrator", PStr "implicit"); ("Coupled", "integrator", PStr "implicit");
                ("CoupledRK3", "integrator", PStr "implicit");
                ("KMMRK3", "integrator", PStr "implicitRK3"); ("KMMRK3_RB", "integrator", PStr "implicitRK3")]
  end.
(** numbers *)
Inductive number : pyval -> R -> Prop := number_float x : number (PFloat x) x | number_int z : number (PInt z) (IZR z).
