(** Calls made to statistics objects and what the stored averages should be. *)
From Coq Require Import Reals List String Bool Arith.
From Verif Require Import Base.Sums Base.Fin.
Import ListNotations.
Open Scope R_scope.

(** a sample on the whole mesh: velocity and, if passed, the scalar (P or phi) at the points (plane, j, k) *)
Definition gfield := nat -> nat -> nat -> R.
Record sample := mkSample { sU : ax3 -> gfield; sS : option gfield }.

(** Calls on objects numbered by [o], by one or several runs sharing a disk.  [New]: number of
    ranks, planes per rank, first plane of a rank, Ny, Nz, 2**params.M[0], file name, fromstats *)
Inductive sop :=
  | New (o : nat) (R : nat) (N start : nat -> nat) (Ny Nz M : nat) (filename : string) (fromstats : option string)
  | Sample (o : nat) (s : sample)
  | Get (o : nat)
  | Reset (o : nat)
  | FromFile (o : nat) (filename : string).

(** which samples an object and a file stand for *)
Record slog := mkSlog { l_obj : nat -> option (list sample * string); l_file : string -> option (list sample) }.
Definition log0 : slog := mkSlog (fun _ => None) (fun _ => None).
Definition log_obj (l : slog) (o : nat) (L : list sample) (n : string) : slog :=
  mkSlog (fun m => if (m =? o)%nat then Some (L, n) else l_obj l m) (l_file l).
Definition log_save (l : slog) (o : nat) : slog :=
  match l_obj l o with
  | Some (L, n) => mkSlog (l_obj l) (fun m => if String.eqb m n then Some L else l_file l m)
  | None => l
  end.
Definition log_load (l : slog) (o : nat) (f : string) : slog :=
  match l_file l f with Some L => log_obj l o L f | None => l end.
Definition track1 (l : slog) (op : sop) : slog :=
  match op with
  | New o _ _ _ _ _ _ n None => log_obj l o [] n
  | New o _ _ _ _ _ _ _ (Some f) => log_load l o f
  | Sample o s => match l_obj l o with Some (L, n) => log_save (log_obj l o (L ++ [s]) n) o | None => l end
  | Get o => log_save l o
  | Reset o => match l_obj l o with Some (_, n) => log_obj l o [] n | None => l end
  | FromFile o f => log_load l o f
  end.
Definition track (ops : list sop) : slog := fold_left track1 ops log0.

(** Sensible use on a mesh of N0 = 2**M[0] planes of Ny x Nz points: the planes are dealt out
    evenly, only existing objects and files are used, no average of nothing is asked for *)
Definition ok1 (N0 Ny Nz : nat) (l : slog) (op : sop) : Prop :=
  match op with
  | New _ R N start ny nz M _ from =>
      ny = Ny /\ nz = Nz /\ M = N0 /\
      (exists n, (R * n)%nat = N0 /\ forall r, (r < R)%nat -> N r = n /\ start r = (r * n)%nat) /\
      (forall f, from = Some f -> l_file l f <> None)
  | Sample o _ => l_obj l o <> None
  | Get o => exists s L n, l_obj l o = Some (s :: L, n)
  | Reset o => l_obj l o <> None
  | FromFile o f => l_obj l o <> None /\ l_file l f <> None
  end.
Fixpoint ok_from (N0 Ny Nz : nat) (l : slog) (ops : list sop) : Prop :=
  match ops with [] => True | op :: ops => ok1 N0 Ny Nz l op /\ ok_from N0 Ny Nz (track1 l op) ops end.
Definition well_used (N0 Ny Nz : nat) (ops : list sop) : Prop := ok_from N0 Ny Nz log0 ops.

(** arithmetic mean over the fields of a list and the points of plane i *)
Definition plane_mean (Ny Nz : nat) (L : list gfield) (i : nat) : R :=
  RsumL L (fun f => Rsum Ny (fun j => Rsum Nz (fun k => f i j k))) / (INR (List.length L) * INR Ny * INR Nz).

Definition vel (i : ax3) (s : sample) : option gfield := Some (sU s i).
Definition cor (i j : ax3) (s : sample) : option gfield := Some (fun a b c => sU s i a b c * sU s j a b c).
Definition sca (s : sample) : option gfield := sS s.
Definition sca2 (s : sample) : option gfield := option_map (fun p a b c => p a b c * p a b c) (sS s).

(** what the datasets of the two demos mean *)
Open Scope string_scope.
Definition flow_datasets : list (string * (sample -> option gfield)) :=
  [("Average/U", vel x0); ("Average/V", vel x1); ("Average/W", vel x2);
   ("Reynolds Stress/UU", cor x0 x0); ("Reynolds Stress/VV", cor x1 x1); ("Reynolds Stress/WW", cor x2 x2);
   ("Reynolds Stress/UV", cor x0 x1); ("Reynolds Stress/UW", cor x0 x2); ("Reynolds Stress/VW", cor x1 x2)].
Definition mkm_datasets := ("Average/P", sca) :: flow_datasets.
Definition rb_datasets := ("Average/phi", sca) :: ("Reynolds Stress/pp", sca2) :: flow_datasets.
