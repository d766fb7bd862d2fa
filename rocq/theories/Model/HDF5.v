(** Model of spectralDNS/h5io/HDF5File.py.

    ShenfunFile (shenfun/mpi4py-fft/h5py) is outside the repository.  What is assumed of it:
    the constructor creates the file (mode 'w': empty; mode 'a': an existing file is kept),
    write(step, fields) replaces the datasets of that step, attrs assignments take effect one at a
    time.  Each of these is one operation [fop]; a crash happens between two operations.
    filemode 'r' (accepted by the parser, but then nothing can be written) is not modelled. *)
From Coq Require Import Reals ZArith List Bool.
Import ListNotations.
Open Scope R_scope.

(** HDF5File.py:68, 76; config.py:188-189 *)
Inductive filemode := ModeW | ModeA.

Section HDF5.
Context {Data RData : Type}.   (* contents of the arrays of one checkpoint key / of the results *)

(** HDF5File.py:66-89 *)
Inductive fop :=
  | CCreate (m : filemode)          (* self.cfile = ShenfunFile(filename+'_c', mode) *)
  | CAttrTstep (n : nat)            (* cfile.f.attrs['tstep'] = n *)
  | CAttrT (t : R)                  (* cfile.f.attrs['t'] = t *)
  | CWrite (key : nat) (d : Data)   (* cfile.write(int(key), fields) *)
  | WCreate (m : filemode)          (* self.wfile = ShenfunFile(filename+'_w', mode) *)
  | WComponents                     (* self.update_components: transforms before writing *)
  | WWrite (n : nat) (r : RData).   (* wfile.write(tstep, results) *)

(** The checkpoint file on disk *)
(** HDF5File.py:66-72 *)
Record cfile := mkC { c_data : nat -> option Data; c_tstep : option nat; c_t : option R }.
(** HDF5File.py:66-68 *)
Definition empty_c : cfile := mkC (fun _ => None) None None.

(** HDF5File.py:66-89 *)
Definition apply_op (f : cfile) (o : fop) : cfile :=
  match o with
  | CCreate ModeW => empty_c
  | CCreate ModeA => f
  | CAttrTstep n => mkC (c_data f) (Some n) (c_t f)
  | CAttrT t => mkC (c_data f) (c_tstep f) (Some t)
  | CWrite k d => mkC (fun j => if Nat.eqb j k then Some d else c_data f j) (c_tstep f) (c_t f)
  | _ => f
  end.
(** HDF5File.py:66-89 *)
Definition apply_ops (f : cfile) (l : list fop) : cfile := fold_left apply_op l f.

(** HDF5File.py:64-92 *)
Inductive h5_result := H5Ok | H5Exit | H5ZeroDivision.

(** HDF5File.py:84-89, the checkpoint loop over checkpoint['data'].items() *)
Definition checkpoint_ops (keys : list nat) (ck : nat -> Data) (tstep : nat) (t : R) : list fop :=
  flat_map (fun k : nat => [CWrite k (ck k); CAttrTstep tstep; CAttrT t]) keys.

(** params.tstep % every == 0; Python's % by zero raises *)
(** HDF5File.py:78, 83 *)
Definition divides (every : Z) (tstep : nat) : bool := Z.eqb (Z.of_nat tstep mod every) 0.

(** HDF5File.py:64-92 update: the operations performed, in order, and how it ends.
    [opened]: self.cfile and self.wfile are not None (they are set in the same call).
    [kill]: the value returned by check_if_kill. *)
Definition h5_update (mode : filemode) (write_result checkpoint : Z) (keys : list nat)
    (ck : nat -> Data) (res : RData) (opened kill : bool) (tstep : nat) (t : R) : list fop * h5_result :=
  let o1 := if opened then []
            else [CCreate mode; CAttrTstep 0; CAttrT 0; WCreate mode] in       (* l.65-76 *)
  if Z.eqb write_result 0 then (o1, H5ZeroDivision)                            (* l.78 *)
  else
    let o2 := if divides write_result tstep then [WComponents; WWrite tstep res] else [] in (* l.78-80 *)
    if Z.eqb checkpoint 0 then (o1 ++ o2, H5ZeroDivision)                      (* l.83 *)
    else if orb (divides checkpoint tstep) kill then
      (o1 ++ o2 ++ checkpoint_ops keys ck tstep t, if kill then H5Exit else H5Ok) (* l.84-92 *)
    else (o1 ++ o2, H5Ok).
End HDF5.
Arguments fop Data RData : clear implicits.
Arguments cfile Data : clear implicits.

(** check_if_kill, HDF5File.py:107-120 on all ranks: [visible] says for every rank whether
    'killspectraldns' is in its working directory.  Result per rank: [Some b] = returned b,
    [None] = os.remove raised FileNotFoundError. *)
Definition check_if_kill (visible : list bool) : list (option bool) :=
  let collective := fold_right (fun (b : bool) (n : nat) => (if b then 1 else 0) + n)%nat 0%nat visible in (* l.113 *)
  map (fun rb : nat * bool => let '(r, b) := rb in
         if Nat.ltb 0 collective then
           if Nat.eqb r 0 then (if b then Some true else None) (* l.115-116: rank 0 removes the file *)
           else Some true
         else Some false)
      (combine (seq 0 (length visible)) visible).

(** ** As the [output] of a run (Model/Run.v) *)
Section Output.
Context {V ctx Data RData : Type}.
(** HDF5File.py:57-62 *)
Record h5env := mkH5 {
  h_opened : bool;                     (* self.cfile is not None *)
  h_log : list (fop Data RData);       (* operations performed so far, oldest first *)
  h_file : cfile Data }.               (* the checkpoint file on disk *)
Context (mode : filemode) (write_result checkpoint : Z) (keys : list nat).
Context (fields : nat -> V -> ctx -> Data).            (* the arrays of checkpoint['data'][key] *)
Context (components : V -> ctx -> ctx * RData).        (* update_components, then the results arrays *)
Context (kill : nat -> bool).                          (* check_if_kill() at each tstep *)

(** context.hdf5file.update(params, **context), __init__.py:103.  An uncaught exception ends the
    run like sys.exit does: both are reported as [true]. *)
Definition h5_output (t : R) (tstep : nat) (u : V) (x : ctx * h5env) : ctx * h5env * bool :=
  let '(c, h) := x in
  let '(c', res) := if andb (negb (Z.eqb write_result 0)) (divides write_result tstep)
                    then components u c else (c, snd (components u c)) in
  let '(ops, r) := h5_update mode write_result checkpoint keys (fun k => fields k u c') res
                     (h_opened h) (kill tstep) tstep t in
  (c', mkH5 true (h_log h ++ ops) (apply_ops (h_file h) ops),
   match r with H5Ok => false | _ => true end).
End Output.
Arguments h5env Data RData : clear implicits.
