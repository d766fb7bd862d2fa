(** Model of the statistics classes of the channel demos:
    demo/MKM.py:177-256 and demo/RayleighBenard.py:89-177 class Stats.

    All methods are called collectively; the model executes them on all ranks of the communicator
    at once.  num_samples has the same value on all ranks and is kept once.  Accumulators are
    functions of the quantity, the rank and the local plane; an entry is [None] when it is not a
    number (division by zero samples).  Floating point rounding and the dtype of the datasets are
    not modelled, nor are the locks of h5py.  [None] as result of an operation is an exception. *)
From Coq Require Import Reals List String Bool Arith.
From Verif Require Import Base.Sums Base.Fin Spec.Averages.
Import ListNotations.
Open Scope R_scope.

Definition num := option R.
Definition nadd (x y : num) : num := match x, y with Some a, Some b => Some (a + b) | _, _ => None end.
Definition ndiv (x : num) (n : nat) : num := match x with Some a => if (n =? 0)%nat then None else Some (a / INR n) | None => None end.
Definition nmul (x : num) (n : nat) : num := match x with Some a => Some (a * INR n) | None => None end.

(** an HDF5 file opened with driver mpio: datasets of one length by path, attribute num_samples *)
(** MKM.py:193-200, 231 *)
Record sfile := mkSfile { f_size : nat; f_data : string -> option (nat -> num); f_num : option nat }.
(** MKM.py:193, 224, 246 *)
Definition sfiles := string -> option sfile.

(** one Stats object over the ranks of comm.  o_N: self.shape[0] of a rank; o_start: first plane of
    U of a rank (the decomposition of shenfun); o_M: 2**config.params.M[0]; o_open: f0 is not None *)
(** MKM.py:179-188 *)
Record stats {Q : Type} := mkStats {
  o_R : nat; o_N : nat -> nat; o_start : nat -> nat; o_Ny : nat; o_Nz : nat; o_M : nat;
  o_num : nat; o_acc : Q -> nat -> nat -> num; o_name : string; o_open : bool }.
Arguments stats : clear implicits.
Arguments mkStats {Q}.

Section Stats.
Context {Q : Type}.
(** what a class adds to an accumulator, the paths it creates, writes and reads *)
Context (ev : Q -> sample -> option gfield) (created : list string) (written read : list (Q * string)).

(** MKM l.179-190, RB l.91-104; [fromstats] is handled by the caller below *)
Definition new_stats (R : nat) (N start : nat -> nat) (Ny Nz M : nat) (filename : string) : stats Q :=
  mkStats R N start Ny Nz M 0 (fun _ _ _ => Some 0) filename false.

(** MKM l.192-200, RB l.106-115: h5py.File(.., "w"); create_dataset fills with 0 *)
Definition create_statsfile (o : stats Q) : sfile :=
  mkSfile (o_M o) (fun p => if existsb (String.eqb p) created then Some (fun _ => Some 0) else None) None.

(** self.f0[path][s] = v on all ranks, s = slice(rank*N, (rank+1)*N); ranks in order *)
(** MKM.py:216-217, 227-230 *)
Fixpoint write_rows (R : nat) (N : nat -> nat) (v : nat -> nat -> num) (d : nat -> num) : nat -> num :=
  match R with
  | O => d
  | S r => let d := write_rows r N v d in
           fun i => if andb (r * N r <=? i)%nat (i <? S r * N r)%nat then v r (i - r * N r)%nat else d i
  end.
(** MKM.py:217, 227 *)
Definition fits (R : nat) (N : nat -> nat) (size : nat) : bool :=
  forallb (fun r => S r * N r <=? size)%nat (seq 0 R).
(** MKM.py:227-230 *)
Definition write_path (o : stats Q) (n : nat) (f : option sfile) (qp : Q * string) : option sfile :=
  match f with
  | None => None
  | Some f =>
    match f_data f (snd qp) with
    | None => None                                                          (* KeyError *)
    | Some d => if fits (o_R o) (o_N o) (f_size f)
        then Some (mkSfile (f_size f) (fun p => if String.eqb p (snd qp)
                     then Some (write_rows (o_R o) (o_N o) (fun r i => ndiv (o_acc o (fst qp) r i) n) d)
                     else f_data f p) (f_num f))
        else None                                                           (* shape mismatch *)
    end
  end.
(** MKM.py:218 *)
Definition Nd (o : stats Q) : nat := (o_num o * o_Ny o * o_Nz o)%nat.

(** get_stats(tofile=True): MKM l.215-236, RB l.130-153 *)
Definition get_stats (fs : sfiles) (o : stats Q) : option (sfiles * stats Q) :=
  let f := if o_open o then fs (o_name o) else Some (create_statsfile o) in
  match fold_left (write_path o (Nd o)) written f with
  | None => None
  | Some f => Some (fun n => if String.eqb n (o_name o) then Some (mkSfile (f_size f) (f_data f) (Some (o_num o))) else fs n,
                    mkStats (o_R o) (o_N o) (o_start o) (o_Ny o) (o_Nz o) (o_M o) (o_num o) (o_acc o) (o_name o) true)
  end.
(** the arrays returned with one process: MKM l.234-235, RB l.151-152 *)
Definition returned (o : stats Q) (q : Q) (i : nat) : num := ndiv (o_acc o q 0%nat i) (Nd o).

(** __call__: MKM l.202-213, RB l.117-128; U, P are the local parts of the sample *)
Definition accumulate (o : stats Q) (s : sample) : stats Q :=
  mkStats (o_R o) (o_N o) (o_start o) (o_Ny o) (o_Nz o) (o_M o) (S (o_num o))
    (fun q r i => match ev q s with
                  | Some f => nadd (o_acc o q r i) (Some (Rsum (o_Ny o) (fun j => Rsum (o_Nz o) (fun k => f (o_start o r + i)%nat j k))))
                  | None => o_acc o q r i end)
    (o_name o) (o_open o).
Definition call (fs : sfiles) (o : stats Q) (s : sample) : option (sfiles * stats Q) := get_stats fs (accumulate o s).

(** reset_stats: MKM l.238-242, RB l.155-160 *)
Definition reset_stats (o : stats Q) : stats Q :=
  mkStats (o_R o) (o_N o) (o_start o) (o_Ny o) (o_Nz o) (o_M o) 0 (fun _ _ _ => Some 0) (o_name o) (o_open o).

(** self.Umean[i, :] = self.f0[path][s]*Nd on all ranks *)
(** MKM.py:250-255 *)
Definition read_path (f : sfile) (n : nat) (o : option (stats Q)) (eqq : Q -> Q -> bool) (qp : Q * string) : option (stats Q) :=
  match o with
  | None => None
  | Some o =>
    match f_data f (snd qp) with
    | None => None
    | Some d => if fits (o_R o) (o_N o) (f_size f)
        then Some (mkStats (o_R o) (o_N o) (o_start o) (o_Ny o) (o_Nz o) (o_M o) (o_num o)
               (fun q r i => if eqq q (fst qp) then nmul (d (r * o_N o r + i)%nat) n else o_acc o q r i) (o_name o) (o_open o))
        else None
    end
  end.
(** fromfile: MKM l.244-256, RB l.162-177 *)
Definition fromfile (eqq : Q -> Q -> bool) (fs : sfiles) (o : stats Q) (filename : string) : option (stats Q) :=
  match fs filename with
  | None => None                                     (* a new empty file has no attribute *)
  | Some f =>
    match f_num f with
    | None => None
    | Some n =>
      let o := mkStats (o_R o) (o_N o) (o_start o) (o_Ny o) (o_Nz o) (o_M o) n (o_acc o) filename true in
      fold_left (fun o' qp => read_path f (Nd o) o' eqq qp) read (Some o)
    end
  end.

(** The calls of Spec/Averages.v on objects sharing a disk *)
(** MKM.py:179-256 *)
Record sworld := mkSworld { w_objs : nat -> option (stats Q); w_files : sfiles }.
(** MKM.py:179-256, before any call *)
Definition sw0 : sworld := mkSworld (fun _ => None) (fun _ => None).
(** MKM.py:179-256 *)
Definition setobj (w : sworld) (n : nat) (o : stats Q) (fs : sfiles) : sworld :=
  mkSworld (fun m => if (m =? n)%nat then Some o else w_objs w m) fs.
(** MKM.py:179-256 *)
Definition sstep (eqq : Q -> Q -> bool) (w : sworld) (op : sop) : option sworld :=
  match op with
  | New n R N start Ny Nz M filename from =>
      let o := new_stats R N start Ny Nz M filename in
      match from with
      | None => Some (setobj w n o (w_files w))
      | Some f => match fromfile eqq (w_files w) o f with Some o => Some (setobj w n o (w_files w)) | None => None end
      end
  | Sample n s => match w_objs w n with
      | Some o => match call (w_files w) o s with Some (fs, o) => Some (setobj w n o fs) | None => None end | None => None end
  | Get n => match w_objs w n with
      | Some o => match get_stats (w_files w) o with Some (fs, o) => Some (setobj w n o fs) | None => None end | None => None end
  | Reset n => match w_objs w n with Some o => Some (setobj w n (reset_stats o) (w_files w)) | None => None end
  | FromFile n f => match w_objs w n with
      | Some o => match fromfile eqq (w_files w) o f with Some o => Some (setobj w n o (w_files w)) | None => None end | None => None end
  end.
(** MKM.py:179-256 *)
Fixpoint sruns (eqq : Q -> Q -> bool) (w : sworld) (ops : list sop) : option sworld :=
  match ops with [] => Some w | op :: ops => match sstep eqq w op with Some w => sruns eqq w ops | None => None end end.
End Stats.
Arguments sworld : clear implicits.
Arguments mkSworld {Q}.

Open Scope string_scope.
(** demo/MKM.py: Umean[i], Pmean, UU[j] *)
(** MKM.py:181-183 *)
Inductive mkmq := qU (i : ax3) | qP | qUU (i j : ax3).
(** MKM.py:207-212 *)
Definition prod (f g : gfield) : gfield := fun i j k => f i j k * g i j k.
(** l.204-212; UU[0..5] are the pairs (0,0) (1,1) (2,2) (0,1) (0,2) (1,2), other pairs are not stored *)
Definition mkm_ev (q : mkmq) (s : sample) : option gfield :=
  match q with
  | qU i => Some (sU s i)
  | qP => sS s
  | qUU i j => Some (prod (sU s i) (sU s j))
  end.
Definition mkm_created : list string :=                               (* l.196-200 *)
  ["Average/U"; "Average/V"; "Average/W"; "Average/P";
   "Reynolds Stress/UU"; "Reynolds Stress/VV"; "Reynolds Stress/WW";
   "Reynolds Stress/UV"; "Reynolds Stress/UW"; "Reynolds Stress/VW"].
Definition mkm_written : list (mkmq * string) :=                      (* l.226-230 *)
  [(qU x0, "Average/U"); (qU x1, "Average/V"); (qU x2, "Average/W"); (qP, "Average/P");
   (qUU x0 x0, "Reynolds Stress/UU"); (qUU x1 x1, "Reynolds Stress/VV"); (qUU x2 x2, "Reynolds Stress/WW");
   (qUU x0 x1, "Reynolds Stress/UV"); (qUU x0 x2, "Reynolds Stress/UW"); (qUU x1 x2, "Reynolds Stress/VW")].
Definition mkm_read : list (mkmq * string) :=                         (* l.251-255 *)
  [(qU x0, "Average/U"); (qU x1, "Average/V"); (qU x2, "Average/W"); (qP, "Average/P");
   (qUU x0 x0, "Reynolds Stress/UU"); (qUU x1 x1, "Reynolds Stress/VV"); (qUU x2 x2, "Reynolds Stress/WW");
   (qUU x0 x1, "Reynolds Stress/UV"); (qUU x0 x2, "Reynolds Stress/UW"); (qUU x1 x2, "Reynolds Stress/VW")].
Definition mkm_eqq (a b : mkmq) : bool :=
  match a, b with
  | qU i, qU j => eqb3 i j | qP, qP => true | qUU i j, qUU k l => andb (eqb3 i k) (eqb3 j l) | _, _ => false end.

(** demo/RayleighBenard.py: additionally phim and pp *)
(** RayleighBenard.py:93-97 *)
Inductive rbq := rU (i : ax3) | rphi | rUU (i j : ax3) | rpp.
(** RayleighBenard.py:119-127 *)
Definition rb_ev (q : rbq) (s : sample) : option gfield :=            (* l.119-127 *)
  match q with
  | rU i => Some (sU s i)
  | rphi => sS s
  | rUU i j => Some (prod (sU s i) (sU s j))
  | rpp => match sS s with Some p => Some (prod p p) | None => None end
  end.
Definition rb_created : list string :=                                (* l.111-115 *)
  ["Average/U"; "Average/V"; "Average/W"; "Average/phi";
   "Reynolds Stress/UU"; "Reynolds Stress/VV"; "Reynolds Stress/WW";
   "Reynolds Stress/UV"; "Reynolds Stress/UW"; "Reynolds Stress/VW"; "Reynolds Stress/pp"].
Definition rb_written : list (rbq * string) :=                        (* l.142-147 *)
  [(rU x0, "Average/U"); (rU x1, "Average/V"); (rU x2, "Average/W"); (rphi, "Average/phi");
   (rUU x0 x0, "Reynolds Stress/UU"); (rUU x1 x1, "Reynolds Stress/VV"); (rUU x2 x2, "Reynolds Stress/WW");
   (rUU x0 x1, "Reynolds Stress/UV"); (rUU x0 x2, "Reynolds Stress/UW"); (rUU x1 x2, "Reynolds Stress/VW");
   (rpp, "Reynolds Stress/pp")].
Definition rb_read : list (rbq * string) :=                           (* l.171-176 *)
  [(rU x0, "Average/U"); (rU x1, "Average/V"); (rU x2, "Average/W"); (rphi, "Average/phi");
   (rUU x0 x0, "Reynolds Stress/UU"); (rUU x1 x1, "Reynolds Stress/VV"); (rUU x2 x2, "Reynolds Stress/WW");
   (rUU x0 x1, "Reynolds Stress/UV"); (rUU x0 x2, "Reynolds Stress/UW"); (rUU x1 x2, "Reynolds Stress/VW");
   (rpp, "Reynolds Stress/pp")].
Definition rb_eqq (a b : rbq) : bool :=
  match a, b with
  | rU i, rU j => eqb3 i j | rphi, rphi => true | rUU i j, rUU k l => andb (eqb3 i k) (eqb3 j l) | rpp, rpp => true | _, _ => false end.
