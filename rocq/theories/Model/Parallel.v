(** The program run by every rank: solve() with its integrators, output and profiling, seen as a
    sequence of local computations and collective calls.

    [S] is everything a rank holds (arrays, buffers, clock), of any type; what a rank computes
    locally is arbitrary and may depend on the rank.  A [phase] is one collective redistribution
    (inside a transform, or a collective file access).  ComputeRHS, solver.update,
    update_components, the file writes and regression_test are straight-line sequences of phases:
    which calls they make may depend on t and tstep, not on the data.
    Not modelled: additional_callback, NaN, the error norm "inf" (raises, integrators.py:102). *)
From Coq Require Import Reals List Bool Arith.
From Verif Require Import Base.Sums Spec.Mpi Model.Integrators.
Import ListNotations.
Open Scope R_scope.

Section Parallel.
Context {S M : Type}.
Record phase := mkPhase { ph_tag : nat; ph_send : nat -> S -> M; ph_recv : nat -> S -> M -> S }.
Fixpoint run_phases (rank : nat) (phs : list phase) (s : S) : prog M S :=
  match phs with
  | [] => Ret s
  | p :: phs => Coll (RXch (ph_tag p) (ph_send p rank s)) (fun v =>
      match v with VXch m => run_phases rank phs (ph_recv p rank s m) | _ => Crash end)
  end.

(** ** adaptiveRK, integrators.py:14-147 *)
Record adaptive_code := mkAd {
  ad_s : nat; ad_fsal : bool; ad_adaptive : bool;
  ad_rotate : nat -> S -> S;                       (* l.62-63, rank *)
  ad_form : nat -> nat -> R -> S -> S;             (* l.66-68, rank, stage i, dt *)
  ad_store : nat -> nat -> S -> S;                 (* l.71, rank, stage i *)
  ad_new : nat -> R -> S -> S;                     (* l.78-84, 87: u0_new, err, sc; rank, dt *)
  ad_comps : nat;                                  (* u0.shape[0] *)
  ad_nsq : nat -> nat -> S -> R;                   (* np.sum(np.power(np.abs(err[k]/sc[k]), 2)), rank, k *)
  ad_size : nat -> R;                              (* np.array(context.T.shape(True)).prod(): local, by rank *)
  ad_reject : nat -> S -> S;                       (* l.131-137 *)
  ad_accept : nat -> S -> S }.                     (* l.146 *)
Context (rhs_ph : list phase).                     (* solver.ComputeRHS *)

Section Adaptive.
Context (d : adaptive_code).
(** l.64-71 *)
Fixpoint stages_prog (rank tstep : nat) (dt : R) (is : list nat) (s : S) : prog M S :=
  match is with
  | [] => Ret s
  | i :: is =>
      if orb (negb (ad_fsal d)) (orb (Nat.eqb tstep 0) (negb (Nat.eqb i 0)))
      then bind (run_phases rank rhs_ph (ad_form d rank i dt s)) (fun s => stages_prog rank tstep dt is (ad_store d rank i s))
      else stages_prog rank tstep dt is s
  end.
(** l.91-92: for k in range(u0.shape[0]): nsquared[k] = comm.reduce(...) *)
Fixpoint reduce_prog (rank : nat) (ks : list nat) (s : S) (acc : list (option R)) : prog M (list (option R)) :=
  match ks with
  | [] => Ret acc
  | k :: ks => Coll (RReduce OpSum (ad_nsq d rank k s)) (fun v =>
      match v with VReduce x => reduce_prog rank ks s (acc ++ [x]) | _ => Crash end)
  end.
Fixpoint all_some (l : list (option R)) : option (list R) :=
  match l with
  | [] => Some []
  | Some x :: l => match all_some l with Some l => Some (x :: l) | None => None end
  | None :: _ => None
  end.
(** l.95-96: np.max(np.sqrt(nsquared)) / np.sqrt(size); the roots are not negative *)
Definition est_value (nsquared : list R) (size : R) : R := fold_right Rmax 0 (map sqrt nsquared) / sqrt size.
(** l.86-99 *)
Definition est_prog (rank : nat) (s : S) : prog M R :=
  bind (reduce_prog rank (seq 0 (ad_comps d)) s []) (fun nsq =>
  let mine := if Nat.eqb rank 0
              then match all_some nsq with Some l => Some (Some (est_value l (ad_size d rank))) | None => None end
              else Some None in
  match mine with
  | None => Crash
  | Some x => Coll (RBcast x) (fun v => match v with VBcast e => Ret e | _ => Crash end)
  end).
(** one attempted step as seen by a rank: dt, est *)
(** integrators.py:60-143 *)
Definition tried := (R * R)%type.
(** l.60-147; returns (attempts, dt, dt_prev, state); None: not finished after [fuel] passes *)
Fixpoint adaptive_prog (fuel : nat) (rank tstep : nat) (dt facmax : R) (hist : list tried) (s : S)
    : prog M (list tried * option (R * R) * S) :=
  match fuel with
  | O => Ret (hist, None, s)
  | Datatypes.S fuel =>
      let dt_prev := dt in
      let s := if ad_fsal d then ad_rotate d rank s else s in
      bind (stages_prog rank tstep dt (seq 0 (ad_s d)) s) (fun s =>
      let s := ad_new d rank dt s in
      bind (est_prog rank s) (fun est =>
      let hist := hist ++ [(dt, est)] in
      if ad_adaptive d then
        let dt := dt * factor facmax est in
        if Rlt_dec 1 est then adaptive_prog fuel rank tstep dt 1 hist (ad_reject d rank s)
        else Ret (hist, Some (dt, dt_prev), ad_accept d rank s)
      else Ret (hist, Some (dt, dt_prev), ad_accept d rank s)))
  end.
End Adaptive.

(** ** RK4, ForwardEuler, AB2, integrators.py:149-175: ComputeRHS and a local update, so many times *)
Fixpoint fixed_prog (local : nat -> nat -> nat -> R -> S -> S) (rank tstep : nat) (dt : R) (is : list nat) (s : S) : prog M S :=
  match is with
  | [] => Ret s
  | i :: is => bind (run_phases rank rhs_ph s) (fun s => fixed_prog local rank tstep dt is (local rank i tstep dt s))
  end.
Inductive integ_code := Adaptive (d : adaptive_code) | Fixed (stages : nat) (local : nat -> nat -> nat -> R -> S -> S).
Definition integrate_prog (g : integ_code) (fuel rank tstep : nat) (dt : R) (s : S) : prog M (list tried * option (R * R) * S) :=
  match g with
  | Adaptive d => adaptive_prog d fuel rank tstep dt facmax_default [] s
  | Fixed n local => bind (fixed_prog local rank tstep dt (seq 0 n) s) (fun s => Ret ([], Some (dt, dt), s))
  end.

(** ** h5io/HDF5File.py *)
(** HDF5File.py:64-92 *)
Record file_code := mkFile {
  fc_open : list phase;               (* update l.67-77, first call *)
  fc_write : nat -> list phase;       (* update_components and wfile.write, l.79-81; tstep *)
  fc_wr : nat; fc_ck : nat;           (* params.write_result, params.checkpoint *)
  fc_seen : nat -> nat -> S -> bool;  (* 'killspectraldns' in os.listdir, by rank and tstep *)
  fc_ckpt : R -> nat -> list phase;   (* l.85-90 *)
  fc_close : list phase }.            (* close, l.101-105 *)
(** check_if_kill, l.108-120; os.remove on rank 0 is a local effect *)
Definition kill_prog (f : file_code) (rank tstep : nat) (s : S) : prog M bool :=
  Coll (RAllreduce (if fc_seen f rank tstep s then 1 else 0)) (fun v =>
    match v with VAllreduce x => Ret (Nat.ltb 0 x) | _ => Crash end).
(** update, l.66-93; the result tells whether sys.exit(1) was called *)
Definition hdf5_prog (f : file_code) (rank : nat) (opened : bool) (t : R) (tstep : nat) (s : S) : prog M (bool * S) :=
  bind (if opened then Ret s else run_phases rank (fc_open f) s) (fun s =>
  bind (if Nat.eqb (tstep mod fc_wr f) 0 then run_phases rank (fc_write f tstep) s else Ret s) (fun s =>
  bind (kill_prog f rank tstep s) (fun kill =>
  if orb (Nat.eqb (tstep mod fc_ck f) 0) kill
  then bind (run_phases rank (fc_ckpt f t tstep) s) (fun s => Ret (kill, s))
  else Ret (kill, s)))).

(** ** utilities: Timer.final (__init__.py:41-68) and create_profile (create_profile.py:10-75) *)
Fixpoint reduces (qs : list (rop * R)) {A} (p : prog M A) : prog M A :=
  match qs with
  | [] => p
  | (op, x) :: qs => Coll (RReduce op x) (fun v => match v with VReduce _ => reduces qs p | _ => Crash end)
  end.
Definition final_prog {A} (fastest slowest : R) (p : prog M A) : prog M A :=
  reduces [(OpMin, fastest); (OpMin, slowest); (OpMax, fastest); (OpMax, slowest)] p.
(** for every listed method that this rank has called: its times (val[2], val[3]) *)
(** create_profile.py:10-74 *)
Fixpoint profile_prog {A} (items : list (R * R)) (p : prog M A) : prog M A :=
  match items with
  | [] => p
  | (tot, cum) :: items => reduces [(OpMin, tot); (OpMax, tot); (OpMin, cum); (OpMax, cum)] (profile_prog items p)
  end.

(** ** solve, spectralDNS/__init__.py:69-123 *)
Record solve_code := mkCode {
  sc_integ : integ_code; sc_file : file_code;
  sc_update : R -> nat -> list phase;                 (* solver.update: t, tstep *)
  sc_tick : nat -> S -> S;                            (* solver.timer(), rank *)
  sc_end : R -> R -> bool * R;                        (* solver.end_of_tstep: t, dt *)
  sc_rot : nat -> S -> S;                             (* its effect on the arrays, rank *)
  sc_times : nat -> S -> R * R;                       (* fastest, slowest *)
  sc_profile : option (nat -> S -> list (R * R));     (* params.make_profile: methods called, by rank *)
  sc_regression : list phase }.
(** __init__.py:94-123 *)
Inductive status := Finished | Killed | NoFile | OutOfFuel.
(** what a rank has decided: how it stopped, t, dt, tstep, steps attempted (dt, est) in each time step *)
(** __init__.py:94-123 *)
Record decisions := mkDec { de_status : status; de_t : R; de_dt : R; de_tstep : nat; de_tried : list (list tried) }.

Context (c : solve_code) (rnd : R -> R) (eps T : R).
(** l.114-123; hdf5file.close() raises when no step was made *)
Definition finish_prog (rank : nat) (dt_in t : R) (tstep : nat) (opened : bool) (hist : list (list tried)) (s : S)
    : prog M (decisions * S) :=
  let '(fa, sl) := sc_times c rank s in
  final_prog fa sl
   (let p := bind (run_phases rank (sc_regression c) s) (fun s =>
       if opened then bind (run_phases rank (fc_close (sc_file c)) s) (fun s => Ret (mkDec Finished t dt_in tstep hist, s))
       else Ret (mkDec NoFile t dt_in tstep hist, s)) in
    match sc_profile c with Some items => profile_prog (items rank s) p | None => p end).
Fixpoint loop_prog (fuel afuel rank : nat) (dt_in t dt : R) (tstep : nat) (opened : bool) (hist : list (list tried)) (s : S)
    : prog M (decisions * S) :=
  match fuel with
  | O => Ret (mkDec OutOfFuel t dt tstep hist, s)
  | Datatypes.S fuel =>
    if Rle_dec (rnd (t + dt)) (rnd (T + eps)) then                                     (* l.94 *)
      bind (integrate_prog (sc_integ c) afuel rank tstep dt s) (fun r =>               (* l.96 *)
      let '(tr, res, s) := r in
      let hist := hist ++ [tr] in
      match res with
      | None => Ret (mkDec OutOfFuel t dt tstep hist, s)
      | Some (dt, took) =>
        let t := rnd (t + took) in                                                     (* l.98 *)
        let tstep := Datatypes.S tstep in                                              (* l.99 *)
        bind (run_phases rank (sc_update c t tstep) s) (fun s =>                       (* l.101 *)
        bind (hdf5_prog (sc_file c) rank opened t tstep s) (fun r =>                   (* l.103 *)
        let '(kill, s) := r in
        if kill then Ret (mkDec Killed t dt tstep hist, s)
        else
          let s := sc_tick c rank s in                                                 (* l.105 *)
          let '(brk, dt) := sc_end c t dt in                                           (* l.111 *)
          let s := sc_rot c rank s in
          if brk then finish_prog rank dt_in t tstep true hist s
          else loop_prog fuel afuel rank dt_in t dt tstep true hist s))
      end)
    else finish_prog rank dt_in t tstep opened hist s
  end.
Definition solve_prog (fuel afuel : nat) (t dt : R) (tstep : nat) (rank : nat) (s : S) : prog M (decisions * S) :=
  loop_prog fuel afuel rank dt t dt tstep false [] s.
End Parallel.
Arguments phase : clear implicits.
Arguments mkPhase {S M}.
Arguments solve_code : clear implicits.
Arguments adaptive_code : clear implicits.
Arguments integ_code : clear implicits.
Arguments file_code : clear implicits.
