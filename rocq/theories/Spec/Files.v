(** Vocabulary of the statements about output files. *)
From Coq Require Import Reals ZArith List.
From Verif Require Import Base.Cplx Base.Fin Model.Maths Model.Integrators Model.Integrate Model.Solve Model.Run Model.HDF5.
Import ListNotations.
Open Scope R_scope.

(** The checkpoint file holds, for every key, the data of one and the same step, and the labels
    tstep and t of that step. *)
Definition holds {Data} (keys : list nat) (f : cfile Data) (n : nat) (t : R) (d : nat -> Data) : Prop :=
  c_tstep f = Some n /\ c_t f = Some t /\ forall k, In k keys -> c_data f k = Some (d k).
(** a number divides a step number *)
Definition multiple (every : Z) (n : nat) : Prop := (every | Z.of_nat n)%Z.

(** What the files are told at the end of step [n] (time t, checkpoint arrays d, results r):
    results if n is a multiple of [wr], after computing them; then, if n is a multiple of [cp] or
    the run is being killed, for every key the arrays followed by the labels tstep and t. *)
Definition scheduled {Data RData} (wr cp : Z) (keys : list nat) (kill : bool)
    (n : nat) (t : R) (d : nat -> Data) (r : RData) : list (fop Data RData) :=
  (if Z.eqb (Z.of_nat n mod wr) 0 then [WComponents; WWrite n r] else []) ++
  (if orb (Z.eqb (Z.of_nat n mod cp) 0) kill
   then flat_map (fun k => [CWrite k (d k); CAttrTstep n; CAttrT t]) keys else []).
(** the steps lo+1, ..., hi *)
Definition steps (lo hi : nat) : list nat := seq (S lo) (hi - lo).

(** a run whose output is an HDF5File; the states of such a run *)
Section Run.
Context {D I ctx Data RData : Type}.
Notation V := (svec D I).
Notation St := (lstate (world D I ctx (h5env Data RData))).
Definition env (s : St) : h5env Data RData := w_env (l_w s).
(** the operations that create both files *)
Definition creation (mode : filemode) : list (fop Data RData) :=
  [CCreate mode; CAttrTstep 0; CAttrT 0; WCreate mode].
(** the arrays to be checkpointed, as they are in state s *)
Definition data (fields : nat -> V -> ctx -> Data) (s : St) (k : nat) : Data :=
  fields k (solution (l_w s)) (s_ctx (w_st (l_w s))).
(** [r] are results computed from the solution in state s; when they are due the solver's buffers in s
    are those left by computing them *)
Definition results (components : V -> ctx -> ctx * RData) (wr : Z) (s : St) (r : RData) : Prop :=
  exists c, snd (components (solution (l_w s)) c) = r /\
    (multiple wr (l_tstep s) -> fst (components (solution (l_w s)) c) = s_ctx (w_st (l_w s))).
(** s is the state right after step n of a run that started in s0 *)
Definition after (reach : St -> nat -> St -> Prop) (stepped : St -> St -> Prop) (s0 : St) (n : nat) (s : St) : Prop :=
  l_tstep s = n /\ exists j s1, n = (l_tstep s0 + S j)%nat /\ reach s0 j s1 /\ stepped s1 s.
End Run.
(** the files have not been opened in this process; f is the checkpoint file on disk, if any *)
Definition fresh {Data RData} (h : h5env Data RData) (f : cfile Data) : Prop := h = mkH5 false [] f.

(** a one-step method *)
Definition one_step (g : integ) : Prop := g = IRK4 \/ g = IForwardEuler.
(** update() maps the solution by h, whatever else it does *)
Definition update_is {D I ctx E} (upd : R -> nat -> svec D I * svec D I * ctx * E -> svec D I * svec D I * ctx * E)
    (h : R -> nat -> svec D I -> svec D I) : Prop :=
  forall t n u r c e, fst (fst (fst (upd t n (u, r, c, e)))) = h t n u.
(** same time, step size, step number and solution *)
Definition same_state {D I c1 e1 c2 e2} (a : lstate (world D I c1 e1)) (b : lstate (world D I c2 e2)) : Prop :=
  l_t a = l_t b /\ l_dt a = l_dt b /\ l_tstep a = l_tstep b /\ solution (l_w a) = solution (l_w b).
