(** The update callbacks of the demos: which arrays they refresh, and from which step the data are that
    they print, plot or sample.

    The values are not modelled.  An array of the context carries the number of the step in which it was
    last computed from the solution ([stamp]); solver.get_velocity, get_curl, get_pressure, get_rho and
    phi_hat.backward refresh it; nothing else in a step of these solvers writes it except
    hdf5file.update (HDF5File.py:78-80), after update.  [seen] lists what is read for a diagnostic.
    A local variable that has not been assigned raises UnboundLocalError, a figure that was never created
    AttributeError (or NameError), % 0 ZeroDivisionError.  What is drawn, other uses of params, and
    reductions over the ranks are not modelled.  The vocabulary below serves demo/*.py:update and has no
    counterpart of its own; an array counts as current also when the flux controller (MKM.py:100-108)
    changed its mean after the transform. *)
From Coq Require Import ZArith List Bool.
Import ListNotations.
Open Scope Z_scope.

Inductive arr := U0 | U1 | U2 | Curl | Pres | Phi.     (* Phi: temperature or density; demo/RayleighBenard.py:38, demo/KelvinHelmoltzBoussinesq.py:28-30 *)
Inductive diag := Energy | Plot | Sample | Flux.
Inductive exn := ZeroDivisionError | UnboundLocalError | NoFigure.
Definition arr_eqb (a b : arr) : bool :=
  match a, b with
  | U0, U0 | U1, U1 | U2, U2 | Curl, Curl | Pres, Pres | Phi, Phi => true
  | _, _ => false
  end.

Record ust := mkU {
  stamp : arr -> Z;                    (* step the data of the array belong to *)
  fig : bool;                          (* the module's figure objects exist *)
  bound : list arr;                    (* local variables assigned in this call *)
  seen : list (diag * arr * Z) }.      (* diagnostics of this call, newest first; demo/MKM.py:89-167 *)

Inductive out A := Ret (a : A) (s : ust) | Exc (e : exn) (s : ust).
Arguments Ret {A}. Arguments Exc {A}.
Definition act A := ust -> out A.
Definition bind {A B} (m : act A) (f : A -> act B) : act B := fun s =>
  match m s with Ret a s => f a s | Exc e s => Exc e s end.
Definition ret {A} (a : A) : act A := fun s => Ret a s.
Definition seq {A B} (m : act A) (n : act B) : act B := bind m (fun _ => n).
Definition skip : act unit := ret tt.
(** Python's short-circuit [and], [or], and [if] without else, as in demo/TG.py:48-53 *)
Definition cand (a b : act bool) : act bool := bind a (fun x => if x then b else ret false).
Definition cor (a b : act bool) : act bool := bind a (fun x => if x then ret true else b).
Definition pif (c : act bool) (m : act unit) : act unit := bind c (fun x => if x then m else skip).
(** demo/TG.py:48-49, tstep % p: ZeroDivisionError for p = 0, otherwise the sign of p; [hits] is tstep % p == 0 *)
Definition hits (tstep p : Z) : act bool := fun s =>
  if p =? 0 then Exc ZeroDivisionError s else Ret (tstep mod p =? 0) s.
Definition pos (p : Z) : act bool := ret (0 <? p).
Definition refresh1 (tstep : Z) (a : arr) : act unit := fun s =>
  Ret tt (mkU (fun b => if arr_eqb a b then tstep else stamp s b) (fig s) (a :: bound s) (seen s)).
Fixpoint refresh (tstep : Z) (l : list arr) : act unit :=
  match l with [] => skip | a :: l => seq (refresh1 tstep a) (refresh tstep l) end.
(** U = c.U at the top of the callback, demo/MKM.py:95 *)
Fixpoint bindlocal (l : list arr) : act unit :=
  match l with
  | [] => skip
  | a :: l => seq (fun s => Ret tt (mkU (stamp s) (fig s) (a :: bound s) (seen s))) (bindlocal l)
  end.
(** reading a field of the context, or a local variable, demo/TG.py:77-109 *)
Definition field (d : diag) (a : arr) : act unit := fun s =>
  Ret tt (mkU (stamp s) (fig s) (bound s) ((d, a, stamp s a) :: seen s)).
Definition local (d : diag) (a : arr) : act unit := fun s =>
  if existsb (arr_eqb a) (bound s) then field d a s else Exc UnboundLocalError s.
Fixpoint fields (d : diag) (l : list arr) : act unit :=
  match l with [] => skip | a :: l => seq (field d a) (fields d l) end.
Fixpoint locals (d : diag) (l : list arr) : act unit :=
  match l with [] => skip | a :: l => seq (local d a) (locals d l) end.
Definition newfig : act unit := fun s => Ret tt (mkU (stamp s) true (bound s) (seen s)).
Definition needfig : act unit := fun s => if fig s then Ret tt s else Exc NoFigure s.
Definition nofig : act bool := fun s => Ret (negb (fig s)) s.
Definition enter (s : ust) : ust := mkU (stamp s) (fig s) [] [].
Definition U3 := [U0; U1; U2].

Section Demos.
Context (rank0 plt : bool).            (* solver.rank == 0; matplotlib was imported *)
Context (tstep : Z).

(** demo/TG.py:41-118; [ns]: 'NS' in params.solver *)
Definition update_TG (ns : bool) (compute_energy plot_step : Z) : act unit :=
  seq (pif (cor (hits tstep compute_energy) (cand (hits tstep plot_step) (pos plot_step)))     (* l.48-53 *)
         (seq (refresh tstep U3) (seq (refresh tstep [Curl]) (if ns then refresh tstep [Pres] else skip))))
  (seq (pif (ret plt)                                                                          (* l.55-67 *)
         (pif (cand (cand (hits tstep plot_step) (ret rank0)) (pos plot_step))
           (seq (local Plot U0) newfig)))
       (pif (hits tstep compute_energy)                                                        (* l.77-109 *)
         (seq (locals Energy [Curl; U0; U1; U2]) (if ns then skip else fields Energy U3)))).

(** demo/TG2D.py:20-37 *)
Definition update_TG2D (plot_result : Z) : act unit :=
  pif (ret plt)
    (seq (pif (ret (tstep =? 1)) newfig)
         (pif (cand (hits tstep plot_result) (pos plot_result))
           (seq (refresh tstep [Curl]) (seq needfig (local Plot Curl))))).

(** demo/Vortices2D.py:27-42 *)
Definition update_Vortices2D (plot_result : Z) : act unit :=
  seq (pif (ret (tstep =? 1)) newfig)
      (pif (cand (hits tstep plot_result) (pos plot_result))
        (seq (refresh tstep [Curl]) (seq needfig (local Plot Curl)))).

(** demo/KelvinHelmholtz.py:36-83 *)
Definition update_KH (plot_result compute_energy : Z) : act unit :=
  seq (pif (cand (hits tstep plot_result) (pos plot_result)) (refresh tstep [Pres; Curl]))     (* l.41-43 *)
  (seq (pif (hits tstep compute_energy) (seq (refresh tstep [U0; U1]) (locals Energy [U0; U1]))) (* l.45-51 *)
  (seq (pif (cand (ret (tstep =? 1)) (pos plot_result)) newfig)                                (* l.53-71 *)
       (pif (cand (hits tstep plot_result) (pos plot_result))                                  (* l.73-83 *)
         (seq (seq needfig (local Plot Pres)) (local Plot Curl))))).

(** demo/KelvinHelmoltzBoussinesq.py:22-65 *)
Definition update_KHB (plot_result compute_energy : Z) : act unit :=
  seq (pif (cand (hits tstep plot_result) (pos plot_result)) (refresh tstep [Curl; Phi]))      (* l.28-30 *)
  (seq (pif (cand (ret (tstep =? 1)) (pos plot_result)) newfig)                                (* l.32-50 *)
  (seq (pif (cand (hits tstep plot_result) (pos plot_result))                                  (* l.52-58 *)
         (seq (seq needfig (local Plot Phi)) (local Plot Curl)))
       (pif (hits tstep compute_energy) (seq (refresh tstep [U0; U1]) (locals Energy [U0; U1]))))). (* l.60-64 *)

(** demo/Vortices.py:29-64 *)
Definition update_Vortices (plot_step : Z) : act unit :=
  seq (bindlocal U3)                                                                           (* l.34 *)
  (seq (pif (cor (cand (hits tstep plot_step) (pos plot_step)) (ret (tstep =? 1)))             (* l.36-39 *)
         (seq (refresh tstep U3) (refresh tstep [Curl])))
  (seq (pif (cand (ret (tstep =? 1)) (ret rank0))                                              (* l.41-52 *)
         (seq (locals Plot [U2; U1; Curl]) newfig))
       (pif (cand (hits tstep plot_step) (ret rank0))                                          (* l.57-61 *)
         (seq (seq needfig (locals Plot [U2; U1])) (local Plot Curl))))).

(** demo/Isotropic.py:189-211, 220-254 (the forcing is Model/Isotropic.v) *)
Definition update_Iso (ns : bool) (compute_energy plot_step compute_spectrum : Z) : act unit :=
  seq (pif (cor (hits tstep compute_energy) (cand (hits tstep plot_step) (pos plot_step)))     (* l.189-194 *)
         (seq (refresh tstep U3) (seq (refresh tstep [Curl]) (if ns then refresh tstep [Pres] else skip))))
  (seq (pif (ret plt)                                                                          (* l.197-212 *)
         (pif (cand (cand (hits tstep plot_step) (ret rank0)) (pos plot_step)) (field Plot U0)))
  (seq (pif (hits tstep compute_spectrum) skip)                                                (* l.214-218: reads U_hat *)
       (pif (hits tstep compute_energy) (fields Energy U3)))).                                 (* l.220-254 *)

(** demo/MKM.py:89-167 *)
Definition update_MKM (compute_energy plot_result sample_stats print_energy0 : Z) : act unit :=
  seq (bindlocal U3)                                                                           (* l.95 *)
  (seq (pif (hits tstep 1) (seq (refresh tstep [U1]) (field Flux U1)))                         (* l.100-108 *)
  (seq (pif (cor (cor (hits tstep compute_energy) (cand (hits tstep plot_result) (pos plot_result)))
                 (hits tstep sample_stats))                                                    (* l.110-113 *)
         (refresh tstep U3))
  (seq (pif (cand (hits tstep print_energy0) (ret rank0)) skip)                                (* l.115-117: U_hat *)
  (seq (pif (cand (cand (ret (tstep =? 1)) (ret rank0)) (pos plot_result))                     (* l.119-136 *)
         (seq (locals Plot [U0; U1]) newfig))
  (seq (pif (cand (cand (hits tstep plot_result) (ret rank0)) (pos plot_result))               (* l.138-154 *)
         (seq needfig (locals Plot [U0; U1])))
  (seq (pif (hits tstep compute_energy) (locals Energy U3))                                    (* l.156-164 *)
       (pif (hits tstep sample_stats) (locals Sample U3)))))))).                               (* l.166-167 *)

(** demo/RayleighBenard.py:33-87.  l.40 tests [tstep % sample_stats] without [== 0]. *)
Definition update_RB (compute_energy plot_result sample_stats : Z) : act unit :=
  seq (bindlocal (U3 ++ [Phi]))                                                                (* l.38 *)
  (seq (pif (cor (cor (hits tstep compute_energy)
                      (bind (hits tstep sample_stats) (fun x => ret (negb x))))
                 (cand (hits tstep plot_result) (pos plot_result)))                            (* l.40-43 *)
         (seq (refresh tstep U3) (refresh tstep [Phi])))
  (seq (pif (cand (cand (ret (tstep =? 1)) (ret rank0)) (pos plot_result))                     (* l.45-57 *)
         (seq (locals Plot [U1; U0; Phi]) newfig))
  (seq (pif (cand (cand (hits tstep plot_result) (ret rank0)) (pos plot_result))               (* l.59-69 *)
         (seq needfig (locals Plot [U1; U0; Phi])))
  (seq (pif (hits tstep compute_energy) (locals Energy (U3 ++ [Phi])))                         (* l.71-84 *)
       (pif (hits tstep sample_stats) (locals Sample (U3 ++ [Phi]))))))).                      (* l.86-87 *)

(** demo/LaminarChannel.py:41-91 *)
Definition update_Laminar (plot_step compute_energy : Z) : act unit :=
  seq (refresh tstep U3)                                                                       (* l.47 *)
  (seq (pif (cor (cand (hits tstep plot_step) (pos plot_step)) (hits tstep compute_energy))    (* l.48-50 *)
         (refresh tstep U3))
  (seq (pif (cand (ret rank0) (pos plot_step)) (local Plot U1))                                (* l.52-59: im1 stays None *)
  (seq (pif (cand (cand (hits tstep plot_step) (ret rank0)) (pos plot_step)) (local Plot U1))  (* l.61-70 *)
       (pif (hits tstep compute_energy) (local Energy U1))))).                                 (* l.72-91 *)

(** demo/OrrSommerfeld.py:91-139 (OrrSommerfeldr.py has the same text); compute_error (l.141-150)
    transforms the velocity itself *)
Definition update_OS (plot_step compute_energy : Z) : act unit :=
  seq (pif (cor (hits tstep plot_step) (hits tstep compute_energy)) (refresh tstep U3))        (* l.99-101 *)
  (seq (pif (ret plt)
         (seq (pif (cand (cand nofig (ret rank0)) (pos plot_step))                             (* l.105-120 *)
                (seq (fields Plot [U0; U1]) newfig))
              (pif (cand (cand (hits tstep plot_step) (ret rank0)) (pos plot_step))            (* l.122-130 *)
                (seq needfig (locals Plot [U0; U1])))))
       (pif (hits tstep compute_energy) (seq (refresh tstep U3) (locals Energy [U0; U1])))).   (* l.132-139 *)
End Demos.

(** The callbacks along a run: steps n0+1, n0+2, ... ; [writes n]: hdf5file.update transforms the
    velocity (and temperature) for output after step n (HDF5File.py:78-80) *)
(** spectralDNS/__init__.py:96-103 *)
Fixpoint run (upd : Z -> act unit) (writes : Z -> bool) (n0 : Z) (k : nat) (s : ust) : out unit :=
  match k with
  | O => Ret tt s
  | S k =>
      match run upd writes n0 k s with
      | Exc e s => Exc e s
      | Ret _ s =>
          let n := n0 + Z.of_nat (S k) in
          match upd n (enter s) with
          | Exc e s => Exc e s
          | Ret _ s => if writes n then match refresh n (U3 ++ [Phi]) s with Ret _ s' => Ret tt (mkU (stamp s') (fig s') [] (seen s)) | Exc e s => Exc e s end
                       else Ret tt s
          end
      end
  end.
