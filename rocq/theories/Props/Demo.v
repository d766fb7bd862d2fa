(** A concrete configuration used to show that the hypotheses of the theorems are met. *)
From Coq Require Import Reals Lra ZArith List FunctionalExtensionality.
From Verif Require Import Base.Cplx Base.Sums Base.Fin Spec.Fourier Spec.Env Model.Maths Model.NS Model.NS2D Model.VV Model.MHD
  Model.Bq2D Model.Integrators Model.Integrate Model.Solve Model.Run Proofs.SolveProofs Proofs.RunProofs.
Import ListNotations.
Open Scope R_scope.

Definition I3 := (Z * Z * Z)%type.
Definition K3 (i : ax3) (k : I3) : R :=
  match i, k with x0, (a, _, _) => IZR a | x1, (_, b, _) => IZR b | x2, (_, _, c) => IZR c end.
Definition I2 := (Z * Z)%type.
Definition K2d (i : ax2) (k : I2) : R := match i, k with a0, (a, _) => IZR a | a1, (_, b) => IZR b end.
(** some transform pair *)
Definition demoT {I} : transf I I := mkTransf I I (fun a x => Re (a x)) (fun f k => RtoC (f k)).

(** u = (k1, -k0, 0): divergence free, not zero *)
Definition u3 : svec ax3 I3 := fun i k =>
  match i with x0 => RtoC (K3 x1 k) | x1 => RtoC (- K3 x0 k) | x2 => C0 end.
Definition u2 : svec ax2 I2 := fun i k => match i with a0 => RtoC (K2d a1 k) | a1 => RtoC (- K2d a0 k) end.
Definition z3 : svec ax3 I3 := fun _ _ => C0.
Definition z2 : svec ax2 I2 := fun _ _ => C0.

Lemma u3_div : divfree F3 K3 u3.
Proof. intros k. unfold kdot, u3; cbn [elems F3 CsumL]. rewrite RtoC_opp. ring. Qed.
Lemma u2_div : divfree F2 K2d u2.
Proof. intros k. unfold kdot, u2; cbn [elems F2 CsumL]. rewrite RtoC_opp. ring. Qed.
Lemma z3_div : divfree F3 K3 z3.
Proof. intros k. unfold kdot, z3; cbn [elems F3 CsumL]. ring. Qed.
Lemma z2_div : divfree F2 K2d z2.
Proof. intros k. unfold kdot, z2; cbn [elems F2 CsumL]. ring. Qed.
Lemma u3_mean : forall i k, is_mean K3 k -> u3 i k = C0.
Proof. intros i k H. unfold u3. rewrite (H x0), (H x1), Ropp_0, RtoC_0. destruct i; reflexivity. Qed.

Definition ub3 : svec ax6 I3 := fun r => match r with inl i => u3 i | inr i => u3 i end.
Definition ur2 : svec axb I2 := fun r k => match r with Some i => u2 i k | None => RtoC (K2d a0 k) end.

Definition nsb : nsbuf ax3 I3 I3 := mkNsbuf (fun _ _ => 0) z3 (fun _ _ => 0) (fun _ _ => 0) (fun _ => C0).
Definition ns2b : ns2buf I2 I2 := mkNs2buf (fun _ _ => 0) (fun _ => 0) (fun _ => C0) (fun _ => C0).
Definition vvb : vvbuf I3 I3 := mkVvbuf (fun _ _ => 0) z3 z3 (fun _ _ => 0) (fun _ _ => 0).
Definition mhdb : mhdbuf I3 I3 := mkMhdbuf (fun _ _ => 0) (fun _ _ _ => C0) (fun _ => C0).
Definition bqb : bqbuf I2 I2 := mkBqbuf (fun _ _ => 0) (fun _ => 0) (fun _ _ => C0) (fun _ => C0).

Section Start.
Context {D I ctx : Type}.
Notation V := (svec D I).
Definition est0 (_ _ _ : V) : R := 0.
Definition upd0 (_ : R) (_ : nat) (x : V * V * ctx * unit) := x.
Definition out0 (_ : R) (_ : nat) (_ : V) (x : ctx * unit) := (x, false).
(** t = 0, dt = 1/10, tstep = 0 *)
Definition start (u : V) (c : ctx) : lstate (world D I ctx unit) :=
  mkL 0 (/ 10) 0 (mkWorld (init_istate u (fun _ _ => C0) c) tt) false [].
Lemma start_at u c : at_start (start u c) u.
Proof. exists (fun _ _ => C0), c, tt. reflexivity. Qed.
Lemma upd0_keeps P : update_keeps upd0 P.
Proof. intros t n u r c e H. exact H. Qed.
Lemma upd0_ro : update_readonly upd0.
Proof. intros t n u r c e. reflexivity. Qed.
Lemma out0_nk : never_killed out0.
Proof. intros t n u c e. reflexivity. Qed.
(** a step is taken with any right hand side *)
Lemma start_steps (Rhs : ctx -> V -> V -> V * ctx) g u c : g <> IBS5 true ->
  exists s, observed Rhs est0 upd0 out0 (fun x => x) 1 1 g (start u c) s /\ l_tstep s = 1%nat /\ l_t s = 0 + / 10.
Proof.
  intros Hg. destruct (step_exists Rhs est0 upd0 out0 (fun x => x) 1 0 g (start u c) Hg) as (s & Hs & Hn & Ht).
  - cbn [start l_t l_dt]. pose proof eps12_pos. lra.
  - exists s. split; [exists 0%nat, (start u c); split; [constructor|right; exact Hs]|]. auto.
Qed.
End Start.
