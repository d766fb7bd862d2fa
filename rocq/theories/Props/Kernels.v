(** Theorems on the compiled elementwise kernels: C33. *)
From Coq Require Import Reals List Arith Bool Lia Lra.
From Verif Require Import Base.Cplx Base.Sums Base.Fin Model.Maths Model.NS Model.Bq2D Model.Kernels Proofs.KernelProofs.
From Verif Require Model.KMM.
Import ListNotations.
Open Scope R_scope.

(** An array of shape (3, n0, n1, n2) as a vector field on the modes [i;j;k], etc. *)
Definition ix3 (x : ax3) : nat := match x with x0 => 0 | x1 => 1 | x2 => 2 end.
Definition ix2 (x : ax2) : nat := match x with a0 => 0 | a1 => 1 end.
Definition vec3 {A} (a : arr A) : ax3 -> list nat -> A := fun x q => data a (ix3 x :: q).
Definition vec2 {A} (a : arr A) : ax2 -> list nat -> A := fun x q => data a (ix2 x :: q).
(** The sparse wavenumber arrays (n0,1,1), (1,n1,1), (1,1,n2) broadcast to the modes. *)
Definition bc3 (ka kb kc : arr R) : ax3 -> list nat -> R := fun x q =>
  match x with
  | x0 => data ka [nth 0 q 0; 0; 0]%nat
  | x1 => data kb [0; nth 1 q 0; 0]%nat
  | x2 => data kc [0; 0; nth 2 q 0]%nat
  end.
Definition bc2 (ka kb : arr R) : ax2 -> list nat -> R := fun x q =>
  match x with a0 => data ka [nth 0 q 0; 0]%nat | a1 => data kb [0; nth 1 q 0]%nat end.

Definition cell3 {A} (s : arr A) (q : list nat) : A * A * A := (data s (0 :: q), data s (1 :: q), data s (2 :: q))%nat.
Definition cell2 {A} (s : arr A) (q : list nat) : A * A := (data s (0 :: q), data s (1 :: q))%nat.
Definition cellP3 (s : arr C * arr C) (q : list nat) := (cell3 (fst s) q, data (snd s) q).
Definition cellP2 (s : arr C * arr C) (q : list nat) := (cell2 (fst s) q, data (snd s) q).

Ltac bounds :=
  repeat match goal with
  | H : (?i < ?n)%nat |- _ =>
      lazymatch goal with
      | _ : (i <? n)%nat = true |- _ => fail
      | _ => let B := fresh "B" in pose proof (proj2 (Nat.ltb_lt i n) H) as B
      end
  end.
Ltac step1 :=
  first
  [ progress cbn [bind inb shape data andb leqb Nat.eqb fst snd dim nth]
  | match goal with
    | H : shape ?a = _ |- context [shape ?a] => rewrite H
    | H : (?i <? ?n)%nat = true |- context [(?i <? ?n)%nat] => rewrite H
    | |- context [(0 <? S ?n)%nat] => change (0 <? S n)%nat with true
    | |- context [(1 <? S (S ?n))%nat] => change (1 <? S (S n))%nat with true
    | |- context [(2 <? S (S (S ?n)))%nat] => change (2 <? S (S (S n)))%nat with true
    | |- context [(?i =? ?i)%nat] => rewrite (Nat.eqb_refl i)
    | H : leqb ?p ?q = false |- context [leqb ?p ?q] => rewrite H
    end ].
Ltac run := unfold cellP3, cellP2; unfold cell3, cell2; unfold cy_du, cy_row, sub_; unfold put_re, put_im; unfold get, put; bounds; repeat step1.
Ltac point :=
  apply acts_point; cbn [app];
  intros; cbn beta iota in *;
  repeat match goal with H : _ /\ _ |- _ => destruct H | s : (arr _ * arr _)%type |- _ => destruct s end;
  cbn [fst snd] in *;
  eexists; split; [run; reflexivity | split; [cbn [shape fst snd]; auto | split]];
  [ run
  | let p := fresh "p" in let Hp := fresh "Hp" in intros p Hp;
    match type of Hp with _ <> ?q =>
      assert (leqb p q = false) by (apply not_true_is_false; rewrite leqb_spec; exact Hp) end;
    run; reflexivity ].
Lemma inb3 i j k n0 n1 n2 : (i < n0)%nat -> (j < n1)%nat -> (k < n2)%nat -> inb [i;j;k] [n0;n1;n2] = true.
Proof. intros. run. reflexivity. Qed.
Lemma inb2 i j n0 n1 : (i < n0)%nat -> (j < n1)%nat -> inb [i;j] [n0;n1] = true.
Proof. intros. run. reflexivity. Qed.


Ltac tup := repeat match goal with |- (_, _) = (_, _) => apply f_equal2 end.
Ltac cfin := unfold vec3, vec2, bc3, bc2, Re, Im; simpl; first [reflexivity | ring | apply C_eq; simpl; ring | apply C_eq; simpl; unfold Rdiv; ring | apply C_eq; simpl; lra].
Ltac loops := repeat first [apply acts_loop; intros ? ?; cbn [app]].

(** ** cross products in three dimensions *)
Section Three.
Context (n0 n1 n2 : nat).
Notation sh4 := [3; n0; n1; n2]%nat.
Notation sh3 := [n0; n1; n2].

Theorem cross1_agrees (c a b : arr R) : shape c = sh4 -> shape a = sh4 -> shape b = sh4 ->
  exists c', k_cross1 c a b = Some c' /\ shape c' = sh4 /\
    forall q x, inb q sh3 = true ->
      vec3 c' x q = cross1 Rmult Rminus (vec3 c) (vec3 a) (vec3 b) x q.
Proof.
  intros Hc Ha Hb.
  assert (A : acts (fun s => shape s = sh4) cell3
     (fun q _ => let r := cross1 Rmult Rminus (vec3 c) (vec3 a) (vec3 b) in (r x0 q, r x1 q, r x2 q))
     (fun c => k_cross1 c a b) (inbox [] sh3)).
  { unfold k_cross1, dim. rewrite Ha. cbn [nth]. loops. point. reflexivity. }
  destruct (A c Hc) as (c' & E & I & V). exists c'. repeat split; auto.
  intros q x Hq. specialize (V q). cbn [inbox] in V. rewrite Hq in V. unfold cell3 in V. injection V as V0 V1 V2.
  destruct x; assumption.
Qed.

Section Cross2.
Context (c b : arr C) (Hc : shape c = sh4) (Hb : shape b = sh4).
(** result of the numpy cross2 with wavenumbers [K] *)
Definition is_cross2 (K : ax3 -> list nat -> R) (r : option (arr C)) : Prop :=
  exists c', r = Some c' /\ shape c' = sh4 /\
    forall q x, inb q sh3 = true -> vec3 c' x q = cross2 (vec3 c) K (vec3 b) x q.
Lemma cross2_of_acts K kern :
  acts (fun s => shape s = sh4) cell3
     (fun q _ => let r := cross2 (vec3 c) K (vec3 b) in (r x0 q, r x1 q, r x2 q)) kern (inbox [] sh3) ->
  is_cross2 K (kern c).
Proof.
  intros A. destruct (A c Hc) as (c' & E & I & V). exists c'. repeat split; auto.
  intros q x Hq. specialize (V q). cbn [inbox] in V. rewrite Hq in V. unfold cell3 in V. injection V as V0 V1 V2.
  destruct x; assumption.
Qed.
Ltac c2 := tup; unfold cmk, cross2, cross1, RCmul, upd; simpl; cfin.

(** full (dense) array of wavenumbers *)
Theorem cross2a_agrees (a : arr R) : shape a = sh4 -> is_cross2 (vec3 a) (k_cross2a c a b).
Proof.
  intros Ha. apply (cross2_of_acts _ (fun c => k_cross2a c a b)).
  unfold k_cross2a, dim. rewrite Ha. cbn [nth]. loops. point. c2.
Qed.
Theorem cython_cross2_agrees (a : arr R) : shape a = sh4 -> is_cross2 (vec3 a) (cy_cross2 c a b).
Proof.
  intros Ha. apply (cross2_of_acts _ (fun c => cy_cross2 c a b)).
  unfold cy_cross2, dim. rewrite Ha. cbn [nth]. loops. point. c2.
Qed.

(** sparse arrays of wavenumbers *)
Context (ka kb kc : arr R).
Context (Hka : shape ka = [n0; 1; 1]%nat) (Hkb : shape kb = [1; n1; 1]%nat) (Hkc : shape kc = [1; 1; n2]%nat).
Theorem cross2c_numba_agrees : is_cross2 (bc3 ka kb kc) (k_cross2c_numba c ka kb kc b).
Proof.
  apply (cross2_of_acts _ (fun c => k_cross2c_numba c ka kb kc b)).
  unfold k_cross2c_numba, dim. rewrite Hb. cbn [nth]. loops. point. c2.
Qed.
Theorem cross2c_pythran_agrees : is_cross2 (bc3 ka kb kc) (k_cross2c_pythran c ka kb kc b).
Proof.
  apply (cross2_of_acts _ (fun c => k_cross2c_pythran c ka kb kc b)).
  unfold k_cross2c_pythran, view0, view1, view2, dim. rewrite Hb, Hka, Hkb, Hkc. cbn [nth bind Nat.ltb Nat.leb andb].
  loops. point. c2.
Qed.
Theorem cython_cross3_agrees : is_cross2 (bc3 ka kb kc) (cy_cross3 c ka kb kc b).
Proof.
  apply (cross2_of_acts _ (fun c => cy_cross3 c ka kb kc b)).
  unfold cy_cross3, dim. rewrite Hb. cbn [nth].
  apply acts_loop; intros i Hi; cbn [app]. rewrite (get_some ka) by (rewrite Hka; run; reflexivity). cbn [bind].
  apply acts_loop; intros j Hj; cbn [app]. rewrite (get_some kb) by (rewrite Hkb; run; reflexivity). cbn [bind].
  apply acts_loop; intros k Hk; cbn [app]. point. c2.
Qed.
End Cross2.

(** ** pressure and diffusion in three dimensions *)
Section Pressure.
Context (du u p : arr C) (nu : R) (ksq ka kb kc kok : arr R).
Context (Hdu : shape du = sh4) (Hu : shape u = sh4) (Hp : shape p = sh3) (Hksq : shape ksq = sh3)
  (Hka : shape ka = [n0; 1; 1]%nat) (Hkb : shape kb = [1; n1; 1]%nat) (Hkc : shape kc = [1; 1; n2]%nat)
  (Hkok : shape kok = sh4).
Definition is_pressure3 (r : option (arr C * arr C)) : Prop :=
  let ref := add_pressure_diffusion F3 (bc3 ka kb kc) (vec3 du) (vec3 u) nu (data ksq) (vec3 kok) in
  exists du' p', r = Some (du', p') /\ shape du' = sh4 /\ shape p' = sh3 /\
    forall q, inb q sh3 = true -> (forall x, vec3 du' x q = fst ref x q) /\ data p' q = snd ref q.
Definition gP (q : list nat) (c : (C * C * C) * C) : (C * C * C) * C :=
  let '(d0, d1, d2, _) := c in
  let r := add_pressure_diffusion F3 (bc3 ka kb kc) (fun x _ => match x with x0 => d0 | x1 => d1 | x2 => d2 end)
             (vec3 u) nu (data ksq) (vec3 kok) in
  (fst r x0 q, fst r x1 q, fst r x2 q, snd r q).
Lemma pressure_of_acts kern :
  acts (fun s => shape (fst s) = sh4 /\ shape (snd s) = sh3) cellP3 gP kern (inbox [] sh3) ->
  is_pressure3 (kern (du, p)).
Proof.
  intros A. destruct (A (du, p) (conj Hdu Hp)) as ([du' p'] & E & (I1 & I2) & V). exists du', p'. cbn [fst snd] in *.
  repeat split; auto; specialize (V q); cbn [inbox] in V; rewrite H in V; unfold cellP3, cell3, gP in V;
  cbn [fst snd] in V; injection V as V0 V1 V2 V3.
  - intros x. destruct x; unfold vec3; cbn [ix3]; [rewrite V0 | rewrite V1 | rewrite V2]; reflexivity.
  - rewrite V3. reflexivity.
Qed.
Ltac pr := unfold gP; tup; unfold add_pressure_diffusion, upd; simpl; cfin.
Theorem pressure_NS_agrees : is_pressure3 (k_pressure_NS du u nu ksq ka kb kc p kok).
Proof.
  unfold k_pressure_NS, view0, view1, view2, dim. rewrite Hksq, Hka, Hkb, Hkc. cbn [nth bind Nat.ltb Nat.leb andb].
  apply pressure_of_acts.
  apply acts_loop; intros i Hi; cbn [app]. rewrite (get_some (mkArr _ _)) by (cbn [shape]; run; reflexivity). cbn [bind].
  apply acts_loop; intros j Hj; cbn [app]. rewrite (get_some (mkArr _ _)) by (cbn [shape]; run; reflexivity). cbn [bind].
  apply acts_loop; intros k Hk; cbn [app]. point. pr.
Qed.
Theorem cython_pressure_NS_agrees : is_pressure3 (cy_pressure_NS du u nu ksq ka kb kc p kok).
Proof.
  unfold cy_pressure_NS, view0, view1, view2, dim. rewrite Hksq, Hka, Hkb, Hkc. cbn [nth bind Nat.ltb Nat.leb andb].
  apply pressure_of_acts.
  apply acts_loop; intros i Hi; cbn [app]. rewrite (get_some (mkArr _ _)) by (cbn [shape]; run; reflexivity). cbn [bind].
  apply acts_loop; intros j Hj; cbn [app]. rewrite (get_some (mkArr _ _)) by (cbn [shape]; run; reflexivity). cbn [bind].
  apply acts_loop; intros k Hk; cbn [app]. point. pr.
Qed.
End Pressure.
End Three.

(** ** two dimensions *)
Section Two.
Context (n0 n1 : nat).
Notation sh2 := [n0; n1].

Theorem cython_cross1_2D_agrees (c a b : arr R) :
  shape c = sh2 -> shape a = [2; n0; n1]%nat -> shape b = [2; n0; n1]%nat ->
  exists c', cy_cross1_2D c a b = Some c' /\ shape c' = sh2 /\
    forall q, inb q sh2 = true -> data c' q = cross1_2d Rmult Rminus (vec2 a) (vec2 b) q.
Proof.
  intros Hc Ha Hb.
  assert (A : acts (fun s => shape s = sh2) (@data R)
     (fun q _ => cross1_2d Rmult Rminus (vec2 a) (vec2 b) q) (fun c => cy_cross1_2D c a b) (inbox [] sh2)).
  { unfold cy_cross1_2D, dim. rewrite Ha. cbn [nth]. loops. point. reflexivity. }
  destruct (A c Hc) as (c' & E & I & V). exists c'. repeat split; auto.
  intros q Hq. specialize (V q). cbn [inbox] in V. rewrite Hq in V. exact V.
Qed.

Theorem cython_cross2_2D_agrees (c b : arr C) (a : arr R) :
  shape c = sh2 -> shape a = [2; n0; n1]%nat -> shape b = [2; n0; n1]%nat ->
  exists c', cy_cross2_2D c a b = Some c' /\ shape c' = sh2 /\
    forall q, inb q sh2 = true -> data c' q = cross2_2d (vec2 a) (vec2 b) q.
Proof.
  intros Hc Ha Hb.
  assert (A : acts (fun s => shape s = sh2) (@data C)
     (fun q _ => cross2_2d (vec2 a) (vec2 b) q) (fun c => cy_cross2_2D c a b) (inbox [] sh2)).
  { unfold cy_cross2_2D, dim. rewrite Ha. cbn [nth]. loops. point.
    unfold cross2_2d, cross1_2d, RCmul. cfin. }
  destruct (A c Hc) as (c' & E & I & V). exists c'. repeat split; auto.
  intros q Hq. specialize (V q). cbn [inbox] in V. rewrite Hq in V. exact V.
Qed.

(** _cross3_2D receives the sparse wavenumbers (n0,1) and (1,n1) and indexes them as if they
    were full arrays: it leaves the array as soon as a row has a second element. *)
Theorem cython_cross3_2D_out_of_bounds (c b : arr C) (kx ky : arr R) :
  shape b = [2; n0; n1]%nat -> shape c = sh2 -> shape kx = [n0; 1]%nat -> shape ky = [1; n1]%nat ->
  (1 <= n0)%nat -> (2 <= n1)%nat -> cy_cross3_2D c kx ky b = None.
Proof.
  intros Hb Hc Hx Hy H0 H1. unfold cy_cross3_2D, dim. rewrite Hb. cbn [nth].
  assert (N0 : forall (S : Type) (body : nat -> S -> option S) l,
     fold_left (fun o i => bind o (body i)) l None = None) by (intros S body l; induction l; auto).
  destruct n0 as [|m0]; [lia|]. destruct n1 as [|[|m1]]; [lia|lia|].
  unfold for_ at 1. cbn [seq fold_left].
  match goal with |- fold_left _ _ ?x = None => replace x with (@None (arr C)) end; [apply N0|].
  unfold for_. cbn [seq fold_left bind].
  match goal with |- None = fold_left _ _ (bind ?y ?f) => assert (E : bind y f = None) end.
  { destruct (bind (get kx [0; 0]%nat) _) as [s|]; [|reflexivity]. cbn [bind].
    unfold get at 1. rewrite Hx. reflexivity. }
  rewrite E. symmetry. apply N0.
Qed.

Section Pressure2.
Context (du u p : arr C) (nu : R) (ksq kx ky kok : arr R).
Context (Hp : shape p = sh2) (Hksq : shape ksq = sh2) (Hkx : shape kx = [n0; 1]%nat) (Hky : shape ky = [1; n1]%nat)
  (Hkok : shape kok = [2; n0; n1]%nat).

Theorem cython_pressure_NS2D_agrees : shape du = [2; n0; n1]%nat -> shape u = [2; n0; n1]%nat ->
  let ref := add_pressure_diffusion F2 (bc2 kx ky) (vec2 du) (vec2 u) nu (data ksq) (vec2 kok) in
  exists du' p', cy_pressure_NS2D du u nu ksq kx ky p kok = Some (du', p') /\
    shape du' = [2; n0; n1]%nat /\ shape p' = sh2 /\
    forall q, inb q sh2 = true -> (forall x, vec2 du' x q = fst ref x q) /\ data p' q = snd ref q.
Proof.
  intros Hdu Hu ref.
  assert (A : acts (fun s => shape (fst s) = [2; n0; n1]%nat /\ shape (snd s) = sh2) cellP2
     (fun q c => let '(d0, d1, _) := c in
        let r := add_pressure_diffusion F2 (bc2 kx ky) (fun x _ => match x with a0 => d0 | a1 => d1 end)
             (vec2 u) nu (data ksq) (vec2 kok) in
        (fst r a0 q, fst r a1 q, snd r q))
     (fun s => cy_pressure_NS2D (fst s) u nu ksq kx ky (snd s) kok) (inbox [] sh2)).
  { eapply acts_ext; [|intros [s1 s2] _; unfold cy_pressure_NS2D, dim; rewrite Hksq; cbn [nth fst snd]; reflexivity|reflexivity].
    apply acts_loop; intros i Hi; cbn [app]. rewrite (get_some kx) by (rewrite Hkx; run; reflexivity). cbn [bind].
    apply acts_loop; intros j Hj; cbn [app]. point. tup; unfold add_pressure_diffusion, upd; simpl; cfin. }
  destruct (A (du, p) (conj Hdu Hp)) as ([du' p'] & E & (I1 & I2) & V). exists du', p'. cbn [fst snd] in *.
  repeat split; auto; specialize (V q); cbn [inbox] in V; rewrite H in V; unfold cellP2, cell2 in V;
  cbn [fst snd] in V; injection V as V0 V1 V2.
  - intros x. destruct x; unfold vec2; cbn [ix2]; [rewrite V0 | rewrite V1]; reflexivity.
  - rewrite V2. reflexivity.
Qed.

(** rows 0, 1 are the velocities, row 2 is the density *)
Definition vecB (a : arr C) : svec axb (list nat) := fun x q =>
  match x with Some a0 => data a (0 :: q)%nat | Some a1 => data a (1 :: q)%nat | None => data a (2 :: q)%nat end.
Theorem cython_pressure_Bq2D_agrees (Ri Pr : R) : shape du = [3; n0; n1]%nat -> shape u = [3; n0; n1]%nat ->
  let ref := add_pressure_diffusion_Bq (bc2 kx ky) (vecB du) (vecB u) (data ksq) (vec2 kok) nu Ri Pr in
  exists du' p', cy_pressure_Bq2D du u p kok kx ky ksq nu Ri Pr = Some (du', p') /\
    shape du' = [3; n0; n1]%nat /\ shape p' = sh2 /\
    forall q, inb q sh2 = true -> (forall x, vecB du' x q = fst ref x q) /\ data p' q = snd ref q.
Proof.
  intros Hdu Hu ref.
  assert (A : acts (fun s => shape (fst s) = [3; n0; n1]%nat /\ shape (snd s) = sh2) cellP3
     (fun q c => let '(d0, d1, d2, _) := c in
        let r := add_pressure_diffusion_Bq (bc2 kx ky)
             (fun x _ => match x with Some a0 => d0 | Some a1 => d1 | None => d2 end)
             (vecB u) (data ksq) (vec2 kok) nu Ri Pr in
        (fst r (Some a0) q, fst r (Some a1) q, fst r None q, snd r q))
     (fun s => cy_pressure_Bq2D (fst s) u (snd s) kok kx ky ksq nu Ri Pr) (inbox [] sh2)).
  { eapply acts_ext; [|intros [s1 s2] _; unfold cy_pressure_Bq2D, dim; rewrite Hksq; cbn [nth fst snd]; reflexivity|reflexivity].
    apply acts_loop; intros i Hi; cbn [app]. rewrite (get_some kx) by (rewrite Hkx; run; reflexivity). cbn [bind].
    apply acts_loop; intros j Hj; cbn [app]. point.
    tup; unfold add_pressure_diffusion_Bq, upd, vecB; simpl; try (unfold vec2; simpl; ring).
    unfold Cdiv; rewrite RtoC_mul; ring. }
  destruct (A (du, p) (conj Hdu Hp)) as ([du' p'] & E & (I1 & I2) & V). exists du', p'. cbn [fst snd] in *.
  repeat split; auto; specialize (V q); cbn [inbox] in V; rewrite H in V; unfold cellP3, cell3 in V;
  cbn [fst snd] in V; injection V as V0 V1 V2 V3.
  - intros x. destruct x as [[|]|]; unfold vecB; [rewrite V0 | rewrite V1 | rewrite V2]; reflexivity.
  - rewrite V3. reflexivity.
Qed.
End Pressure2.
End Two.

(** ** channel kernels; index (i, j, k) of the arrays is column (j, k), row i of Model/KMM.v *)
Section Channel.
Context (n0 n1 n2 : nat).
Notation sh4 := [3; n0; n1; n2]%nat.
Notation sh3 := [n0; n1; n2].
Definition fldK (a : arr C) : KMM.fld := fun j k i => data a [i; j; k].
Definition vfldK (a : arr C) : KMM.vfld := fun c j k i => data a [ix3 c; i; j; k].

(** KMM.py:242-246 mult_K1j: f[0] = 1j*K[2]*a, f[1] = -1j*K[1]*a *)
Section Mult.
Context (kb kc : arr R) (a f : arr C).
Context (Hkb : shape kb = [1; n1; 1]%nat) (Hkc : shape kc = [1; 1; n2]%nat)
  (Ha : shape a = sh3) (Hf : shape f = [2; n0; n1; n2]%nat) (Hn0 : (0 < n0)%nat) (Hn1 : (0 < n1)%nat) (Hn2 : (0 < n2)%nat).
Definition is_mult_K1j (r : option (arr C)) : Prop :=
  exists f', r = Some f' /\ shape f' = [2; n0; n1; n2]%nat /\
    forall i j k, (i < n0)%nat -> (j < n1)%nat -> (k < n2)%nat ->
      data f' [0; i; j; k]%nat = (Ci * RtoC (data kc [0; 0; k]%nat) * data a [i; j; k])%C /\
      data f' [1; i; j; k]%nat = (- Ci * RtoC (data kb [0; j; 0]%nat) * data a [i; j; k])%C.
Definition gK (q : list nat) (_ : C * C) : C * C :=
  ((Ci * RtoC (data kc [0; 0; nth 2 q 0]%nat) * data a q)%C, (- Ci * RtoC (data kb [0; nth 1 q 0; 0]%nat) * data a q)%C).
Lemma mult_of_acts kern : acts (fun s => shape s = [2; n0; n1; n2]%nat) cell2 gK kern (inbox [] sh3) ->
  is_mult_K1j (kern f).
Proof.
  intros A. destruct (A f Hf) as (f' & E & I & V). exists f'. repeat split; auto;
  specialize (V [i; j; k]); cbn [inbox] in V; rewrite inb3 in V by assumption;
  unfold cell2, gK in V; cbn [nth] in V; injection V as V0 V1; assumption.
Qed.
Theorem mult_K1j_agrees : is_mult_K1j (k_mult_K1j kb kc a f).
Proof.
  apply (mult_of_acts (fun f => k_mult_K1j kb kc a f)).
  unfold k_mult_K1j, view1, view2, dim. rewrite Ha, Hkb, Hkc. cbn [nth bind Nat.ltb Nat.leb andb].
  loops. point. reflexivity.
Qed.
Theorem cython_mult_K1j_agrees : is_mult_K1j (cy_mult_K1j kb kc a f).
Proof.
  apply (mult_of_acts (fun f => cy_mult_K1j kb kc a f)).
  unfold cy_mult_K1j, dim. rewrite Ha. cbn [nth].
  apply acts_loop; intros i Hi; cbn [app].
  apply acts_loop; intros j Hj; cbn [app]. rewrite (get_some kb) by (rewrite Hkb; run; reflexivity). cbn [bind].
  apply acts_loop; intros k Hk; cbn [app]. point. reflexivity.
Qed.
End Mult.

Theorem compute_vw_agrees (u f g : arr C) (kok : arr R) (K1 K2 : nat -> R) :
  shape u = sh4 -> shape f = sh3 -> shape g = sh3 -> shape kok = [2; n0; n1; n2]%nat ->
  (forall i j k, (i < n0)%nat -> (j < n1)%nat -> (k < n2)%nat ->
     data kok [0; i; j; k]%nat = KMM.KoK1 K1 K2 j k /\ data kok [1; i; j; k]%nat = KMM.KoK2 K1 K2 j k) ->
  exists u', k_compute_vw u f g kok = Some u' /\ shape u' = sh4 /\
    forall c i j k, (i < n0)%nat -> (j < n1)%nat -> (k < n2)%nat ->
      vfldK u' c j k i = KMM.compute_vw x1 x2 K1 K2 (vfldK u) (fldK f) (fldK g) c j k i.
Proof.
  intros Hu Hf Hg Hkok HK.
  assert (A : acts (fun s => shape s = sh4) cell3
     (fun q c => let '(z0, _, _) := c in
        (z0, (- Ci * (RtoC (data kok (0 :: q)%nat) * data f q - RtoC (data kok (1 :: q)%nat) * data g q))%C,
             (- Ci * (RtoC (data kok (1 :: q)%nat) * data f q + RtoC (data kok (0 :: q)%nat) * data g q))%C))
     (fun u0 => for_ n0 (fun i => for_ n1 (fun j => for_ n2 (fun k u =>
    e0 <- get kok [0;i;j;k]%nat ;; e1 <- get kok [1;i;j;k]%nat ;;
    f <- get f [i;j;k] ;; g <- get g [i;j;k] ;;
    u <- put u [1;i;j;k]%nat (- Ci * (RtoC e0 * f - RtoC e1 * g))%C ;;
    put u [2;i;j;k]%nat (- Ci * (RtoC e1 * f + RtoC e0 * g))%C))) u0) (inbox [] sh3)).
  { loops. point. reflexivity. }
  destruct (A u Hu) as (u' & E & I & V). exists u'.
  split; [unfold k_compute_vw, dim; rewrite Hu; exact E | split; [exact I|]].
  intros c i j k Hi Hj Hk. specialize (V [i; j; k]); cbn [inbox] in V; rewrite inb3 in V by assumption.
  unfold cell3 in V. injection V as V0 V1 V2. destruct (HK i j k Hi Hj Hk) as (E0 & E1).
  rewrite E0, E1 in V1, V2.
  unfold vfldK at 1. destruct c; cbn [ix3]; [rewrite V0 | rewrite V1 | rewrite V2]; reflexivity.
Qed.

Theorem cython_assembleAB_agrees (H0 H H1 : arr C) :
  shape H0 = sh4 -> shape H = sh4 -> shape H1 = sh4 ->
  exists H', cy_assembleAB H0 H H1 = Some H' /\ shape H' = sh4 /\
    forall c i j k, (i < n0)%nat -> (j < n1)%nat -> (k < n2)%nat ->
      vfldK H' c j k i = KMM.assembleAB (vfldK H) (vfldK H1) c j k i.
Proof.
  intros S0 S S1.
  assert (A : acts (fun s => shape s = sh4) (@data C)
     (fun q _ => (RtoC 1.5 * data H q - RtoC 0.5 * data H1 q)%C) (fun H0 => cy_assembleAB H0 H H1) (inbox [] sh4)).
  { unfold cy_assembleAB, dim. rewrite S. cbn [nth]. loops. point. reflexivity. }
  destruct (A H0 S0) as (H' & E & I & V). exists H'. repeat split; auto.
  intros c i j k Hi Hj Hk. specialize (V [ix3 c; i; j; k]). cbn [inbox] in V.
  assert (B : inb [ix3 c; i; j; k] sh4 = true) by (destruct c; cbn [ix3]; run; reflexivity).
  rewrite B in V. unfold vfldK at 1. rewrite V. unfold KMM.assembleAB, KMM.csub, KMM.rsc, vfldK.
  f_equal; f_equal; f_equal; lra.
Qed.
End Channel.

(** ** Concrete cases *)
(** 2 x 2 x 2 modes, wavenumbers 0 1 (first two axes) and 0 2: the curl at mode (1,1,1) of
    b = (1, i, 0) is 1j * (1*0 - 2*i, 2*1 - 1*0, 1*i - 1*1) = (2, 2i, -1 - i). *)
Definition exK (sh : list nat) (w : R) : arr R :=
  mkArr sh (fun l => w * INR (fold_right plus 0%nat l)).
Definition exB : arr C := mkArr [3; 2; 2; 2]%nat (fun l => match l with 0%nat :: _ => C1 | 1%nat :: _ => Ci | _ => C0 end).
Example cross2_case :
  exists c', cy_cross3 (mkArr [3; 2; 2; 2]%nat (fun _ => C0)) (exK [2;1;1]%nat 1) (exK [1;2;1]%nat 1) (exK [1;1;2]%nat 2) exB = Some c' /\
    vec3 c' x0 [1;1;1]%nat = RtoC 2 /\ vec3 c' x1 [1;1;1]%nat = (RtoC 2 * Ci)%C /\
    vec3 c' x2 [1;1;1]%nat = (RtoC (-1) - Ci)%C.
Proof.
  destruct (cython_cross3_agrees 2 2 2 (mkArr [3; 2; 2; 2]%nat (fun _ => C0)) exB eq_refl eq_refl
     (exK [2;1;1]%nat 1) (exK [1;2;1]%nat 1) (exK [1;1;2]%nat 2) eq_refl eq_refl eq_refl) as (c' & E & _ & V).
  exists c'. split; [exact E|]. rewrite !V by reflexivity.
  repeat split; apply C_eq; simpl; ring.
Qed.
Example cross3_2D_case :
  cy_cross3_2D (mkArr [2; 2]%nat (fun _ => C0)) (exK [2;1]%nat 1) (exK [1;2]%nat 1)
    (mkArr [2; 2; 2]%nat (fun _ => C1)) = None.
Proof. apply (cython_cross3_2D_out_of_bounds 2 2); auto; reflexivity. Qed.

Print Assumptions cross1_agrees.
Print Assumptions cross2a_agrees.
Print Assumptions cross2c_numba_agrees.
Print Assumptions cross2c_pythran_agrees.
Print Assumptions cython_cross2_agrees.
Print Assumptions cython_cross3_agrees.
Print Assumptions pressure_NS_agrees.
Print Assumptions cython_pressure_NS_agrees.
Print Assumptions cython_cross1_2D_agrees.
Print Assumptions cython_cross2_2D_agrees.
Print Assumptions cython_cross3_2D_out_of_bounds.
Print Assumptions cython_pressure_NS2D_agrees.
Print Assumptions cython_pressure_Bq2D_agrees.
Print Assumptions mult_K1j_agrees.
Print Assumptions cython_mult_K1j_agrees.
Print Assumptions compute_vw_agrees.
Print Assumptions cython_assembleAB_agrees.
