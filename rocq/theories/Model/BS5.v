(** Coefficients of integrators.py:199-212 (Bogacki-Shampine 5(4), "BS5") as exact
    rationals.  Simplification: the code evaluates each quotient in floating point. *)
From Coq Require Import QArith List Reals Qreals.
Import ListNotations.
Open Scope Q_scope.

(** integrators.py:199-206 *)
Definition BS5_A : list (list Q) :=
  [ [0; 0; 0; 0; 0; 0; 0; 0];
    [1#6; 0; 0; 0; 0; 0; 0; 0];
    [2#27; 4#27; 0; 0; 0; 0; 0; 0];
    [183#1372; -162#343; 1053#1372; 0; 0; 0; 0; 0];
    [68#297; -4#11; 42#143; 1960#3861; 0; 0; 0; 0];
    [597#22528; 81#352; 63099#585728; 58653#366080; 4617#20480; 0; 0; 0];
    [174197#959244; -30942#79937; 8152137#19744439; 666106#1039181; -29421#29068; 482048#414219; 0; 0];
    [587#8064; 0; 4440339#15491840; 24353#124800; 387#44800; 2152#5985; 7267#94080; 0] ].
(** integrators.py:207 *)
Definition BS5_b : list Q :=
  [587#8064; 0; 4440339#15491840; 24353#124800; 387#44800; 2152#5985; 7267#94080; 0].
(** integrators.py:208 *)
Definition BS5_bhat : list Q :=
  [2479#34992; 0; 123#416; 612941#3411720; 43#1440; 2272#6561; 79937#1113912; 3293#556956].

(** integrators.py:185-186 as a Butcher tableau over Q: b[rk] are the sub-diagonal
    entries (u1 + b[rk]*dt*rhs), a[rk] the weights. *)
Definition RK4_A : list (list Q) :=
  [ [0; 0; 0; 0]; [1#2; 0; 0; 0]; [0; 1#2; 0; 0]; [0; 0; 1; 0] ].
Definition RK4_w : list Q := [1#6; 1#3; 1#3; 1#6].

Definition entry (M : list (list Q)) (i j : nat) : Q := nth j (nth i M []) 0.

(** Same arrays as real-valued functions, as used by Model.Integrators. *)
(** integrators.py:199-206 *)
Definition bs5_A (i j : nat) : R := Q2R (entry BS5_A i j).
(** integrators.py:207 *)
Definition bs5_b (i : nat) : R := Q2R (nth i BS5_b 0).
(** integrators.py:208 *)
Definition bs5_bhat (i : nat) : R := Q2R (nth i BS5_bhat 0).
(** integrators.py:216 s = A.shape[0] *)
Definition bs5_s : nat := 8.
Definition rk4_At (i j : nat) : R := Q2R (entry RK4_A i j).
Definition rk4_bt (i : nat) : R := Q2R (nth i RK4_w 0%Q).
