(** Plain mathematics used in the statements about reweighting; nothing here refers to the code. *)
From Coq Require Import List ZArith Reals.
From Verif Require Import Base.Num Base.Py Base.Arr Spec.RealSpec.
Local Open Scope R_scope.

(** exp(e_i) / (exp(e_0) + ... + exp(e_{N-1})) *)
Definition softmax (N : nat) (e : nat -> R) (i : nat) : R := exp (e i) / sumn N (fun j => exp (e j)).

(** the point is a convex combination of the columns (particles) of y *)
Definition convex_combination (y : mat R) (point : nat -> R) : Prop :=
  exists c : nat -> R, (forall m, (m < mc y)%nat -> 0 <= c m) /\ sumn (mc y) c = 1 /\
    forall d, (d < mr y)%nat -> point d = sumn (mc y) (fun m => c m * get y d m).

(** Euclidean distance of two particles of y *)
Definition distance (y : mat R) (i j : nat) : R := sqrt (sumn (mr y) (fun d => (get y d i - get y d j) ^ 2)).

(** average of coordinate d over the particles *)
Definition average (y : mat R) (d : nat) : R := mean (mc y) (fun n => get y d n).

(** coordinate d takes at least two values in y *)
Definition spread (y : mat R) (d : nat) : Prop :=
  exists m n, (m < mc y)%nat /\ (n < mc y)%nat /\ get y d m <> get y d n.

(** squared Euclidean distance of two particles of y *)
Definition sq_distance (y : mat R) (i j : nat) : R := sumn (mr y) (fun d => (get y d i - get y d j) ^ 2).
