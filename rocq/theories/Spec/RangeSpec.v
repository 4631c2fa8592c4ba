(** Ranges of ensembles over the reals. *)
From Coq Require Import List ZArith Reals.
From Verif Require Import Base.Num Base.Py Base.Arr.
Local Open Scope R_scope.

(** v lies between the smallest and the largest d-th coordinate of the particles of x *)
Definition in_range (x : mat R) (d : nat) (v : R) : Prop :=
  (exists n, (n < mc x)%nat /\ get x d n <= v) /\ (exists n, (n < mc x)%nat /\ v <= get x d n).
(** v lies between the smallest and the largest d-th coordinate of the particles of x and y together *)
Definition in_hull (x y : mat R) (d : nat) (v : R) : Prop :=
  ((exists n, (n < mc x)%nat /\ get x d n <= v) \/ (exists n, (n < mc y)%nat /\ get y d n <= v)) /\
  ((exists n, (n < mc x)%nat /\ v <= get x d n) \/ (exists n, (n < mc y)%nat /\ v <= get y d n)).
(** v lies between the two intersection bounds of x and y in coordinate d: inside both ranges when these overlap, and in
    the gap between the two ensembles when they do not *)
Definition common_point (x y : mat R) (d : nat) (v : R) : Prop :=
  ((exists w, in_range x d w /\ in_range y d w) -> in_range x d v /\ in_range y d v) /\
  (~ (exists w, in_range x d w /\ in_range y d w) ->
     (forall n m, (n < mc x)%nat -> (m < mc y)%nat -> get x d n <= v <= get y d m) \/
     (forall n m, (n < mc x)%nat -> (m < mc y)%nat -> get y d m <= v <= get x d n)).
