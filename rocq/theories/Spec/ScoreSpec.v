(** Ensembles as samples for score matching, over the reals. *)
From Coq Require Import List ZArith Reals.
From Verif Require Import Base.Num Base.Py Base.Arr Spec.RealSpec Spec.RangeSpec.
Local Open Scope R_scope.

(** the coordinates of particle n of an ensemble (coordinates in rows); twice the standard deviation of coordinate d *)
Definition particle (x : mat R) (n d : nat) : R := get x d n.
Definition two_sigma (x : mat R) (d : nat) : R := 2 * sqrt (variance (mc x) (get x d)).

(** whenever the ranges of u and v overlap in coordinate d, the M points z lie in both *)
Definition between (u v : mat R) (z : nat -> nat -> R) (M : nat) : Prop := forall a d, (a < M)%nat -> (d < mr u)%nat ->
  (exists w, in_range u d w /\ in_range v d w) -> in_range u d (z a d) /\ in_range v d (z a d).
