(** Forgetting the start, and keeping the order, under the same noise. *)
From Coq Require Import Reals.
From Verif Require Import Base.Num Base.Py Base.Arr Lib.RBase Model.Ext Spec.FlowSpec.
Local Open Scope R_scope.

Definition same_dims (x y : mat R) : Prop := mr x = mr y /\ mc x = mc y.
(** every component of the drift pulls back its own coordinate at a rate between lam and 2000 - lam; f' differs from f by at most eta *)
Definition pulls_back (lam eta : R) (f f' : mat R -> res (mat R)) : Prop :=
  forall x y V W, same_dims x y -> f x = Ok V -> f' y = Ok W -> forall i j, (i < mr x)%nat -> (j < mc x)%nat ->
    exists c, lam <= c <= 2000 - lam /\ Rabs (elem V i j - elem W i j + c * (get x i j - get y i j)) <= eta.
Definition below (x y : mat R) : Prop := same_dims x y /\ forall i j, (i < mr x)%nat -> (j < mc x)%nat -> get x i j <= get y i j.
(** ordered ensembles are not carried past each other within one time step of 1/1000 *)
Definition order_preserving (f f' : mat R -> res (mat R)) : Prop :=
  forall x y V W, below x y -> f x = Ok V -> f' y = Ok W -> forall i j, (i < mr x)%nat -> (j < mc x)%nat ->
    elem V i j - elem W i j <= 1000 * (get y i j - get x i j).
