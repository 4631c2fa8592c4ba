(** Nearby problems: ensembles, drifts and diffusions that differ by little (maximum norm). *)
From Coq Require Import Reals.
From Verif Require Import Base.Num Base.Py Base.Arr Lib.RBase Model.Ext Spec.FlowSpec.
Local Open Scope R_scope.

Definition nearby (e : R) (x y : mat R) : Prop :=
  mr x = mr y /\ mc x = mc y /\ forall i j, (i < mr x)%nat -> (j < mc x)%nat -> Rabs (get x i j - get y i j) <= e.
(** at nearby ensembles the drifts differ by at most L times the distance plus eta: f is Lipschitz and f' differs from f by at most eta *)
Definition nearby_drifts (L eta : R) (f f' : mat R -> res (mat R)) : Prop :=
  forall x y e V V', 0 <= e -> nearby e x y -> f x = Ok V -> f' y = Ok V' ->
    forall i j, (i < mr x)%nat -> (j < mc x)%nat -> Rabs (elem V i j - elem V' i j) <= L * e + eta.
Definition equal_diffusions (dim N : nat) (g g' : mat R) : Prop :=
  forall i j, (i < dim)%nat -> (j < N)%nat -> elem g i j = elem g' i j.
