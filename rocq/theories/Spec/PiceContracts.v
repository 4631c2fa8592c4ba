(** What the theorems C78 and C79 assume of the functions handed to the PICE script, and how its lists and draws are read (C78, C79). *)
From Coq Require Import List ZArith Reals.
From Verif Require Import Base.Num Base.Py Base.Arr Model.Ext Spec.RealSpec Spec.ExampleSpec Spec.PiceSpec.
Import ListNotations.
Local Open Scope R_scope.

(** a list as a function of the index; the entry (d, t, l) of the nested list of coefficients *)
Definition listfn (l : list R) (i : nat) : R := nth i l 0.
Definition coef (A : list (list (list R))) (d t l : nat) : R := nth l (nth t (nth d A []) []) 0.
(** two coordinates, k times, nb features *)
Definition cf_shape (nb k : nat) (A : list (list (list R))) : Prop :=
  List.length A = 2%nat /\ forall d, (d < 2)%nat -> List.length (nth d A []) = k /\ forall t, (t < k)%nat -> List.length (nth t (nth d A []) []) = nb.
(** a drift of the plane, given for whole ensembles *)
Definition drift_map (f : mat R -> res (mat R)) (F : nat -> R -> R -> R) : Prop :=
  forall z, mr z = 2%nat -> exists V, f z = Ok V /\ mr V = 2%nat /\ mc V = mc z /\
    forall d n, (d < 2)%nat -> (n < mc z)%nat -> get V d n = F d (get z 0 n) (get z 1 n).
Definition pinv_contract (pinv : mat R -> res (mat R)) : Prop :=
  forall H, mr H = mc H -> (forall i j, (i < mr H)%nat -> (j < mr H)%nat -> get H i j = get H j i) ->
    exists P, pinv H = Ok P /\ mr P = mr H /\ mc P = mr H /\ pseudo_inverse (mr H) (get H) (get P).

(** the noise of a simulation started in generator state s: one 2 x N matrix per step *)
Definition noise {S : Type} (E : Ext R S) (N : nat) (s : S) (d n t : nat) : R := fst (x_normal E (draws E N t s) (sqrt (1 / 1000)) 2 N) d n.
