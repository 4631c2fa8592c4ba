(** How the constructor of torched_DPFC may end. *)
From Coq Require Import String List ZArith Lia Bool.
From Verif Require Import Base.Num Base.Py Base.Arr Model.Ext Model.DPFC Spec.TotalSpec.
Import ListNotations.

Section TTotalSpec.
  Context {T S : Type} {O : NumOps T}.

  (** the constraint of stochastic mode is called with the ensemble alone *)
  Definition potential1 (dim N : nat) (U : mat T -> res (mat T)) : Prop :=
    forall x, mr x = dim -> mc x = N -> exists u, U x = Ok u /\ mr u = 1 /\ mc u = N.
  (** well-posed for the torch class: two coordinates or more, RBF kernel, and a constraint with the arguments of the chosen mode *)
  Record t_well_posed (p : params T) : Prop := {
    tw_dim : 2 <= List.length (p_y1 p);
    tw_y : List.length (p_y2 p) = List.length (p_y1 p);
    tw_N : 1 <= p_N p;
    tw_kern : p_kern p = "RBF"%string \/ p_kern p = "periodic"%string;
    tw_f : field (List.length (p_y1 p)) (p_N p) (call2 (p_f p));
    tw_g : (mr (p_g p) = 1 \/ mr (p_g p) = List.length (p_y1 p)) /\ mc (p_g p) = 1;
    tw_U : p_reweight p = true -> p_det p = true -> potential (List.length (p_y1 p)) (p_N p) (ocall2 (p_U p));
    tw_U1 : p_reweight p = true -> p_det p = false -> potential1 (List.length (p_y1 p)) (p_N p) (ocall1 (p_U p)) }.

  (** an answer or ValueError, nothing else *)
  Definition answer_or_ValueError {A} (m : M S A) : Prop := forall s,
    (exists a s', m s = (Ok a, s')) \/ (exists s', m s = (Err ValueError, s')).
End TTotalSpec.

(** the two ensembles together take at least two values in coordinate d *)
Definition jointly_spread {T : Type} {O : NumOps T} (z b : mat T) (d : nat) : Prop :=
  exists v w, v <> w /\ ((exists n, n < mc z /\ get z d n = v) \/ (exists n, n < mc b /\ get b d n = v)) /\
                        ((exists n, n < mc z /\ get z d n = w) \/ (exists n, n < mc b /\ get b d n = w)).
