(** Particles without labels: the same ensembles with the particles numbered differently.  s is the renumbering: the new particle i
    is the old particle s(i). *)
From Coq Require Import String List ZArith Reals.
From Verif Require Import Base.Num Base.Py Base.Arr Model.Ext Model.DPFC Spec.FlowSpec Spec.AffineSpec.
Import ListNotations.
Local Open Scope R_scope.

Section Label.
  Context (N : nat) (s : nat -> nat).

  (** s permutes 0, ..., N-1 *)
  Definition renumbering : Prop :=
    (forall i, (i < N)%nat -> (s i < N)%nat) /\ (forall i j, (i < N)%nat -> (j < N)%nat -> s i = s j -> i = j).

  (** the columns of an array of N columns are renumbered; an array with any other number of columns (a number, one value per
      coordinate) has nothing to do with the particles and is the same *)
  Definition old (cols j : nat) : nat := if Nat.eqb cols N then s j else j.
  Definition columns_renumbered (A A' : mat R) : Prop :=
    mr A' = mr A /\ mc A' = mc A /\ forall d j, (d < mr A)%nat -> (j < mc A)%nat -> get A' d j = get A d (old (mc A) j).
  Definition flow_renumbered (A A' : arr3 R) : Prop :=
    a_d A' = a_d A /\ a_n A' = a_n A /\ a_k A' = a_k A /\
    forall d i t, (d < a_d A)%nat -> (i < a_n A)%nat -> (t < a_k A)%nat -> get3 A' d i t = get3 A d (s i) t.

  (** a callable that treats all particles alike: on the renumbered ensemble it gives the renumbered answer (or the same exception) *)
  Definition treats_alike (dim : nat) (f : mat R -> res (mat R)) : Prop := forall x x', rect x -> rect x' -> mr x = dim -> mc x = N ->
    columns_renumbered x x' -> same_outcome columns_renumbered (f x) (f x').

  (** the drift, the reference drift, the constraint and the noise amplitude of a problem treat all particles alike *)
  Record label_free (p : params R) : Prop := {
    lf_N : p_N p = N;
    lf_f : forall t, treats_alike (List.length (p_y1 p)) (fun x => call2 (p_f p) x t);
    lf_ftrue : forall t, treats_alike (List.length (p_y1 p)) (fun x => ocall2 (p_f_true p) x t);
    lf_U : forall t, treats_alike (List.length (p_y1 p)) (fun x => ocall2 (p_U p) x t);
    lf_g : columns_renumbered (p_g p) (p_g p) }.

  (** the plan a transport solver returns for renumbered histograms and costs is the renumbered plan (which matters only where the
      optimal plan is not unique) *)
  Definition plan_renumbered (emd emd' : list R -> list R -> mat R -> nat -> nat -> R) : Prop :=
    forall a b C a' b' C', List.length a = N -> List.length b = N -> mr C = N -> mc C = N ->
      List.length a' = N -> List.length b' = N -> mr C' = N -> mc C' = N -> rect C -> rect C' ->
      (forall i, (i < N)%nat -> nth i a' 0 = nth (s i) a 0) -> (forall i, (i < N)%nat -> nth i b' 0 = nth (s i) b 0) ->
      (forall i j, (i < N)%nat -> (j < N)%nat -> get C' i j = get C (s i) (s j)) ->
      forall i j, (i < N)%nat -> (j < N)%nat -> emd' a' b' C' i j = emd a b C (s i) (s j).

  (** the environment E' is E with the particles renumbered: the columns of its noise arrays and the plans of its transport solvers
      are renumbered; the other oracles are the same *)
  Record env_renumbered {S : Type} (E E' : Ext R S) : Prop := {
    er_normal : forall st sc d, snd (x_normal E' st sc d N) = snd (x_normal E st sc d N) /\
      forall i j, (i < d)%nat -> (j < N)%nat -> fst (x_normal E' st sc d N) i j = fst (x_normal E st sc d N) i (s j);
    er_uniform : x_uniform E' = x_uniform E; er_tuniform : x_tuniform E' = x_tuniform E; er_inv : x_inv E' = x_inv E;
    er_emd : plan_renumbered (x_emd E) (x_emd E'); er_otemd : plan_renumbered (x_otemd E) (x_otemd E') }.

  (** what a constructed object exposes *)
  Definition object_renumbered (o o' : obj R) : Prop :=
    o_par o' = o_par o /\ o_kern o' = o_kern o /\ o_grid o' = o_grid o /\ flow_renumbered (o_Z o) (o_Z o') /\ flow_renumbered (o_B o) (o_B o') /\
    match o_Ztr o, o_Ztr o' with Some A, Some A' => flow_renumbered A A' | None, None => True | _, _ => False end.
End Label.
