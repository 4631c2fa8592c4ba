(** What is assumed of code outside the repository in the theorems over exact reals.  Each is stated where it is used
    as a hypothesis of the theorem; Run/RealExt.v exhibits an environment that meets all of them at once. *)
From Coq Require Import List ZArith Reals.
From Verif Require Import Base.Num Base.Py Base.Arr Model.Ext Spec.RealSpec.
Import ListNotations.
Local Open Scope R_scope.

Section Contracts.
  Context {S : Type} (E : Ext R S).

  (** np.random.uniform(lo, hi, size) returns numbers between lo and hi (numpy: lo + (hi-lo)*u with 0 <= u < 1) *)
  Definition uniform_in_range : Prop := forall s lo hi m h s', x_uniform E s lo hi m = (Ok h, s') ->
    forall i, (i < m)%nat -> Rmin lo hi <= h i <= Rmax lo hi.
  (** torch.distributions.Uniform(lo, hi).sample([m]) *)
  Definition tuniform_in_range : Prop := forall s lo hi m i d, (i < m)%nat -> (d < length lo)%nat ->
    nth d lo 0 <= nth d hi 0 -> nth d lo 0 <= fst (x_tuniform E s lo hi m) i d <= nth d hi 0.

  (** h is the inverse of the n x n matrix A *)
  Definition delta (i j : nat) : R := if Nat.eqb i j then 1 else 0.
  Definition inverse_of (n : nat) (A h : nat -> nat -> R) : Prop :=
    forall i j, (i < n)%nat -> (j < n)%nat ->
      sumn n (fun l => A i l * h l j) = delta i j /\ sumn n (fun l => h i l * A l j) = delta i j.
  (** np.linalg.inv: the inverse when there is one, LinAlgError exactly when there is none (exact arithmetic) *)
  Definition inv_contract : Prop := forall A : mat R, mr A = mc A ->
    match x_inv E A with
    | Some h => inverse_of (mr A) (get A) h
    | None => ~ exists h, inverse_of (mr A) (get A) h
    end.

  (** a transport plan between two histograms of length n; its cost; optimality *)
  Definition plan (n : nat) (a b : nat -> R) (P : nat -> nat -> R) : Prop :=
    (forall i j, (i < n)%nat -> (j < n)%nat -> 0 <= P i j) /\
    (forall i, (i < n)%nat -> sumn n (fun j => P i j) = a i) /\
    (forall j, (j < n)%nat -> sumn n (fun i => P i j) = b j).
  Definition plan_cost (n : nat) (c P : nat -> nat -> R) : R := sumn n (fun i => sumn n (fun j => c i j * P i j)).
  Definition optimal (n : nat) (a b : nat -> R) (c P : nat -> nat -> R) : Prop :=
    plan n a b P /\ forall Q, plan n a b Q -> plan_cost n c P <= plan_cost n c Q.
  Definition hist (l : list R) (i : nat) : R := nth i l 0.

  (** pyemd / ot.emd: for nonnegative histograms of equal mass, a plan with exactly these marginals, of minimal cost *)
  Definition emd_spec (emd : list R -> list R -> mat R -> nat -> nat -> R) : Prop := forall n a b C,
    length a = n -> length b = n -> mr C = n -> mc C = n ->
    (forall i, (i < n)%nat -> 0 <= hist a i) -> (forall i, (i < n)%nat -> 0 <= hist b i) -> sumn n (hist a) = sumn n (hist b) ->
    (forall i j, (i < n)%nat -> (j < n)%nat -> 0 <= get C i j) ->
    optimal n (hist a) (hist b) (get C) (emd a b C).
  Definition emd_contract : Prop := emd_spec (x_emd E).
  (** weaker: a plan with exactly these marginals, optimal or not *)
  Definition emd_plans (emd : list R -> list R -> mat R -> nat -> nat -> R) : Prop := forall n a b C,
    length a = n -> length b = n -> mr C = n -> mc C = n ->
    (forall i, (i < n)%nat -> 0 <= hist a i) -> (forall i, (i < n)%nat -> 0 <= hist b i) -> sumn n (hist a) = sumn n (hist b) ->
    (forall i j, (i < n)%nat -> (j < n)%nat -> 0 <= get C i j) ->
    plan n (hist a) (hist b) (emd a b C).
  Definition otemd_contract : Prop := emd_spec (x_otemd E).
End Contracts.
