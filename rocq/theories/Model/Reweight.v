(** reweighting/optimal_transport_reweighting.py *)
From Coq Require Import List ZArith Lia Bool.
From Verif Require Import Base.Num Base.Py Base.Arr Model.Ext Model.Cdist.
Import ListNotations.

Section Reweight.
  Context {T S : Type} {O : NumOps T} (E : Ext T S).

  (** optimal_transport_reweighting.py:17-57.  samples: N x dim, weights: the N weights (already flattened,
      line 52 reshapes).  Line 49: Euclidean costs;  50: b = ones(N)/N;  52: the flow of pyemd (which raises
      ValueError when the two histograms differ in length);  54: T = flow * N. *)
  Definition reweight_optimal_transport_multidim (samples : mat T) (weights : list T) : res (mat T) :=
    let n := mr samples in
    let covar := square_pdist samples in
    let b := repeat (ndiv none1 (nofnat n)) n in
    if length weights =? n then
      let flow := x_emd E weights b covar in
      Ok (muls (mk n n flow) (nofnat n))
    else Err ValueError.
End Reweight.
