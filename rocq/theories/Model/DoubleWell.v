(** The one-dimensional double-well system of the figures: data/scripts_for_plots/double-well/plot_extreme_double_well.py 104-105, 109
    (the same text in plot_non_extreme_double_well.py 139-140, 144). x**4 is repeated multiplication. Both functions act elementwise on arrays. *)
From Coq Require Import List ZArith.
From Verif Require Import Base.Num Base.Py Base.Arr Model.Ext Model.DPFC Model.Examples.

Section DoubleWell.
  Context {T : Type} {O : NumOps T}.
  Let four : T := nlit 4 1.
  (** plot_extreme_double_well.py 104-105: 4*x-4*x*x*x *)
  Definition dw_f1 (x : T) : T := nsub (nmul four x) (nmul (nmul (nmul four x) x) x).
  Definition dw_f (x : mat T) : mat T := mmap1 dw_f1 x.
  (** 109: -2* x**2 + x**4 *)
  Definition dw_V1 (x : T) : T := nadd (nmul (nopp ntwo) (nsq x)) (npow x 4).
  Definition dw_V (x : mat T) : mat T := mmap1 dw_V1 x.
  (** the drift as the package wants it: any second argument, default 0 *)
  Definition dw : callable T := {| call1 := fun x => Ok (dw_f x); call2 := fun x _ => Ok (dw_f x) |}.
End DoubleWell.
