(** Vocabulary for the query functions calculate_u and check_if_covered. *)
From Coq Require Import String List ZArith Lia Bool.
From Verif Require Import Base.Num Base.Py Base.Arr Model.Ext Model.Score Model.DPFC Spec.FlowSpec.
Import ListNotations.

Section QuerySpec.
  Context {T S : Type} {O : NumOps T} (E : Ext T S).

  (** the flows of the object have one particle per column, one slice per grid point, one row per coordinate of y1;
      the auxiliary flow exists when reweight and brown_bridge are both set (every constructed object is such) *)
  Definition consistent (o : obj T) (dim N k : nat) : Prop :=
    List.length (p_y1 (o_par o)) = dim /\ List.length (o_grid o) = k /\
    has_shape (o_Z o) dim N k /\ has_shape (o_B o) dim N k /\
    (p_reweight (o_par o) && p_brown (o_par o) = true -> exists Zt, o_Ztr o = Some Zt /\ has_shape Zt dim N k).

  (** the flow used as the forward one by calculate_u *)
  Definition forward_of (o : obj T) (A : arr3 T) : Prop :=
    if p_reweight (o_par o) && p_brown (o_par o) then o_Ztr o = Some A else A = o_Z o.

  (** the Python index ti selects the slice j of k *)
  Definition selects (k : nat) (ti : Z) (j : nat) : Prop :=
    j < k /\ (ti = Z.of_nat j \/ ti = Z.of_nat j - Z.of_nat k)%Z.

  (** first six or last five indices, or a negative index *)
  Definition edge (k : nat) (ti : Z) : Prop := (ti <= 5 \/ Z.of_nat k - 5 <= ti)%Z.

  (** -(x - mean)/std^2 of one coordinate of an ensemble *)
  Definition gauss_score (z : mat T) (d : nat) (x : T) : T :=
    ndiv (nopp (nsub x (nmean (row z d)))) (nsq (nstd (row z d))).

  (** the single evaluation point number i of a batch *)
  Definition point (gx : mat T) (i : nat) : mat T := mk 1 (mc gx) (fun _ d => get gx i d).

  (** the score function estimated from ensemble z with given inducing points, for coordinate d, evaluated at gx *)
  Definition estimated (kern : string) (z Zp : mat T) (d : nat) (gx : mat T) (v : list T) : Prop :=
    exists fn, score_function_multid_seperate_fun E (mT z) Zp nmilli kern (LVec (lengthscales z)) (Z.of_nat d + 1) = Ok fn /\
               fn gx = Ok v.

  (** exchanging the two flows *)
  Definition exchanged (o : obj T) : obj T := {|
    o_par := o_par o; o_kern := o_kern o; o_grid := o_grid o; o_Z := o_B o; o_B := o_Z o; o_Ztr := o_Ztr o |}.
End QuerySpec.
