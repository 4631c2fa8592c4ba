(** Two problems that cannot be told apart up to a given time. *)
From Coq Require Import String List ZArith Bool.
From Verif Require Import Base.Num Base.Py Base.Arr Model.Ext Model.DPFC.
Import ListNotations.

Section CausalSpec.
  Context {T : Type} {O : NumOps T}.
  (** same start, sizes, diffusion and options; the drift and the constraint return the same values for the times in L, the grid times
      considered (the drift is evaluated one step width 0.001 earlier).  Nothing is said about t2, y2, f_true, the bridge option, and
      drift and constraint at other times *)
  Record same_at_times (L : list T) (p p' : params T) : Prop := {
    st_t1 : p_t1 p' = p_t1 p; st_y1 : p_y1 p' = p_y1 p; st_g : p_g p' = p_g p; st_N : p_N p' = p_N p; st_M : p_M p' = p_M p;
    st_rw : p_reweight p' = p_reweight p; st_kern : p_kern p' = p_kern p; st_det : p_det p' = p_det p;
    st_f : forall x t, In t L -> call2 (p_f p') x (nsub t nmilli) = call2 (p_f p) x (nsub t nmilli);
    st_U : p_reweight p = true -> forall x t, In t L -> ocall2 (p_U p') x t = ocall2 (p_U p) x t;
    (* stochastic mode calls these without a time *)
    st_f1 : p_det p = false -> forall x, call1 (p_f p') x = call1 (p_f p) x;
    st_U1 : p_det p = false -> p_reweight p = true -> forall x, ocall1 (p_U p') x = ocall1 (p_U p) x }.
  (** the flows A and B have the same particles at grid index t *)
  Definition same_slice (A B : arr3 T) (t : nat) : Prop :=
    a_d A = a_d B /\ a_n A = a_n B /\ forall d n, d < a_d A -> n < a_n A -> get3 A d n t = get3 B d n t.
End CausalSpec.
