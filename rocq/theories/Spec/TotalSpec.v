(** When construction is supposed to succeed. *)
From Coq Require Import String List ZArith Lia Bool.
From Verif Require Import Base.Num Base.Py Base.Arr Model.Ext Model.Score Model.DPFC.
Import ListNotations.

Section TotalSpec.
  Context {T S : Type} {O : NumOps T} (E : Ext T S).

  (** a vector field that accepts every dim x N ensemble and returns one velocity per particle *)
  Definition field (dim N : nat) (fd : mat T -> T -> res (mat T)) : Prop :=
    forall x t, mr x = dim -> mc x = N -> exists F, fd x t = Ok F /\ mr F = dim /\ mc F = N.
  (** a potential that returns one number per particle *)
  Definition potential (dim N : nat) (U : mat T -> T -> res (mat T)) : Prop :=
    forall x t, mr x = dim -> mc x = N -> exists u, U x t = Ok u /\ mr u = 1 /\ mc u = N.

  Record well_posed (p : params T) : Prop := {
    wp_dim : 1 <= List.length (p_y1 p);
    wp_y : List.length (p_y2 p) = List.length (p_y1 p);
    wp_N : 1 <= p_N p;
    wp_kern : p_kern p = "RBF"%string \/ p_kern p = "periodic"%string;
    wp_f : field (List.length (p_y1 p)) (p_N p) (call2 (p_f p));
    wp_g : (mr (p_g p) = 1 \/ mr (p_g p) = List.length (p_y1 p)) /\ mc (p_g p) = 1;
    wp_U : p_reweight p = true -> potential (List.length (p_y1 p)) (p_N p) (ocall2 (p_U p));
    wp_ft : p_reweight p = true -> p_brown p = true -> field (List.length (p_y1 p)) (p_N p) (ocall2 (p_f_true p)) }.

  (** the stochastic mode (deterministic=False): at least two coordinates, a number g, a drift that can also be called with one argument on the
      coordinates of a single particle, and a potential called with one argument *)
  Record well_posed_stochastic (p : params T) : Prop := {
    ws_dim : 2 <= List.length (p_y1 p);
    ws_y : List.length (p_y2 p) = List.length (p_y1 p);
    ws_N : 1 <= p_N p;
    ws_kern : p_kern p = "RBF"%string \/ p_kern p = "periodic"%string;
    ws_f : field (List.length (p_y1 p)) (p_N p) (call2 (p_f p));
    ws_f1 : forall x, mr x = 1 -> mc x = List.length (p_y1 p) -> exists F, call1 (p_f p) x = Ok F /\ mr F = 1 /\ mc F = List.length (p_y1 p);
    ws_g : mr (p_g p) = 1 /\ mc (p_g p) = 1;
    ws_U : p_reweight p = true -> forall x, mr x = List.length (p_y1 p) -> mc x = p_N p -> exists u, ocall1 (p_U p) x = Ok u /\ mr u = 1 /\ mc u = p_N p }.

  (** the generator never overflows; the plots drawn on non-finite numbers need two coordinates *)
  Definition no_overflow : Prop := forall s lo hi m, exists h s', x_uniform E s lo hi m = (Ok h, s').
  Definition plots_ok (dim : nat) : Prop := 2 <= dim \/ forall v : T, nbad v = false.
  (** no linear solve fails *)
  Definition no_singular : Prop := forall A : mat T, mr A = mc A -> x_inv E A <> None.
End TotalSpec.
