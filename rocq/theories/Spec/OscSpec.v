(** Phase oscillators over the reals; nothing here refers to the code. *)
From Coq Require Import List ZArith Reals.
From Verif Require Import Spec.RealSpec.
Import ListNotations.
Local Open Scope R_scope.

(** the same angle *)
Definition same_phase (a b : R) : Prop := exists z : Z, a - b = 2 * PI * IZR z.
(** reduction modulo 2 pi into [0, 2 pi) *)
Definition wraps (w : R -> R) : Prop := forall x, 0 <= w x < 2 * PI /\ same_phase (w x) x.
(** modulus of the mean of exp(i x_0), ..., exp(i x_(n-1)) *)
Definition order_parameter (n : nat) (x : nat -> R) : R :=
  sqrt (sumn n (fun i => cos (x i)) ^ 2 + sumn n (fun i => sin (x i)) ^ 2) / INR n.
(** the Kuramoto model: d x_j = (w_j + K/n sum_i sin(x_i - x_j)) dt *)
Definition kuramoto (n : nat) (K : R) (w x : nat -> R) (j : nat) : R :=
  w j + K / INR n * sumn n (fun i => sin (x i - x j)).
