(** Plain mathematics used in the statements over the exact reals; nothing here refers to the code. *)
From Coq Require Import List ZArith Reals.
Import ListNotations.
Local Open Scope R_scope.

(** f 0 + ... + f (n-1), f 0 * ... * f (n-1) *)
Fixpoint sumn (n : nat) (f : nat -> R) : R := match n with O => 0 | S m => sumn m f + f m end.
Fixpoint prodn (n : nat) (f : nat -> R) : R := match n with O => 1 | S m => prodn m f * f m end.

(** empirical mean and (population) variance of x 0, ..., x (n-1) *)
Definition mean (n : nat) (x : nat -> R) : R := sumn n x / INR n.
Definition variance (n : nat) (x : nat -> R) : R := sumn n (fun i => (x i - mean n x) ^ 2) / INR n.

(** density of the normal distribution *)
Definition normal_density (mu var x : R) : R := exp (- (x - mu) ^ 2 / (2 * var)) / sqrt (2 * PI * var).

(** v is the derivative at x of the logarithm of that density *)
Definition normal_score (mu var x v : R) : Prop := derivable_pt_lim (fun y => ln (normal_density mu var y)) x v.
