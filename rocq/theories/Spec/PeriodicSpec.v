(** Periodic kernels and score matching with an arbitrary kernel, as mathematics; nothing here refers to the code. *)
From Coq Require Import List ZArith Reals.
From Verif Require Import Spec.RealSpec Spec.KernelSpec.
Local Open Scope R_scope.

(** the periodic kernel with period 2 pi: k(x,y) = prod_d exp( -2 sin^2((x_d - y_d)/2) / l_d^2 ) *)
Definition perk (D : nat) (l : nat -> R) (x y : nat -> R) : R := prodn D (fun d => exp (-2 * sin ((x d - y d) / 2) ^ 2 / l d ^ 2)).

(** what a single lengthscale gives in the code: the coordinates are added up before the sine *)
Definition perk_l1 (D : nat) (l : R) (x y : nat -> R) : R := exp (-2 * sin (sumn D (fun d => Rabs (x d - y d)) / 2) ^ 2 / l ^ 2).

(** the kernel of the function output of the code with a list of lengthscales *)
Definition perk_out (l0 l1 : R) (x y : nat -> R) : R :=
  exp (-2 * sin (Rabs (x 0%nat - y 0%nat) / (l0 * l0))) * exp (-2 * sin ((x 1%nat - y 1%nat) ^ 2 / (l1 * l1))).

(** the function sum_m a_m k(., z_m) *)
Definition kexpansion (k : (nat -> R) -> (nat -> R) -> R) (M : nat) (z : nat -> nat -> R) (a : nat -> R) (x : nat -> R) : R :=
  sumn M (fun m => a m * k x (z m)).

(** J is the value at the coefficients a of the score-matching objective for coordinate d with penalty matrix pen:
    sum_n [ s(x_n)^2/2 + (d s/d x_d)(x_n) ] + lam/2 * a^T pen a,  s = kexpansion a *)
Definition kobjective (k : (nat -> R) -> (nat -> R) -> R) (pen : nat -> nat -> R) (N M : nat) (x z : nat -> nat -> R) (d : nat) (lam : R) (a : nat -> R) (J : R) : Prop :=
  exists ds : nat -> R,
    (forall n, (n < N)%nat -> partial_at (kexpansion k M z a) d (x n) (ds n)) /\
    J = sumn N (fun n => kexpansion k M z a (x n) ^ 2 / 2 + ds n) + lam / 2 * sumn M (fun i => sumn M (fun j => a i * a j * pen i j)).

(** a is the unique minimiser *)
Definition kminimises k pen N M x z d lam (a : nat -> R) : Prop :=
  exists J, kobjective k pen N M x z d lam a J /\
    forall b, exists Jb, kobjective k pen N M x z d lam b Jb /\ J <= Jb /\ ((exists m, (m < M)%nat /\ b m <> a m) -> J < Jb).

(** a is a stationary point: the derivative of the objective vanishes in every direction *)
Definition kstationary k pen N M x z d lam (a : nat -> R) : Prop :=
  forall b, exists J : R -> R, (forall t, kobjective k pen N M x z d lam (fun m => a m + t * b m) (J t)) /\ derivable_pt_lim J 0 0.

(** the objective has no minimum: it takes values below every bound *)
Definition kunbounded k pen N M x z d lam : Prop := forall B, exists b J, kobjective k pen N M x z d lam b J /\ J < B.
