(** The Gaussian kernel and regularised score matching, as mathematics; nothing here refers to the code. *)
From Coq Require Import List ZArith Reals.
From Verif Require Import Spec.RealSpec.
Local Open Scope R_scope.

(** points of R^D are functions of the coordinate; k(x,y) = exp( - sum_d (x_d - y_d)^2 / (2 l_d^2) ) *)
Definition gaussk (D : nat) (l : nat -> R) (x y : nat -> R) : R :=
  exp (- sumn D (fun d => (x d - y d) ^ 2 / (2 * l d ^ 2))).

(** x with coordinate d replaced by t *)
Definition moved (x : nat -> R) (d : nat) (t : R) : nat -> R := fun j => if Nat.eqb j d then t else x j.

(** v is the partial derivative of F with respect to coordinate d at x *)
Definition partial_at (F : (nat -> R) -> R) (d : nat) (x : nat -> R) (v : R) : Prop :=
  derivable_pt_lim (fun t => F (moved x d t)) (x d) v.

(** the function sum_m a_m k(., z_m) *)
Definition expansion (M D : nat) (l : nat -> R) (z : nat -> nat -> R) (a : nat -> R) (x : nat -> R) : R :=
  sumn M (fun m => a m * gaussk D l x (z m)).

(** J is the regularised score-matching objective of the coefficients a for coordinate d, from N samples x_n:
    sum_n [ s(x_n)^2/2 + (d s/d x_d)(x_n) ] + lam/2 * a^T (K_zz + rho I) a,  s = expansion a *)
Definition objective (N M D : nat) (l : nat -> R) (x z : nat -> nat -> R) (d : nat) (lam rho : R) (a : nat -> R) (J : R) : Prop :=
  exists ds : nat -> R,
    (forall n, (n < N)%nat -> partial_at (expansion M D l z a) d (x n) (ds n)) /\
    J = sumn N (fun n => expansion M D l z a (x n) ^ 2 / 2 + ds n)
        + lam / 2 * sumn M (fun i => sumn M (fun j => a i * a j * (gaussk D l (z i) (z j) + if Nat.eqb i j then rho else 0))).

(** a is the unique minimiser of the objective *)
Definition minimises (N M D : nat) (l : nat -> R) (x z : nat -> nat -> R) (d : nat) (lam rho : R) (a : nat -> R) : Prop :=
  exists J, objective N M D l x z d lam rho a J /\
    forall b, exists Jb, objective N M D l x z d lam rho b Jb /\ J <= Jb /\
      ((exists m, (m < M)%nat /\ b m <> a m) -> J < Jb).

(** s is the score function learned for coordinate d from the N samples x with M inducing points z: the kernel expansion whose
    coefficients minimise the regularised score-matching objective (weight lam, jitter rho) *)
Definition matched_score (N M D : nat) (l : nat -> R) (x z : nat -> nat -> R) (lam rho : R) (d : nat) (s : (nat -> R) -> R) : Prop :=
  exists a, minimises N M D l x z d lam rho a /\ forall p, s p = expansion M D l z a p.
