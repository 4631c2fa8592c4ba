(** The example systems in mathematical notation (C75, C76). *)
From Coq Require Import Reals.
Local Open Scope R_scope.

(** the Rosenbrock potential *)
Definition rosenbrock (b x y : R) : R := b * (y - x ^ 2) ^ 2 + (1 - x) ^ 2.

(** g is the partial derivative of F with respect to its first / second argument at (x, y) *)
Definition partial1 (F : R -> R -> R) (x y g : R) : Prop := derivable_pt_lim (fun s => F s y) x g.
Definition partial2 (F : R -> R -> R) (x y g : R) : Prop := derivable_pt_lim (fun s => F x s) y g.

(** Hill functions with exponent 4: activation and repression *)
Definition act (p x : R) : R := x ^ 4 / (p ^ 4 + x ^ 4).
Definition rep (p x : R) : R := p ^ 4 / (p ^ 4 + x ^ 4).
(** two genes, each activating itself and repressing the other one, with decay *)
Definition fate1 (p x y : R) : R := act p x + rep p y - x.
Definition fate2 (p x y : R) : R := act p y + rep p x - y.

(** 2 x 2 matrices as functions of the four entries: the right-hand side of the covariance equation of dX = A X dt + s dW, where Q = s s^T *)
Definition lyapunov (A P Q : nat -> nat -> R) (i j : nat) : R :=
  (A i 0%nat * P 0%nat j + A i 1%nat * P 1%nat j) + (P i 0%nat * A j 0%nat + P i 1%nat * A j 1%nat) + Q i j.
(** the covariance after one Euler-Maruyama step of length h from covariance P: (I + h A) P (I + h A)^T + h Q *)
Definition em_cov (A P Q : nat -> nat -> R) (h : R) (i j : nat) : R :=
  let I i j := if Nat.eqb i j then 1 else 0 in
  let B i k := I i k + h * A i k in
  B i 0%nat * P 0%nat 0%nat * B j 0%nat + B i 0%nat * P 0%nat 1%nat * B j 1%nat + B i 1%nat * P 1%nat 0%nat * B j 0%nat + B i 1%nat * P 1%nat 1%nat * B j 1%nat + h * Q i j.

From Verif Require Import Spec.RealSpec.
(** the logarithm, up to a constant, of the density of the Gaussian with mean m and inverse covariance J in n dimensions *)
Definition log_gauss (n : nat) (J : nat -> nat -> R) (m x : nat -> R) : R :=
  - (1 / 2) * sumn n (fun i => sumn n (fun j => (x i - m i) * J i j * (x j - m j))).
(** g is the partial derivative of F at x in direction d *)
Definition at_coord (x : nat -> R) (d : nat) (s : R) : nat -> R := fun i => if Nat.eqb i d then s else x i.
Definition gradient_at (F : (nat -> R) -> R) (x : nat -> R) (d : nat) (g : R) : Prop := derivable_pt_lim (fun s => F (at_coord x d s)) (x d) g.

(** one Euler-Maruyama step, of length 1/1000, of dX = (B X + u(X, t)) dt + sg dW in the plane, from grid index t-1 to t, of reps trajectories;
    the noise is drawn from the generator state s *)
From Verif Require Import Base.Num Base.Py Base.Arr Model.Ext.
Definition driven_step {S : Type} (E : Ext R S) (B sg : nat -> nat -> R) (u : mat R -> BinInt.Z -> res (mat R)) (reps : nat) (F : arr3 R) (t : nat) (s : S) : Prop :=
  exists U, u (slice F (t - 1)) (BinInt.Z.of_nat (t - 1)) = Ok U /\
    forall d r, (d < 2)%nat -> (r < reps)%nat ->
      get3 F d r t = get3 F d r (t - 1) + 1 / 1000 * sumn 2 (fun l => B d l * get3 F l r (t - 1)) + 1 / 1000 * get U d r
        + sumn 2 (fun l => sg d l * fst (x_normal E s (sqrt (1 / 1000)) 2 reps) l r).
(** the state of the generator after m such draws *)
Fixpoint draws {S : Type} (E : Ext R S) (reps m : nat) (s : S) : S :=
  match m with 0%nat => s | Datatypes.S m' => snd (x_normal E (draws E reps m' s) (sqrt (1 / 1000)) 2 reps) end.
