(** Path integral cross entropy in mathematical notation (C78, C79): nothing here refers to the code. *)
From Coq Require Import List ZArith Reals.
From Verif Require Import Spec.RealSpec.
Import ListNotations.
Local Open Scope R_scope.

(** the sixteen features: monomials x^a y^b; the entries 10, 11 and the entries 14, 15 are the same *)
Definition exponents : list (nat * nat) :=
  [(0, 0); (1, 0); (0, 1); (1, 1); (2, 0); (0, 2); (2, 1); (1, 2); (3, 0); (0, 3); (2, 2); (2, 2); (3, 1); (1, 3); (0, 4); (0, 4)]%nat.
Definition feature (l : nat) (x y : R) : R := let (a, b) := nth l exponents (0, 4)%nat in x ^ a * y ^ b.
(** a linear policy: a combination of the first nb features, with coefficients depending on the coordinate d and the time index t *)
Definition policy (nb : nat) (A : nat -> nat -> nat -> R) (d t : nat) (x y : R) : R := sumn nb (fun l => A d t l * feature l x y).

(** N trajectories on k grid points (step h), from x0, driven by the drift F, the policy A (scaled by sig) and the noise sig*W:
    Z d n t state, U d n t control *)
Definition driven (nb N k : nat) (h sig : R) (F : nat -> R -> R -> R) (A : nat -> nat -> nat -> R) (x0 : nat -> R) (Z U W : nat -> nat -> nat -> R) : Prop :=
  forall d n, (d < 2)%nat -> (n < N)%nat ->
    Z d n 0%nat = x0 d /\
    forall t, (t + 1 < k)%nat ->
      U d n t = policy nb A d t (Z 0%nat n t) (Z 1%nat n t) /\
      Z d n (t + 1)%nat = Z d n t + h * F d (Z 0%nat n t) (Z 1%nat n t) + h * sig * U d n t + sig * W d n t.

(** the density, at the path z, of the Euler-Maruyama chain with drift b and noise amplitude sig *)
Definition path_density (k : nat) (h sig : R) (b : nat -> nat -> R) (z : nat -> nat -> R) : R :=
  prodn (k - 1) (fun t => prodn 2 (fun d => normal_density (z d t + h * b d t) (sig ^ 2 * h) (z d (t + 1)%nat))).

(** a is a solution of the weighted least squares problem: sum_n w_n (sum_l a_l phi_l(n) - y_n)^2 is minimal *)
Definition squared_error (nb N : nat) (w : nat -> R) (phi : nat -> nat -> R) (y : nat -> R) (a : nat -> R) : R :=
  sumn N (fun n => w n * (sumn nb (fun l => a l * phi l n) - y n) ^ 2).
Definition least_squares (nb N : nat) (w : nat -> R) (phi : nat -> nat -> R) (y : nat -> R) (a : nat -> R) : Prop :=
  forall b, squared_error nb N w phi y a <= squared_error nb N w phi y b.

(** w is the normalised exponential of -S *)
Definition softmin (N : nat) (S w : nat -> R) : Prop := forall n, (n < N)%nat -> w n = exp (- S n) / sumn N (fun m => exp (- S m)).

(** the end cost of the method: the distance of EVERY coordinate to EVERY coordinate of the target, weighted by the latter *)
Definition end_cost (alpha y2 : nat -> R) (z : nat -> R) : R := sumn 2 (fun d => sumn 2 (fun e => alpha e * Rabs (z d - y2 e))).
(** the cost of a path: control energy, stochastic integral of the control, end cost *)
Definition cost_of (k : nat) (h sig : R) (alpha y2 : nat -> R) (U W : nat -> nat -> R) (zend : nat -> R) : R :=
  sumn 2 (fun d => sumn (k - 1) (fun t => 1 / 2 * U d t ^ 2 * h)) + sumn 2 (fun d => sumn (k - 1) (fun t => U d t * (sig * W d t)))
  + end_cost alpha y2 zend.

(** the mean endpoint has moved by less than 0.001 per iteration, on average, over the last fifty finished iterations *)
Definition stalled (e : nat -> R) (i : nat) : Prop := (50 < i)%nat /\ Rabs (e (i - 1)%nat - e (i - 50)%nat) < 49 / 1000.
(** the end weights a0, a1 and the two cool-down counters after iteration i *)
Definition adapted (e1 e2 : nat -> R) (i : nat) (a0 a1 : R) (c1 c2 : Z) (a0' a1' : R) (c1' c2' : Z) : Prop :=
  (stalled e1 i /\ (c1 <= 0)%Z /\ a0' = 5 / 4 * a0 /\ a1' = a1 /\ c1' = 50%Z /\ c2' = c2) \/
  (~ (stalled e1 i /\ (c1 <= 0)%Z) /\ stalled e2 i /\ (c2 <= 0)%Z /\ a0' = a0 /\ a1' = 5 / 4 * a1 /\ c1' = c1 /\ c2' = 50%Z) \/
  (~ (stalled e1 i /\ (c1 <= 0)%Z) /\ ~ (stalled e2 i /\ (c2 <= 0)%Z) /\ a0' = a0 /\ a1' = a1 /\ c1' = (c1 - 1)%Z /\ c2' = (c2 - 1)%Z).
(** among all solutions the one of least norm *)
Definition best_fit (nb N : nat) (w : nat -> R) (phi : nat -> nat -> R) (y : nat -> R) (a : nat -> R) : Prop :=
  least_squares nb N w phi y a /\ forall b, least_squares nb N w phi y b -> sumn nb (fun l => a l ^ 2) <= sumn nb (fun l => b l ^ 2).

(** P is a pseudo-inverse of the symmetric n x n matrix H: two of the four Penrose equations, H P H = H and H P symmetric *)
Definition pseudo_inverse (n : nat) (H P : nat -> nat -> R) : Prop :=
  (forall i j, (i < n)%nat -> (j < n)%nat -> sumn n (fun p => H i p * sumn n (fun q => P p q * H q j)) = H i j) /\
  (forall i j, (i < n)%nat -> (j < n)%nat -> sumn n (fun p => H i p * P p j) = sumn n (fun p => H j p * P p i)).

(** One training: iters+1 simulations (iterations 0 .. iters) with N paths each, W i the noise of iteration i; A i the coefficients used in
    iteration i, w i the weights of its paths, a0, a1 the weights of the end cost, c1, c2 the cool-down counters. *)
Definition mean_end (N k : nat) (Z : nat -> nat -> nat -> R) (d : nat) : R := mean N (fun n => Z d n (k - 1)%nat).
Definition close_end (N k : nat) (y2 : nat -> R) (Z : nat -> nat -> nat -> R) : Prop :=
  Rabs (mean_end N k Z 0 - y2 0%nat) <= 1 / 100 /\ Rabs (mean_end N k Z 1 - y2 1%nat) <= 1 / 100.
Definition pice_history (nb N k iters : nat) (h sig eta : R) (F : nat -> R -> R -> R) (x0 y2 : nat -> R)
    (W A Z U : nat -> nat -> nat -> nat -> R) (w : nat -> nat -> R) (a0 a1 : nat -> R) (c1 c2 : nat -> BinInt.Z) : Prop :=
  (forall d t l, A 0%nat d t l = 0) /\ a0 0%nat = 1 /\ a1 0%nat = 1 /\ c1 0%nat = 0%Z /\ c2 0%nat = 0%Z /\
  (forall i, (i <= iters)%nat ->
     driven nb N k h sig F (A i) x0 (Z i) (U i) (W i) /\
     softmin N (fun n => cost_of k h sig (fun e => if Nat.eqb e 0 then a0 i else a1 i) y2 (fun d t => U i d n t) (fun d t => W i d n t) (fun d => Z i d n (k - 1)%nat)) (w i)) /\
  (forall i, (i < iters)%nat ->
     ~ close_end N k y2 (Z i) /\
     adapted (fun j => mean_end N k (Z j) 0) (fun j => mean_end N k (Z j) 1) i (a0 i) (a1 i) (c1 i) (c2 i) (a0 (i + 1)%nat) (a1 (i + 1)%nat) (c1 (i + 1)%nat) (c2 (i + 1)%nat) /\
     forall d, (d < 2)%nat ->
       (forall t, (t + 1 < k)%nat ->
          best_fit nb N (w i) (fun l n => feature l (Z i 0%nat n t) (Z i 1%nat n t)) (fun n => eta * (sig * W i d n t) / h) (fun l => A (i + 1)%nat d t l - A i d t l)) /\
       forall l, A (i + 1)%nat d (k - 1)%nat l = A i d (k - 1)%nat l).
