(** Vocabulary for the statements about IEEE double precision: the order of doubles, and what is assumed of numpy's exp and of its
    summation.  Nothing here refers to the code. *)
From Coq Require Import List ZArith Reals Permutation.
From Flocq Require Import Core BinarySingleNaN.
From Verif Require Import Base.Num Base.Py Base.Arr Model.Ext Model.Score Run.Double Spec.RealSpec Spec.ReweightSpec.
Import ListNotations.
Local Open Scope R_scope.

(** not NaN (infinities are numbers) *)
Definition number (x : double) : Prop := is_nan x = false.
(** both are numbers and x <= y *)
Definition dle (x y : double) : Prop := Bleb x y = true.
Definition finite (x : double) : Prop := is_finite x = true.
Definition dinf : double := B754_infinity false.
Definition dNaN : double := B754_nan.

(** s is the sum of the numbers in l, added up in some order and association, each addition correctly rounded (numpy's pairwise
    summation, a loop, several accumulators; starting from 0 or from the first element) *)
Inductive tree_sum : list double -> double -> Prop :=
| ts_nil : tree_sum [] (dZ 0)
| ts_one x : tree_sum [x] x
| ts_add l l1 l2 x y : Permutation l (l1 ++ l2) -> tree_sum l1 x -> tree_sum l2 y -> tree_sum l (Bplus mode_NE x y).
Definition sum_contract (fsum : list double -> double) : Prop := forall l, tree_sum l (fsum l).

(** what is assumed of exp: NaN out of NaN, no NaN out of a number, never negative, at most 1 for non-positive arguments, 1 at zero, 0 far below the
    smallest double (e^-745.2), and accurate to 4 units in the last place where neither overflow nor underflow is near *)
Record exp_contract (fexp : double -> double) : Prop := {
  ex_nan : fexp dNaN = dNaN;
  ex_number : forall x, number x -> dle (dZ 0) (fexp x);
  ex_le1 : forall x, dle x (dZ 0) -> dle (fexp x) (dZ 1);
  ex_zero : forall s, fexp (B754_zero s) = dZ 1;
  ex_underflow : forall x, dle x (dZ (-760)) -> fexp x = dZ 0;
  ex_accurate : forall x, finite x -> Rabs (B2R x) <= 600 -> finite (fexp x) /\ Rabs (B2R (fexp x) - exp (B2R x)) <= exp (B2R x) * (4 * u) }.

Section Ranges.
  Context {O : NumOps double}.
  (** some particle's d-th coordinate is NaN *)
  Definition has_nan (z : mat double) (d : nat) : Prop := exists n, (n < mc z)%nat /\ get z d n = dNaN.
  (** x lies between the smallest and the largest d-th coordinate of the particles (in particular x is not NaN) *)
  Definition d_in_range (z : mat double) (d : nat) (x : double) : Prop :=
    (exists n, (n < mc z)%nat /\ dle (get z d n) x) /\ (exists n, (n < mc z)%nat /\ dle x (get z d n)).
  Definition d_in_hull (z b : mat double) (d : nat) (x : double) : Prop :=
    ((exists n, (n < mc z)%nat /\ dle (get z d n) x) \/ (exists n, (n < mc b)%nat /\ dle (get b d n) x)) /\
    ((exists n, (n < mc z)%nat /\ dle x (get z d n)) \/ (exists n, (n < mc b)%nat /\ dle x (get b d n))).
End Ranges.
(** x is an integer multiple of a power of two that leaves log2 of n bits unused, and is not huge *)
Definition short (x : double) (n : nat) : Prop :=
  finite x /\ exists (m e : Z), B2R x = IZR m * bpow radix2 e /\ (Z.abs m * Z.of_nat n <= 9007199254740992)%Z /\ (-1074 <= e <= 900)%Z.
(** a lengthscale whose square neither overflows nor underflows *)
Definition usable (l : double) : Prop := finite l /\ bpow radix2 (-500) <= Rabs (B2R l) <= bpow radix2 500.
(** the d-th lengthscale *)
Definition d_scale (l : lscale double) (d : nat) : double := match l with LScal v => v | LVec ls => nth d ls dNaN end.
(** points as rows with D coordinates, one lengthscale per coordinate (or a single one) *)
Definition d_args (D : nat) (x y : mat double) (l : lscale double) : Prop :=
  mc x = D /\ mc y = D /\ match l with LScal _ => True | LVec ls => List.length ls = D end.
(** coordinates and lengthscales of ordinary size *)
Definition plain_coord (x : double) : Prop := finite x /\ Rabs (B2R x) <= 10000.
Definition plain_scale (l : double) : Prop := finite l /\ / 1000000 <= Rabs (B2R l) <= 10000.
(** the exact exponent of the Gaussian kernel: the sum over d of (x_d - y_d)^2 / (2 l_d^2) *)
Definition gauss_exponent {O : NumOps double} (D : nat) (x y : mat double) (l : lscale double) (i j : nat) : R :=
  sumn D (fun d => (B2R (get x i d) - B2R (get y j d)) ^ 2 / (2 * B2R (d_scale l d) ^ 2)).
(** what the weights w of N particles with exponents e are worth.  Exponents that are numbers: either proper weights (finite, in [0,1],
    adding up to 1 within N 2^-50), or NaN because every exponential underflowed to 0, or 0 and NaN because their sum overflowed.
    Exponents of at most -760: NaN.  Exponents of at most 600 in absolute value: exp(e_n) / sum exp(e_m) up to rounding *)
Definition weights_worth (fexp : double -> double) (N : nat) (e : nat -> double) (w : list double) : Prop :=
  List.length w = N /\
  ((forall n, (n < N)%nat -> number (e n)) ->
     ((forall n, (n < N)%nat -> finite (nth n w dNaN) /\ 0 <= B2R (nth n w dNaN) <= 1) /\ Rabs (sumn N (fun n => B2R (nth n w dNaN)) - 1) <= INR N * / 1125899906842624)
     \/ ((forall n, (n < N)%nat -> finite (fexp (e n)) /\ B2R (fexp (e n)) = 0) /\ w = repeat dNaN N)
     \/ (tree_sum (map (fun n => fexp (e n)) (seq 0 N)) dinf /\
         forall n, (n < N)%nat -> (finite (fexp (e n)) -> finite (nth n w dNaN) /\ B2R (nth n w dNaN) = 0) /\ (~ finite (fexp (e n)) -> nth n w (dZ 0) = dNaN))) /\
  ((forall n, (n < N)%nat -> dle (e n) (dZ (-760))) -> w = repeat dNaN N) /\
  ((forall n, (n < N)%nat -> finite (e n) /\ Rabs (B2R (e n)) <= 600) ->
     forall n, (n < N)%nat -> let v := softmax N (fun m => B2R (e m)) n in
       finite (nth n w dNaN) /\ Rabs (B2R (nth n w dNaN) - v) <= v * ((4 * INR N + 14) * u) + eta).


(** np.random.uniform(low, high): an interval that is a single finite point gives this point (low + 0.0*u: up to the sign of zero) *)
Definition uniform_point {S} (E : Ext double S) : Prop :=
  forall s lo m h s', finite lo -> x_uniform E s lo lo m = (Ok h, s') -> forall i, (i < m)%nat -> finite (h i) /\ B2R (h i) = B2R lo.
(** np.random.uniform raises (OverflowError: Range exceeds valid bounds) unless high - low is finite *)
Definition uniform_finite {S} (E : Ext double S) : Prop :=
  forall s lo hi m h s', x_uniform E s lo hi m = (Ok h, s') -> finite (Bminus mode_NE hi lo).

(** ** ensembles whose mean and variance double precision resolves *)
Section Ensemble.
  Context {O : NumOps double}.
  (** the exact values of the d-th coordinates *)
  Definition coord (z : mat double) (d n : nat) : R := B2R (get z d n).
  (** their exact variance with divisor M *)
  Definition spread (M : R) (z : mat double) (d : nat) : R := sumn (mc z) (fun n => (coord z d n - mean (mc z) (coord z d)) ^ 2) / M.
  (** the exact score -(x - mean)/variance of the fitted Gaussian *)
  Definition exact_score (M : R) (z : mat double) (d : nat) (x : R) : R := - (x - mean (mc z) (coord z d)) / spread M z d.
  (** between 2 and 10^6 particles, coordinates of size at most X (at most 5000), variance at least 10^-12 and not tiny compared with X^2: the ratio
      of X to the standard deviation is at most 10^7 divided by the root of the number of particles *)
  Definition resolved (M : R) (z : mat double) (d : nat) (X : R) : Prop :=
    (2 <= mc z)%nat /\ INR (mc z) <= 1000000 /\ / 1000000 <= X <= 5000 /\
    (forall n, (n < mc z)%nat -> finite (get z d n) /\ Rabs (coord z d n) <= X) /\
    / 1000000000000 <= spread M z d /\ INR (mc z) * X ^ 2 <= 100000000000000 * spread M z d.
End Ensemble.
