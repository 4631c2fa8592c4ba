(** Rounding error of one step of the particle flows in IEEE double precision.  The steps are those of FlowSpec/TorchSpec (same drift, same
    noise, same estimator calls); only the last line differs: instead of the computed expression it states how far the stored double is from
    the exact real expression with step width 1/1000. *)
From Coq Require Import String List ZArith Reals.
From Flocq Require Import Core BinarySingleNaN.
From Verif Require Import Base.Num Base.Py Base.Arr Model.Ext Model.Score Model.ScoreTorch Run.Double Spec.RealSpec Spec.DoubleSpec Spec.FlowSpec Spec.TorchSpec.
Import ListNotations.
Local Open Scope R_scope.

(** finite and at most c in absolute value *)
Definition sized (c : R) (x : double) : Prop := finite x /\ Rabs (B2R x) <= c.
(** v is finite and within 2^-50 A + 10^-20 of the exact value; A is the sum of the absolute values of the exact terms *)
Definition rounded (v : double) (exact A : R) : Prop := finite v /\ Rabs (B2R v - exact) <= / 1125899906842624 * A + / 100000000000000000000.

Definition noisy_close (x' x f g w : double) : Prop :=
  (finite x' -> finite x /\ finite f /\ finite g /\ finite w) /\
  (sized 1000000 x -> sized 1000000 f -> sized 500 g -> sized 1000000 w ->
   rounded x' (B2R x + B2R f / 1000 + B2R g * B2R w) (Rabs (B2R x) + Rabs (B2R f) / 1000 + Rabs (B2R g * B2R w))).
Definition flow_close (x' x f g s : double) : Prop :=
  (finite x' -> finite x /\ finite f /\ finite g /\ finite s) /\
  (sized 1000000 x -> sized 1000000 f -> sized 500 g -> sized 1000000 s ->
   rounded x' (B2R x + (B2R f - B2R g ^ 2 * B2R s / 2) / 1000) (Rabs (B2R x) + (Rabs (B2R f) + B2R g ^ 2 * Rabs (B2R s) / 2) / 1000)).
Definition back_noisy_close (x' x f g s w : double) : Prop :=
  (finite x' -> finite x /\ finite f /\ finite g /\ finite s /\ finite w) /\
  (sized 1000000 x -> sized 1000000 f -> sized 500 g -> sized 1000000 s -> sized 1000000 w ->
   rounded x' (B2R x - B2R f / 1000 + B2R g ^ 2 * B2R s / 1000 + B2R g * B2R w)
              (Rabs (B2R x) + (Rabs (B2R f) + B2R g ^ 2 * Rabs (B2R s)) / 1000 + Rabs (B2R g * B2R w))).
Definition back_flow_close (x' x f g sz sb : double) : Prop :=
  (finite x' -> finite x /\ finite f /\ finite g /\ finite sz /\ finite sb) /\
  (sized 1000000 x -> sized 1000000 f -> sized 500 g -> sized 1000000 sz -> sized 1000000 sb ->
   rounded x' (B2R x - (B2R f - B2R g ^ 2 * B2R sz + B2R g ^ 2 * B2R sb / 2) / 1000)
              (Rabs (B2R x) + (Rabs (B2R f) + B2R g ^ 2 * Rabs (B2R sz) + B2R g ^ 2 * Rabs (B2R sb) / 2) / 1000)).

Section RoundSpec.
  Context {S : Type} {O : NumOps double} (E : Ext double S).
  Notation mat := (mat double).

  (** x + f/1000 + g W, W one dim x N Gaussian matrix of standard deviation sqrt 0.001 *)
  Definition r_noisy (g : mat) (fd : mat -> double -> res mat) (t : double) (x x' : mat) (s s' : S) : Prop :=
    exists F W, fd x t = Ok F /\ x_normal E s (nsqrt nmilli) (mr x) (mc x) = (W, s') /\
      forall d n, (d < mr x)%nat -> (n < mc x)%nat -> noisy_close (get x' d n) (get x d n) (elem F d n) (elem g d n) (W d n).
  (** x + (f - g^2 score/2)/1000, numpy estimator *)
  Definition r_flow (kern : string) (m : nat) (g : mat) (fd : mat -> double -> res mat) (t : double) (x x' : mat) (s s' : S) : Prop :=
    exists F bnds rows score,
      fd x t = Ok F /\ List.length bnds = mr x /\ (forall d, (d < mr x)%nat -> range_of x d (nth d bnds (nzero, nzero))) /\ drawn E m s bnds rows s' /\
      (forall d, (d < mr x)%nat ->
         score_function_multid_seperate E (mT x) (points m rows) nmilli kern (LVec (lengthscales x)) (Z.of_nat d + 1) = Ok (score d)) /\
      forall d n, (d < mr x)%nat -> (n < mc x)%nat -> flow_close (get x' d n) (get x d n) (elem F d n) (elem g d n) (nth n (score d) nzero).
  (** the same with the torch estimator *)
  Definition r_tflow (m : nat) (g : mat) (fd : mat -> double -> res mat) (t : double) (x x' : mat) (s s' : S) : Prop :=
    exists F bnds P G,
      fd x t = Ok F /\ List.length bnds = mr x /\ (forall d, (d < mr x)%nat -> range_of x d (nth d bnds (nzero, nzero))) /\ tdrawn E m s bnds P s' /\
      torched_score_function_multid_seperate_all_dims E (mT x) P (TTens1 (tlengthscales x)) nmilli "RBF" = Ok G /\
      forall d n, (d < mr x)%nat -> (n < mc x)%nat -> flow_close (get x' d n) (get x d n) (elem F d n) (elem g d n) (get G n d).
  (** b - f/1000 + g^2 score_z/1000 + g W *)
  Definition r_back_noisy (kern : string) (m : nat) (g : mat) (fd : mat -> double -> res mat) (t : double) (z b b' : mat) (s s' : S) : Prop :=
    exists F W score s1, score_of_at E kern m z b (mr b) (mc b) score s s1 /\ fd b t = Ok F /\ x_normal E s1 (nsqrt nmilli) (mr b) (mc b) = (W, s') /\
      forall d n, (d < mr b)%nat -> (n < mc b)%nat -> back_noisy_close (get b' d n) (get b d n) (elem F d n) (elem g d n) (nth n (score d) nzero) (W d n).
  Definition r_tback_noisy (kern : string) (m : nat) (g : mat) (fd : mat -> double -> res mat) (t : double) (z b b' : mat) (s s' : S) : Prop :=
    exists F W G s1, t_score_of_at E kern m z b G s s1 /\ fd b t = Ok F /\ x_normal E s1 (nsqrt nmilli) (mr b) (mc b) = (W, s') /\
      forall d n, (d < mr b)%nat -> (n < mc b)%nat -> back_noisy_close (get b' d n) (get b d n) (elem F d n) (elem g d n) (get G n d) (W d n).
  (** b - (f - g^2 score_z + g^2 score_b/2)/1000 *)
  Definition r_back_flow (kern : string) (m : nat) (g : mat) (fd : mat -> double -> res mat) (t : double) (z b b' : mat) (s s' : S) : Prop :=
    exists F sz sb s1, score_of_at E kern m z b (mr b) (mc b) sz s s1 /\ score_of_self E kern m z b (mr b) (mc b) sb s1 s' /\ fd b t = Ok F /\
      forall d n, (d < mr b)%nat -> (n < mc b)%nat ->
        back_flow_close (get b' d n) (get b d n) (elem F d n) (elem g d n) (nth n (sz d) nzero) (nth n (sb d) nzero).
  Definition r_tback_flow (kern : string) (m : nat) (g : mat) (fd : mat -> double -> res mat) (t : double) (z b b' : mat) (s s' : S) : Prop :=
    exists F Gz Gb s1, t_score_of_at E kern m z b Gz s s1 /\ t_score_of_self E kern m z b Gb s1 s' /\ fd b t = Ok F /\
      forall d n, (d < mr b)%nat -> (n < mc b)%nat ->
        back_flow_close (get b' d n) (get b d n) (elem F d n) (elem g d n) (get Gz n d) (get Gb n d).
  (** stochastic mode of DPFC: every particle separately *)
  Definition r_particles (g : mat) (f : mat -> res mat) (x x' : mat) (s s' : S) : Prop :=
    exists sg : nat -> S, sg 0%nat = s /\ sg (mc x) = s' /\
      forall n, (n < mc x)%nat -> exists F W, f (vec (col x n)) = Ok F /\ x_normal E (sg n) (nsqrt nmilli) 1 (mr x) = (W, sg (Datatypes.S n)) /\
        forall d, (d < mr x)%nat -> noisy_close (get x' d n) (get x d n) (elem F 0 d) (elem g 0 d) (W 0%nat d).

  (** reweighting moves particle n to N sum_m y_m plan(m,n): for coordinates of at most 10^5, a plan with entries in [-1,1] and at most 10^6 particles the
      stored double is within 2 (N+4) 2^-53 N sum_m |y_m plan(m,n)| + 10^-10 of it, and it is finite only if all y_m and all plan(m,n) are *)
  Definition r_mapped (plan : nat -> nat -> double) (y x' : mat) : Prop :=
    let N := mc y in
    forall d n, (d < mr y)%nat -> (n < N)%nat ->
      (finite (get x' d n) -> forall m, (m < N)%nat -> finite (get y d m) /\ finite (plan m n)) /\
      (INR N <= 1000000 -> (forall m, (m < N)%nat -> sized 100000 (get y d m) /\ sized 1 (plan m n)) ->
       finite (get x' d n) /\
       Rabs (B2R (get x' d n) - INR N * sumn N (fun m => B2R (get y d m) * B2R (plan m n)))
         <= 2 * (INR N + 4) * u * (INR N * sumn N (fun m => Rabs (B2R (get y d m) * B2R (plan m n)))) + / 10000000000).
  (** reweighting in numpy (pyemd, distances) and torch (ot.emd, normalised squared distances): weights from the exponents e, the plan for them
      and the particle distances, and then r_mapped *)
  Definition r_reweighted (e : nat -> double) (y x' : mat) : Prop :=
    exists w cost, List.length w = mc y /\ w = (let ws := map (fun n => nexp (e n)) (seq 0 (mc y)) in map (fun v => ndiv v (nsum ws)) ws) /\
      rect cost /\ mr cost = mc y /\ mc cost = mc y /\
      (forall i j, (i < mc y)%nat -> (j < mc y)%nat -> get cost i j =
         if (i =? j)%nat then nzero else nsqrt (nsum (map (fun d => nsq (nsub (get y d (Nat.min i j)) (get y d (Nat.max i j)))) (seq 0 (mr y))))) /\
      r_mapped (x_emd E w (repeat (ndiv none1 (nofnat (mc y))) (mc y)) cost) y x'.
  Definition r_treweighted (e : nat -> double) (y x' : mat) : Prop :=
    exists w mx cost, List.length w = mc y /\ w = (let ws := map (fun n => nexp (e n)) (seq 0 (mc y)) in map (fun v => ndiv v (nsum ws)) ws) /\
      rect cost /\ mr cost = mc y /\ mc cost = mc y /\
      (let sq := fun i j => nsum (map (fun d => nsq (nsub (get y d i) (get y d j))) (seq 0 (mr y))) in
       lmax (flat_map (fun i => map (fun j => sq i j) (seq 0 (mc y))) (seq 0 (mc y))) = Ok mx /\
       forall i j, (i < mc y)%nat -> (j < mc y)%nat -> get cost i j = ndiv (sq i j) mx) /\
      r_mapped (x_otemd E w (repeat (ndiv none1 (nofnat (mc y))) (mc y)) cost) y x'.

  (** one forward step to grid index i at time t: noisy for i = 1, deterministic later, with the drift at t - 0.001 *)
  Definition r_step (kern : string) (m : nat) (g : mat) (fd : mat -> double -> res mat) (i : nat) (t : double) (x x' : mat) (s s' : S) : Prop :=
    if (i =? 1)%nat then r_noisy g fd (nsub t nmilli) x x' s s' else r_flow kern m g fd (nsub t nmilli) x x' s s'.
  Definition r_tstep (m : nat) (g : mat) (fd : mat -> double -> res mat) (i : nat) (t : double) (x x' : mat) (s s' : S) : Prop :=
    if (i =? 1)%nat then r_noisy g fd (nsub t nmilli) x x' s s' else r_tflow m g fd (nsub t nmilli) x x' s s'.
End RoundSpec.
