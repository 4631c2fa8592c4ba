(** What the flows of torched_DPFC are supposed to satisfy, entry by entry (compare FlowSpec).  Only tensor primitives,
    the random generator and the public estimator function occur here; none of the helper functions of the class model. *)
From Coq Require Import String List ZArith Lia Bool.
From Verif Require Import Base.Num Base.Py Base.Arr Model.Ext Model.Score Model.ScoreTorch Spec.FlowSpec.
Import ListNotations.

Section TorchSpec.
  Context {T S : Type} {O : NumOps T} (E : Ext T S).

  (** twice the sample standard deviation (division by N-1) of each coordinate *)
  Definition tlengthscales (x : mat T) : list T :=
    map (fun d => nmul ntwo (tstd (row x d))) (seq 0 (mr x)).

  (** one call torch.distributions.Uniform(lo, hi).sample([m]): every box side has positive width *)
  Definition tdrawn (m : nat) (s : S) (bnds : list (T * T)) (P : mat T) (s' : S) : Prop :=
    (forall d, d < List.length bnds -> nltb (fst (nth d bnds (nzero, nzero))) (snd (nth d bnds (nzero, nzero))) = true) /\
    exists h, x_tuniform E s (map fst bnds) (map snd bnds) m = (h, s') /\ P = mk m (List.length bnds) h.

  (** smaller of the two minima, larger of the two maxima *)
  Definition union_range (z b : mat T) (d : nat) (r : T * T) : Prop :=
    exists rz rb, range_of z d rz /\ range_of b d rb /\
      fst r = pymin (fst rz) (fst rb) /\ snd r = pymax (snd rz) (snd rb).
  (** the range of z when b has a single value in this coordinate, otherwise the union *)
  Definition dens_range (z b : mat T) (d : nat) (r : T * T) : Prop :=
    exists rb, range_of b d rb /\ if neqb (fst rb) (snd rb) then range_of z d r else union_range z b d r.

  (** x' = x + h*( f(x,t) - 1/2 g^2 * score ), inducing points from the bounding box of x, all coordinates at once *)
  Definition t_flow_step (h : T) (m : nat) (g : mat T) (fd : mat T -> T -> res (mat T)) (t : T)
    (x x' : mat T) (s s' : S) : Prop :=
    exists F bnds P G,
      fd x t = Ok F /\
      List.length bnds = mr x /\ (forall d, d < mr x -> range_of x d (nth d bnds (nzero, nzero))) /\
      tdrawn m s bnds P s' /\
      torched_score_function_multid_seperate_all_dims E (mT x) P (TTens1 (tlengthscales x)) nmilli "RBF" = Ok G /\
      mr G = mc x /\ mc G = mr x /\
      forall d n, d < mr x -> n < mc x ->
        get x' d n = nadd (get x d n)
          (nmul h (nsub (elem F d n) (nmul (nmul nhalf (nsq (elem g d n))) (get G n d)))).

  (** weights exp(e_n)/sum; plan of ot.emd between (weights, uniform) for the squared distances divided by the largest one;
      particles mapped by N * plan *)
  Definition t_reweighted (e : nat -> T) (y x' : mat T) : Prop :=
    let N := mc y in
    let ws := map (fun n => nexp (e n)) (seq 0 N) in
    let w := map (fun v => ndiv v (nsum ws)) ws in
    let sq := fun i j => nsum (map (fun d => nsq (nsub (get y d i) (get y d j))) (seq 0 (mr y))) in
    exists mx cost flow,
      lmax (flat_map (fun i => map (fun j => sq i j) (seq 0 N)) (seq 0 N)) = Ok mx /\
      rect cost /\ mr cost = N /\ mc cost = N /\
      (forall i j, i < N -> j < N -> get cost i j = ndiv (sq i j) mx) /\
      flow = x_otemd E w (repeat (ndiv none1 (nofnat N)) N) cost /\
      forall d n, d < mr y -> n < N ->
        get x' d n = nsum (map (fun m => nmul (nmul (nofnat N) (get y d m)) (flow m n)) (seq 0 N)).

  (** the step leading to grid index i >= 1 *)
  Definition t_plain_step (h : T) (m : nat) (g : mat T) (fd : mat T -> T -> res (mat T)) (i : nat) (t : T)
    (x x' : mat T) (s s' : S) : Prop :=
    if i =? 1 then noisy_step E h g fd (nsub t h) x x' s s' else t_flow_step h m g fd (nsub t h) x x' s s'.
  Definition t_weighted_step (h : T) (m : nat) (g : mat T) (fd U : mat T -> T -> res (mat T)) (i : nat) (t : T)
    (x x' : mat T) (s s' : S) : Prop :=
    exists y u, rect y /\ mr y = mr x /\ mc y = mc x /\ t_plain_step h m g fd i t x y s s' /\
      U y t = Ok u /\ t_reweighted (fun n => nmul (elem u 0 n) h) y x'.

  (** stochastic mode: one Euler-Maruyama step of the whole ensemble, drift with time; then, with reweight, exponents U(y) *)
  Definition t_stoch_weighted_step (h : T) (g : mat T) (fd : mat T -> T -> res (mat T)) (U : mat T -> res (mat T)) (t : T)
    (x x' : mat T) (s s' : S) : Prop :=
    exists y u, rect y /\ mr y = mr x /\ mc y = mc x /\ noisy_step E h g fd (nsub t h) x y s s' /\
      U y = Ok u /\ t_reweighted (fun n => elem u 0 n) y x'.

  (** score of z at the particles of b, and of b at its own particles *)
  Definition t_score_of_at (kern : string) (m : nat) (z b : mat T) (G : mat T) (s s' : S) : Prop :=
    exists bnds P fn, List.length bnds = mr b /\ (forall d, d < mr b -> dens_range z b d (nth d bnds (nzero, nzero))) /\
      tdrawn m s bnds P s' /\
      torched_score_function_multid_seperate_all_dims_fun E (mT z) P (TTens1 (tlengthscales z)) nmilli kern = Ok fn /\
      fn true (mT b) = Ok G /\ mr G = mc b /\ mc G = mr b.
  Definition t_score_of_self (kern : string) (m : nat) (z b : mat T) (G : mat T) (s s' : S) : Prop :=
    exists bnds P, List.length bnds = mr b /\ (forall d, d < mr b -> union_range z b d (nth d bnds (nzero, nzero))) /\
      tdrawn m s bnds P s' /\
      torched_score_function_multid_seperate_all_dims E (mT b) P (TTens1 (tlengthscales b)) nmilli kern = Ok G /\
      mr G = mc b /\ mc G = mr b.

  Definition t_back_noisy_step (h : T) (kern : string) (m : nat) (g : mat T) (fd : mat T -> T -> res (mat T)) (t : T)
    (z b b' : mat T) (s s' : S) : Prop :=
    exists F W G s1, t_score_of_at kern m z b G s s1 /\ fd b t = Ok F /\
      x_normal E s1 (nsqrt h) (mr b) (mc b) = (W, s') /\
      forall d n, d < mr b -> n < mc b ->
        get b' d n = nadd (nadd (nsub (get b d n) (nmul (elem F d n) h))
                                (nmul (nmul h (nsq (elem g d n))) (get G n d)))
                          (nmul (elem g d n) (W d n)).
  Definition t_back_flow_step (h : T) (kern : string) (m : nat) (g : mat T) (fd : mat T -> T -> res (mat T)) (t : T)
    (z b b' : mat T) (s s' : S) : Prop :=
    exists F Gz Gb s1, t_score_of_at kern m z b Gz s s1 /\ t_score_of_self kern m z b Gb s1 s' /\
      fd b t = Ok F /\
      forall d n, d < mr b -> n < mc b ->
        get b' d n = nsub (get b d n)
          (nmul (nadd (nsub (elem F d n) (nmul (nsq (elem g d n)) (get Gz n d)))
                      (nmul (nmul nhalf (nsq (elem g d n))) (get Gb n d))) h).
  Definition t_back_step (noisy : bool) (h : T) (kern : string) (m : nat) (g : mat T) (fd : mat T -> T -> res (mat T)) (t : T)
    (z b b' : mat T) (s s' : S) : Prop :=
    if noisy then t_back_noisy_step h kern m g fd t z b b' s s' else t_back_flow_step h kern m g fd t z b b' s s'.
  (** the score function estimated from ensemble z at inducing points Zp, evaluated at the rows of gx *)
  Definition t_estimated (kern : string) (z Zp gx G : mat T) : Prop :=
    exists fn, torched_score_function_multid_seperate_all_dims_fun E (mT z) Zp (TTens1 (tlengthscales z)) nmilli kern = Ok fn /\
               fn true gx = Ok G.
  (** -(x - mean)/std^2 of one coordinate, std with divisor N-1 *)
  Definition t_gauss_score (z : mat T) (d : nat) (x : T) : T :=
    ndiv (nopp (nsub x (nmean (row z d)))) (nsq (tstd (row z d))).

End TorchSpec.
