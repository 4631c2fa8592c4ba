(** What the flows of the Kuramoto example are supposed to satisfy.  [wrap] is reduction modulo 2 pi, applied to every new state. *)
From Coq Require Import String List ZArith Lia Bool.
From Verif Require Import Base.Num Base.Py Base.Arr Model.Ext Model.Score Model.Kuramoto Spec.FlowSpec Spec.TotalSpec.
Import ListNotations.

Section KuramotoSpec.
  Context {T S : Type} {O : NumOps T} (E : Ext T S) (wrap : T -> T).

  (** x' = (x + h f(x,t) + g noise) mod 2 pi *)
  Definition phase_noisy_step (h g : T) (fd : mat T -> T -> res (mat T)) (t : T) (x x' : mat T) (s s' : S) : Prop :=
    exists F W, fd x t = Ok F /\ x_normal E s (nsqrt h) (mr x) (mc x) = (W, s') /\
      forall d n, d < mr x -> n < mc x ->
        get x' d n = wrap (nadd (nadd (get x d n) (nmul h (elem F d n))) (nmul g (W d n))).

  (** x' = (x + h (f(x,t) - 1/2 g^2 score)) mod 2 pi, the score of x at x: m inducing points from the bounding box, lengthscales 2 std *)
  Definition phase_flow_step (h : T) (kern : string) (m : nat) (g : T) (fd : mat T -> T -> res (mat T)) (t : T) (x x' : mat T) (s s' : S) : Prop :=
    exists F bnds rows G,
      fd x t = Ok F /\ List.length bnds = mr x /\ (forall d, d < mr x -> range_of x d (nth d bnds (nzero, nzero))) /\
      drawn E m s bnds rows s' /\
      score_function_multid_seperate_all_dims E (mT x) (points m rows) nmilli kern (LVec (lengthscales x)) = Ok G /\
      forall d n, d < mr x -> n < mc x ->
        get x' d n = wrap (nadd (get x d n) (nmul h (nsub (elem F d n) (nmul (nmul nhalf (nsq g)) (get G n d))))).

  (** reweighting with exponents e_n: weights exp(e_n)/sum, plan of ot.emd between (weights, uniform) for the squared distances divided by
      their maximum, particles mapped by N*plan, result modulo 2 pi *)
  Definition phase_reweighted (e : nat -> T) (y x' : mat T) : Prop :=
    let N := mc y in
    let ws := map (fun n => nexp (e n)) (seq 0 N) in
    let w := map (fun v => ndiv v (nsum ws)) ws in
    let sqd i j := nsum (map (fun d => nsq (nsub (get y d i) (get y d j))) (seq 0 (mr y))) in
    exists mx cost,
      lmax (flat_map (fun i => map (sqd i) (seq 0 N)) (seq 0 N)) = Ok mx /\
      rect cost /\ mr cost = N /\ mc cost = N /\ (forall i j, i < N -> j < N -> get cost i j = ndiv (sqd i j) mx) /\
      let plan := x_otemd E w (repeat (ndiv none1 (nofnat N)) N) cost in
      forall d n, d < mr y -> n < N ->
        get x' d n = wrap (nsum (map (fun m => nmul (nmul (nofnat N) (get y d m)) (plan m n)) (seq 0 N))).

  (** the step to index i >= 1 *)
  Definition phase_step (rw : bool) (h : T) (kern : string) (m : nat) (g : T) (fd : mat T -> T -> res (mat T)) (U : mat T -> res (mat T))
    (i : nat) (t : T) (x x' : mat T) (s s' : S) : Prop :=
    let move := if i =? 1 then phase_noisy_step h g fd (nsub t h) else phase_flow_step h kern m g fd (nsub t h) in
    if rw then exists y u, rect y /\ mr y = mr x /\ mc y = mc x /\ move x y s s' /\ U y = Ok u /\ phase_reweighted (fun n => elem u 0 n) y x'
    else move x x' s s'.

  (** the score of z (lengthscales of z) at the points b; the score of b at b; inducing points from the common range of z and b *)
  Definition phase_score_at (kern : string) (m : nat) (z b : mat T) (G : mat T) (s s' : S) : Prop :=
    exists bnds rows fn, List.length bnds = mr b /\ (forall d, d < mr b -> common_range z b d (nth d bnds (nzero, nzero))) /\
      drawn E m s bnds rows s' /\
      score_function_multid_seperate_all_dims_fun E (mT z) (points m rows) nmilli kern (LVec (lengthscales z)) = Ok fn /\ fn (mT b) = Ok G.
  Definition phase_score_self (kern : string) (m : nat) (z b : mat T) (G : mat T) (s s' : S) : Prop :=
    exists bnds rows, List.length bnds = mr b /\ (forall d, d < mr b -> common_range z b d (nth d bnds (nzero, nzero))) /\
      drawn E m s bnds rows s' /\
      score_function_multid_seperate_all_dims E (mT b) (points m rows) nmilli kern (LVec (lengthscales b)) = Ok G.

  (** from index j+1 to index j: z is the forward flow at index j (not j+1), b the reversed flow at j+1, t the time of index j+1 *)
  Definition phase_back_step (noisy : bool) (h : T) (kern : string) (m : nat) (g : T) (fd : mat T -> T -> res (mat T)) (t : T)
    (z b b' : mat T) (s s' : S) : Prop :=
    exists F G s1, phase_score_at kern m z b G s s1 /\ fd b t = Ok F /\
      if noisy then
        exists W, x_normal E s1 (nsqrt h) (mr b) (mc b) = (W, s') /\
        forall d n, d < mr b -> n < mc b ->
          get b' d n = wrap (nadd (nadd (nsub (get b d n) (nmul (elem F d n) h)) (nmul (nmul h (nsq g)) (get G n d))) (nmul g (W d n)))
      else
        exists G', phase_score_self kern m z b G' s1 s' /\
        forall d n, d < mr b -> n < mc b ->
          get b' d n = wrap (nsub (get b d n)
            (nmul (nadd (nsub (elem F d n) (nmul (nsq g) (get G n d))) (nmul (nmul nhalf (nsq g)) (get G' n d))) h)).

  (** the control at the points x (one column each): score of b minus score of z, both with the lengthscales of b *)
  Definition phase_control (kern : string) (m : nat) (z b x u : mat T) (s s' : S) : Prop :=
    exists bnds rows fb fz Gb Gz, List.length bnds = mr b /\ (forall d, d < mr b -> common_range z b d (nth d bnds (nzero, nzero))) /\
      drawn E m s bnds rows s' /\
      score_function_multid_seperate_all_dims_fun E (mT b) (points m rows) nmilli kern (LVec (lengthscales b)) = Ok fb /\ fb (mT x) = Ok Gb /\
      score_function_multid_seperate_all_dims_fun E (mT z) (points m rows) nmilli kern (LVec (lengthscales b)) = Ok fz /\ fz (mT x) = Ok Gz /\
      mr u = mr b /\ mc u = mc x /\ forall d n, d < mr b -> n < mc x -> get u d n = nsub (get Gb n d) (get Gz n d).
End KuramotoSpec.

(** a problem the class accepts: at least one oscillator and one particle, Gaussian kernel, a drift and (if reweighting) a constraint of the
    right shapes *)
Record k_well_posed {T} {O : NumOps T} (p : kpar T) : Prop := {
  kw_dim : 1 <= List.length (k_y1 p);
  kw_N : 1 <= k_N p;
  kw_kern : k_kern p = "RBF"%string;
  kw_f : field (List.length (k_y1 p)) (k_N p) (k_f p);
  kw_U : k_reweight p = true -> forall x, mr x = List.length (k_y1 p) -> mc x = k_N p -> exists u, k_U p x = Ok u /\ mr u = 1 /\ mc u = k_N p }.

(** one step of the controlled and of the uncontrolled simulation, repetition r: x, xn are the states before, x', xn' those after it *)
Definition phase_sim_step {T S} {O : NumOps T} (E : Ext T S) (wrap : T -> T) (kern : string) (m : nat) (drift : list T -> list T) (g h : T)
  (z b : mat T) (x x' xn xn' u : list T) (s s' : S) : Prop :=
  let dim := List.length x in
  exists v s1 W s2 W', phase_control E kern m z b (mk dim 1 (fun d _ => nth d x nzero)) v s s1 /\
    x_normal E s1 (nsqrt h) 1 dim = (W, s2) /\ x_normal E s2 (nsqrt h) 1 dim = (W', s') /\
    List.length x' = dim /\ List.length xn' = dim /\ List.length u = dim /\
    forall d, d < dim ->
      nth d u nzero = get v d 0 /\
      nth d x' nzero = wrap (nadd (nadd (nadd (nth d x nzero) (nmul h (nth d (drift x) nzero))) (nmul (nmul h (nsq g)) (nth d u nzero))) (nmul g (W 0 d))) /\
      nth d xn' nzero = wrap (nadd (nadd (nth d xn nzero) (nmul h (nth d (drift xn) nzero))) (nmul g (W' 0 d))).
