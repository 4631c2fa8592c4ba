(** What the flows are supposed to satisfy, entry by entry.  Only numpy primitives (min, max, mean, std,
    broadcasting), the random generator and the public estimator functions occur here; none of the
    helper functions of the class model. *)
From Coq Require Import String List ZArith Lia Bool.
From Verif Require Import Base.Num Base.Py Base.Arr Model.Ext Model.Score.
Import ListNotations.

Section FlowSpec.
  Context {T S : Type} {O : NumOps T} (E : Ext T S).

  (** a dim x N x k array: k slices, each dim rows of N numbers *)
  Definition has_shape (A : arr3 T) (d n k : nat) : Prop :=
    a_d A = d /\ a_n A = n /\ a_k A = k /\ List.length (a_s A) = k /\
    Forall (fun m => mr m = d /\ mc m = n /\ List.length (md m) = d /\ Forall (fun r => List.length r = n) (md m)) (a_s A).

  (** a 2-d array: mr rows of mc numbers *)
  Definition rect (m : mat T) : Prop := List.length (md m) = mr m /\ Forall (fun r => List.length r = mc m) (md m).

  (** every particle of the flow is at the point y at grid index t *)
  Definition all_at (A : arr3 T) (t : nat) (y : list T) : Prop :=
    forall d n, d < a_d A -> n < a_n A -> get3 A d n t = nth d y nzero.

  (** v is the element (d,n) of an array after broadcasting *)
  Definition elem (A : mat T) (d n : nat) : T := get A (if mr A =? 1 then 0 else d) (if mc A =? 1 then 0 else n).

  (** consecutive calls np.random.uniform(lo, hi, size=m), one per pair of bounds *)
  Inductive drawn (m : nat) : S -> list (T * T) -> list (list T) -> S -> Prop :=
  | drawn_nil s : drawn m s [] [] s
  | drawn_cons s lo hi h s1 bs rows s2 :
      x_uniform E s lo hi m = (Ok h, s1) -> drawn m s1 bs rows s2 ->
      drawn m s ((lo, hi) :: bs) (map h (seq 0 m) :: rows) s2.

  (** the drawn rows as m points (one per row) *)
  Definition points (m : nat) (rows : list (list T)) : mat T :=
    mk m (List.length rows) (fun i d => nth i (nth d rows []) nzero).

  (** lengthscales: twice the standard deviation of each coordinate *)
  Definition lengthscales (x : mat T) : list T :=
    map (fun d => nmul ntwo (nstd (row x d))) (seq 0 (mr x)).

  Definition range_of (x : mat T) (d : nat) (b : T * T) : Prop :=
    lmin (row x d) = Ok (fst b) /\ lmax (row x d) = Ok (snd b).
  (** larger of the two minima, smaller of the two maxima *)
  Definition common_range (z b : mat T) (d : nat) (r : T * T) : Prop :=
    exists rz rb, range_of z d rz /\ range_of b d rb /\
      fst r = pymax (fst rz) (fst rb) /\ snd r = pymin (snd rz) (snd rb).

  (** x' = x + h*f(x, t) + g*noise, one dim x N Gaussian matrix of standard deviation sqrt h *)
  Definition noisy_step (h : T) (g : mat T) (fd : mat T -> T -> res (mat T)) (t : T) (x x' : mat T) (s s' : S) : Prop :=
    exists F W, fd x t = Ok F /\ x_normal E s (nsqrt h) (mr x) (mc x) = (W, s') /\
      forall d n, d < mr x -> n < mc x ->
        get x' d n = nadd (nadd (get x d n) (nmul h (elem F d n))) (nmul (elem g d n) (W d n)).

  (** x' = x + h*( f(x,t) - 1/2 g^2 * score ), the score of x estimated at x with m inducing points drawn
      from the bounding box of x and lengthscale 2*std, coordinate by coordinate *)
  Definition flow_step (h : T) (kern : string) (m : nat) (g : mat T) (fd : mat T -> T -> res (mat T)) (t : T)
    (x x' : mat T) (s s' : S) : Prop :=
    exists F bnds rows score,
      fd x t = Ok F /\
      List.length bnds = mr x /\ (forall d, d < mr x -> range_of x d (nth d bnds (nzero, nzero))) /\
      drawn m s bnds rows s' /\
      (forall d, d < mr x ->
         score_function_multid_seperate E (mT x) (points m rows) nmilli kern (LVec (lengthscales x)) (Z.of_nat d + 1)
         = Ok (score d) /\ List.length (score d) = mc x) /\
      forall d n, d < mr x -> n < mc x ->
        get x' d n = nadd (get x d n)
          (nmul h (nsub (elem F d n) (nmul (nmul nhalf (nsq (elem g d n))) (nth n (score d) nzero)))).

  (** reweighting of an ensemble y with exponents e_n: weights exp(e_n)/sum, transport plan of pyemd between
      (weights, uniform) for the Euclidean distances of the particles, particles mapped by N * plan *)
  Definition reweighted (e : nat -> T) (y x' : mat T) : Prop :=
    let N := mc y in
    let ws := map (fun n => nexp (e n)) (seq 0 N) in
    let w := map (fun v => ndiv v (nsum ws)) ws in
    exists cost flow,
      rect cost /\ mr cost = N /\ mc cost = N /\
      (forall i j, i < N -> j < N -> get cost i j =
         if i =? j then nzero else
           let a := Nat.min i j in let b := Nat.max i j in
           nsqrt (nsum (map (fun d => nsq (nsub (get y d a) (get y d b))) (seq 0 (mr y))))) /\
      flow = x_emd E w (repeat (ndiv none1 (nofnat N)) N) cost /\
      forall d n, d < mr y -> n < N ->
        get x' d n = nsum (map (fun m => nmul (get y d m) (nmul (flow m n) (nofnat N))) (seq 0 N)).

  (** the forward score (estimated from z) at the points b, and the score of b at b: one draw of inducing points
      in the common range, lengthscale 2*std of the estimated ensemble *)
  Definition score_of_at (kern : string) (m : nat) (z b : mat T) (dim n : nat) (score : nat -> list T) (s s' : S) : Prop :=
    exists bnds rows, List.length bnds = dim /\ (forall d, d < dim -> common_range z b d (nth d bnds (nzero, nzero))) /\
      drawn m s bnds rows s' /\
      forall d, d < dim -> List.length (score d) = n /\
        exists fn, score_function_multid_seperate_fun E (mT z) (points m rows) nmilli kern (LVec (lengthscales z)) (Z.of_nat d + 1) = Ok fn
                /\ fn (mT b) = Ok (score d).
  Definition score_of_self (kern : string) (m : nat) (z b : mat T) (dim n : nat) (score : nat -> list T) (s s' : S) : Prop :=
    exists bnds rows, List.length bnds = dim /\ (forall d, d < dim -> common_range z b d (nth d bnds (nzero, nzero))) /\
      drawn m s bnds rows s' /\
      forall d, d < dim -> List.length (score d) = n /\
        score_function_multid_seperate E (mT b) (points m rows) nmilli kern (LVec (lengthscales b)) (Z.of_nat d + 1)
        = Ok (score d).

  (** b' = b - f(b,t)*h + h*g^2*score_z(b) + g*noise *)
  Definition back_noisy_step (h : T) (kern : string) (m : nat) (g : mat T) (fd : mat T -> T -> res (mat T)) (t : T)
    (z b b' : mat T) (s s' : S) : Prop :=
    exists F W score s1, score_of_at kern m z b (mr b) (mc b) score s s1 /\ fd b t = Ok F /\
      x_normal E s1 (nsqrt h) (mr b) (mc b) = (W, s') /\
      forall d n, d < mr b -> n < mc b ->
        get b' d n = nadd (nadd (nsub (get b d n) (nmul (elem F d n) h))
                                (nmul (nmul h (nsq (elem g d n))) (nth n (score d) nzero)))
                          (nmul (elem g d n) (W d n)).

  (** b' = b - (f(b,t) - g^2*score_z(b) + 1/2 g^2*score_b(b))*h *)
  Definition back_flow_step (h : T) (kern : string) (m : nat) (g : mat T) (fd : mat T -> T -> res (mat T)) (t : T)
    (z b b' : mat T) (s s' : S) : Prop :=
    exists F sz sb s1, score_of_at kern m z b (mr b) (mc b) sz s s1 /\ score_of_self kern m z b (mr b) (mc b) sb s1 s' /\
      fd b t = Ok F /\
      forall d n, d < mr b -> n < mc b ->
        get b' d n = nsub (get b d n)
          (nmul (nadd (nsub (elem F d n) (nmul (nsq (elem g d n)) (nth n (sz d) nzero)))
                      (nmul (nmul nhalf (nsq (elem g d n))) (nth n (sb d) nzero))) h).

  (** the step leading to grid index i >= 1: noisy for the first one, deterministic flow afterwards; the drift is
      evaluated one step width before the time t of index i *)
  Definition plain_step (h : T) (kern : string) (m : nat) (g : mat T) (fd : mat T -> T -> res (mat T)) (i : nat) (t : T)
    (x x' : mat T) (s s' : S) : Prop :=
    if i =? 1 then noisy_step h g fd (nsub t h) x x' s s' else flow_step h kern m g fd (nsub t h) x x' s s'.

  (** the same followed by reweighting with exponents h*U(y,t) *)
  Definition weighted_step (h : T) (kern : string) (m : nat) (g : mat T) (fd U : mat T -> T -> res (mat T)) (i : nat) (t : T)
    (x x' : mat T) (s s' : S) : Prop :=
    exists y u, rect y /\ mr y = mr x /\ mc y = mc x /\ plain_step h kern m g fd i t x y s s' /\
      U y t = Ok u /\ reweighted (fun n => nmul (elem u 0 n) h) y x'.

  (** the step from index j+1 to index j of the time-reversed flow *)
  Definition back_step (noisy : bool) (h : T) (kern : string) (m : nat) (g : mat T) (fd : mat T -> T -> res (mat T)) (t : T)
    (z b b' : mat T) (s s' : S) : Prop :=
    if noisy then back_noisy_step h kern m g fd t z b b' s s' else back_flow_step h kern m g fd t z b b' s s'.

  (** stochastic mode: every particle makes its own Euler-Maruyama step with its own draw of dim normals; the drift
      gets the particle alone and no time *)
  Definition particle_step (h : T) (g : mat T) (f : mat T -> res (mat T)) (x x' : mat T) (s s' : S) : Prop :=
    exists sg : nat -> S, sg 0 = s /\ sg (mc x) = s' /\
      forall n, n < mc x -> exists F W,
        f (vec (col x n)) = Ok F /\ x_normal E (sg n) (nsqrt h) 1 (mr x) = (W, sg (Datatypes.S n)) /\
        forall d, d < mr x ->
          get x' d n = nadd (nadd (get x d n) (nmul h (elem F 0 d))) (nmul (elem g 0 d) (W 0 d)).

  (** the same followed by reweighting with exponents U(y) (no step width) *)
  Definition weighted_particle_step (h : T) (g : mat T) (f U : mat T -> res (mat T)) (x x' : mat T) (s s' : S) : Prop :=
    exists y u, rect y /\ mr y = mr x /\ mc y = mc x /\ particle_step h g f x y s s' /\
      U y = Ok u /\ reweighted (fun n => elem u 0 n) y x'.
End FlowSpec.
