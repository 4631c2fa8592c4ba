(** Pairwise distances.
    score_function_estimators.py:29-77 (my_cdist) and the scipy functions cdist / pdist+squareform it replaces. *)
From Coq Require Import String List ZArith Lia Bool.
From Verif Require Import Base.Num Base.Py Base.Arr.
Import ListNotations.

Section Cdist.
  Context {T : Type} {O : NumOps T}.

  (** score_function_estimators.py:59-61, 66-68, 73-75:  tmp = sum_k (r[i,k]-y[j,k])**2 , k < r.shape[1] *)
  Definition sqdist (r y : mat T) (i j : nat) : T :=
    nsum (map (fun k => nsq (nsub (get r i k) (get y j k))) (seq 0 (mc r))).

  (** one iteration of the (doubly parallel) loop: output[i,j] = val   (lines 62, 69, 76) *)
  Definition write (val : nat -> nat -> T) (out : mat T) (ij : nat * nat) : mat T :=
    mk (mr out) (mc out)
       (fun a b => if (a =? fst ij) && (b =? snd ij) then val (fst ij) (snd ij) else get out a b).

  (** all iterations of prange(n) x prange(m), in source order *)
  Definition pairs (n m : nat) : list (nat * nat) :=
    flat_map (fun i => map (fun j => (i, j)) (seq 0 m)) (seq 0 n).

  (** my_cdist with the iterations executed in the given order (numba may use any, lines 57-58, 64-65, 71-72).
      Out-of-range accesses, which numba does not check, are reported as [OutOfBounds]. *)
  Definition my_cdist_sched (order : nat -> nat -> list (nat * nat)) (r y output : mat T) (dist : string)
    : res (mat T) :=
    let N := mr r in let N2 := mr y in
    let go (val : nat -> nat -> T) :=
      if (mc r <=? mc y) && (N <=? mr output) && (N2 <=? mc output)
      then Ok (fold_left (write val) (order N N2) output) else Err OutOfBounds in
    if String.eqb dist "euclidean" then go (fun i j => nsqrt (sqdist r y i j))          (* 56-62 *)
    else if String.eqb dist "sqeuclidean" then go (fun i j => sqdist r y i j)           (* 63-69 *)
    else if String.eqb dist "l1" then go (fun i j => nsqrt (sqdist r y i j))            (* 70-76 *)
    else Ok output.                                                                      (* 77 *)

  Definition my_cdist := my_cdist_sched pairs.

  (** scipy.spatial.distance.cdist(x, y, 'sqeuclidean'): ValueError if the column counts differ *)
  Definition cdist_sq (x y : mat T) : res (mat T) :=
    if mc x =? mc y then Ok (mk (mr x) (mr y) (fun i j => sqdist x y i j)) else Err ValueError.

  (** cdist(x, y, 'minkowski', p=1) *)
  Definition cdist_l1 (x y : mat T) : res (mat T) :=
    if mc x =? mc y then
      Ok (mk (mr x) (mr y) (fun i j => nsum (map (fun k => nabs (nsub (get x i k) (get y j k))) (seq 0 (mc x)))))
    else Err ValueError.

  (** cdist(x, y, 'minkowski', p=2) *)
  Definition cdist_l2 (x y : mat T) : res (mat T) :=
    if mc x =? mc y then Ok (mk (mr x) (mr y) (fun i j => nsqrt (sqdist x y i j))) else Err ValueError.

  (** squareform(pdist(samples, 'euclidean')): computed for i<j, mirrored, zero diagonal *)
  Definition square_pdist (x : mat T) : mat T :=
    mk (mr x) (mr x) (fun i j => if i <? j then nsqrt (sqdist x x i j)
                                 else if j <? i then nsqrt (sqdist x x j i) else nzero).

  (** ot.dist(x, y): squared Euclidean distances (POT default metric) *)
  Definition ot_dist (x y : mat T) : res (mat T) := cdist_sq x y.
End Cdist.
