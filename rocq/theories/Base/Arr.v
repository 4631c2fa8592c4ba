(** Arrays.  A [mat] is a 2-d array; a 1-d array of length n is the 1 x n matrix (numpy aligns trailing
    axes, so this gives the same broadcasting against 2-d arrays).  A flow is a 3-d array dim x N x k,
    stored as the list of its k slices [:, :, t]. *)
From Coq Require Import List ZArith Lia Bool.
From Verif Require Import Base.Num Base.Py.
Import ListNotations.

Section Arr.
  Context {T : Type} {O : NumOps T}.

  Record mat := Mat { mr : nat; mc : nat; md : list (list T) }.

  Definition mk (r c : nat) (f : nat -> nat -> T) : mat :=
    Mat r c (map (fun i => map (fun j => f i j) (seq 0 c)) (seq 0 r)).
  Definition get (A : mat) (i j : nat) : T := nth j (nth i (md A) []) nzero.

  Definition row (A : mat) (i : nat) : list T := map (fun j => get A i j) (seq 0 (mc A)).
  Definition col (A : mat) (j : nat) : list T := map (fun i => get A i j) (seq 0 (mr A)).
  Definition vec (l : list T) : mat := mk 1 (length l) (fun _ j => nth j l nzero).

  (** A.T *)
  Definition mT (A : mat) : mat := mk (mc A) (mr A) (fun i j => get A j i).

  (** numpy broadcasting of two 2-d arrays under a binary ufunc *)
  Definition bok (a b : nat) : bool := (a =? b) || (a =? 1) || (b =? 1).
  Definition bdim (a b : nat) : nat := if a =? 1 then b else a.
  Definition bidx (n i : nat) : nat := if n =? 1 then 0 else i.
  Definition bget (A : mat) (i j : nat) : T := get A (bidx (mr A) i) (bidx (mc A) j).
  Definition bc2 (op : T -> T -> T) (A B : mat) : res mat :=
    if bok (mr A) (mr B) && bok (mc A) (mc B) then
      Ok (mk (bdim (mr A) (mr B)) (bdim (mc A) (mc B)) (fun i j => op (bget A i j) (bget B i j)))
    else Err ValueError.

  (** ufuncs of one array, and of an array with a Python scalar (always shape preserving) *)
  Definition mmap1 (f : T -> T) (A : mat) : mat := mk (mr A) (mc A) (fun i j => f (get A i j)).
  Definition smul (c : T) (A : mat) : mat := mmap1 (fun x => nmul c x) A.      (* c * A *)
  Definition muls (A : mat) (c : T) : mat := mmap1 (fun x => nmul x c) A.      (* A * c *)
  Definition divs (A : mat) (c : T) : mat := mmap1 (fun x => ndiv x c) A.      (* A / c *)
  Definition mopp (A : mat) : mat := mmap1 nopp A.                              (* -A *)
  Definition msq (A : mat) : mat := mmap1 nsq A.                                (* A**2 *)
  Definition mexp (A : mat) : mat := mmap1 nexp A.

  (** A @ B *)
  Definition mmul (A B : mat) : res mat :=
    if mc A =? mr B then
      Ok (mk (mr A) (mc B) (fun i j => nsum (map (fun k => nmul (get A i k) (get B k j)) (seq 0 (mc A)))))
    else Err ValueError.

  Definition eye (n : nat) : mat := mk n n (fun i j => if i =? j then none1 else nzero).
  Definition mconst (r c : nat) (v : T) : mat := mk r c (fun _ _ => v).
  Definition mzeros (r c : nat) : mat := mconst r c nzero.
  Definition mones (r c : nat) : mat := mconst r c none1.

  (** assignment target[...] = src where the target region has shape (r,c): the source is broadcast *)
  Definition assign_shape (r c : nat) (src : mat) : res mat :=
    if ((mr src =? r) || (mr src =? 1)) && ((mc src =? c) || (mc src =? 1)) then
      Ok (mk r c (fun i j => bget src i j))
    else Err ValueError.

  (** A[i] = v  for a 2-d array and a 1-d source (1 x c) *)
  Definition setrow (A : mat) (i : Z) (v : mat) : res mat :=
    match pyidx (mr A) i with
    | None => Err IndexError
    | Some i' => let! v' := assign_shape 1 (mc A) v in
        Ok (mk (mr A) (mc A) (fun a b => if a =? i' then get v' 0 b else get A a b))
    end.

  (** np.min / np.max over a 1-d array: ValueError on an empty array *)
  Definition lmin (l : list T) : res T :=
    match l with [] => Err ValueError | x :: r => Ok (fold_left npmin r x) end.
  Definition lmax (l : list T) : res T :=
    match l with [] => Err ValueError | x :: r => Ok (fold_left npmax r x) end.

  (** np.mean, np.std (population) and torch.std (Bessel correction) over a 1-d array *)
  Definition nmean (l : list T) : T := ndiv (nsum l) (nofnat (length l)).
  Definition ssd (l : list T) : T := nsum (map (fun x => nsq (nsub x (nmean l))) l).
  Definition nstd (l : list T) : T := nsqrt (ndiv (ssd l) (nofnat (length l))).
  Definition tstd (l : list T) : T := nsqrt (ndiv (ssd l) (nsub (nofnat (length l)) none1)).

  (** np.std(A, axis=1), torch.std(A, dim=1) *)
  Definition std1 (A : mat) : list T := map (fun i => nstd (row A i)) (seq 0 (mr A)).
  Definition tstd1 (A : mat) : list T := map (fun i => tstd (row A i)) (seq 0 (mr A)).

  (** ** 3-d flows *)
  Record arr3 := Arr3 { a_d : nat; a_n : nat; a_k : nat; a_s : list mat }.

  (** np.zeros((d, n, k)) *)
  Definition zeros3 (d n k : nat) : arr3 := Arr3 d n k (repeat (mzeros d n) k).

  Definition upd {A} (l : list A) (i : nat) (a : A) : list A :=
    firstn i l ++ match skipn i l with [] => [] | _ :: r => a :: r end.

  Definition slice (A : arr3) (t : nat) : mat := nth t (a_s A) (mzeros (a_d A) (a_n A)).
  Definition get3 (A : arr3) (d i t : nat) : T := get (slice A t) d i.

  (** A[:, :, t] *)
  Definition getsl (A : arr3) (t : Z) : res mat :=
    match pyidx (a_k A) t with Some j => Ok (slice A j) | None => Err IndexError end.
  (** A[:, :, t] = src *)
  Definition setsl (A : arr3) (t : Z) (src : mat) : res arr3 :=
    match pyidx (a_k A) t with
    | None => Err IndexError
    | Some j => let! m := assign_shape (a_d A) (a_n A) src in
        Ok (Arr3 (a_d A) (a_n A) (a_k A) (upd (a_s A) j m))
    end.
  (** A[d, :, t] = v  (v a number) *)
  Definition setrow3 (A : arr3) (d t : Z) (v : T) : res arr3 :=
    match pyidx (a_d A) d, pyidx (a_k A) t with
    | Some d', Some j =>
        Ok (Arr3 (a_d A) (a_n A) (a_k A)
             (upd (a_s A) j (mk (a_d A) (a_n A) (fun a b => if a =? d' then v else get (slice A j) a b))))
    | _, _ => Err IndexError
    end.
  (** A[:, i, t] = src  (src 1-d of length dim, or broadcastable to it) *)
  Definition setcol3 (A : arr3) (i t : Z) (src : mat) : res arr3 :=
    match pyidx (a_n A) i, pyidx (a_k A) t with
    | Some i', Some j => let! v := assign_shape 1 (a_d A) src in
        Ok (Arr3 (a_d A) (a_n A) (a_k A)
             (upd (a_s A) j (mk (a_d A) (a_n A) (fun a b => if b =? i' then get v 0 a else get (slice A j) a b))))
    | _, _ => Err IndexError
    end.
End Arr.
Arguments mat : clear implicits.
Arguments arr3 : clear implicits.
