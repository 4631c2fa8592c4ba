(** Python control: exceptions as values, sequence indexing, and the state-and-exception monad
    (the state is the one of the random generator). *)
From Coq Require Import List ZArith Lia Bool.
Import ListNotations.

Inductive exn :=
| IndexError | ValueError | TypeError | LinAlgError | UnboundLocalError | NameError | OverflowError
| RuntimeError | ImportErr | AttributeError | ZeroDivisionError
| OutOfBounds.  (* numba-compiled code indexing outside an array: undefined behaviour, not a Python exception *)

Inductive res (A : Type) := Ok (a : A) | Err (e : exn).
Arguments Ok {A}. Arguments Err {A}.

Definition rbind {A B} (m : res A) (k : A -> res B) : res B :=
  match m with Ok a => k a | Err e => Err e end.
Definition rmap {A B} (f : A -> B) (m : res A) : res B :=
  match m with Ok a => Ok (f a) | Err e => Err e end.
Definition isOk {A} (m : res A) : bool := match m with Ok _ => true | Err _ => false end.

Notation "'let!' x := m 'in' k" := (rbind m (fun x => k))
  (at level 200, x pattern, m at level 100, k at level 200, right associativity).

(** run [f] on each element left to right, stop at the first exception (list comprehension / for loop) *)
Fixpoint rmapM {A B} (f : A -> res B) (l : list A) : res (list B) :=
  match l with
  | [] => Ok []
  | a :: l' => let! b := f a in let! bs := rmapM f l' in Ok (b :: bs)
  end.

Fixpoint rfold {A B} (f : B -> A -> res B) (l : list A) (b : B) : res B :=
  match l with
  | [] => Ok b
  | a :: l' => let! b' := f b a in rfold f l' b'
  end.

(** Python sequence index: i valid iff -n <= i < n; negative counts from the end *)
Definition pyidx (n : nat) (i : Z) : option nat :=
  if (0 <=? i)%Z then (if (i <? Z.of_nat n)%Z then Some (Z.to_nat i) else None)
  else if (- Z.of_nat n <=? i)%Z then Some (Z.to_nat (Z.of_nat n + i)) else None.

(** l[i] for a 1-d array / list *)
Definition pyget {A} (l : list A) (i : Z) : res A :=
  match pyidx (length l) i with
  | Some j => match nth_error l j with Some a => Ok a | None => Err IndexError end
  | None => Err IndexError
  end.

Definition enumerate {A} (l : list A) : list (nat * A) := combine (seq 0 (length l)) l.

(** l[:-1] *)
Definition init {A} (l : list A) : list A := removelast l.

Section Monad.
  Context {S : Type}.
  Definition M (A : Type) := S -> res A * S.
  Definition ret {A} (a : A) : M A := fun s => (Ok a, s).
  Definition raise {A} (e : exn) : M A := fun s => (Err e, s).
  Definition lift {A} (r : res A) : M A := fun s => (r, s).
  Definition bind {A B} (m : M A) (k : A -> M B) : M B :=
    fun s => match m s with (Ok a, s') => k a s' | (Err e, s') => (Err e, s') end.
  Fixpoint mfold {A B} (f : B -> A -> M B) (l : list A) (b : B) : M B :=
    match l with
    | [] => ret b
    | a :: l' => bind (f b a) (fun b' => mfold f l' b')
    end.
  Fixpoint mmap {A B} (f : A -> M B) (l : list A) : M (list B) :=
    match l with
    | [] => ret []
    | a :: l' => bind (f a) (fun b => bind (mmap f l') (fun bs => ret (b :: bs)))
    end.
End Monad.
Arguments M : clear implicits.

Notation "'let*' x := m 'in' k" := (bind m (fun x => k))
  (at level 200, x pattern, m at level 100, k at level 200, right associativity).
