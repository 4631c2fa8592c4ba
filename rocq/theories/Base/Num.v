(** Abstract number systems.

    The Python code computes with IEEE doubles through numpy / torch.  The model is written over an
    arbitrary carrier [T] with the operations the code uses and NO laws, so that a theorem proved for
    every [NumOps T] holds for doubles, whatever the rounding and the order of summation.
    [ROps] is the exact-real instance used for theorems about values.
    [QOps] is an executable instance (rationals, with crude stand-ins for the transcendental functions)
    used only to run the model on concrete inputs. *)
From Coq Require Import List ZArith QArith Reals Lia Lra.
Import ListNotations.

Class NumOps (T : Type) := {
  nzero : T;
  none1 : T;                       (* 1.0 *)
  nadd : T -> T -> T;
  nsub : T -> T -> T;
  nmul : T -> T -> T;
  ndiv : T -> T -> T;
  nopp : T -> T;
  nsqrt : T -> T;
  nexp : T -> T;
  nsin : T -> T;
  ncos : T -> T;
  nabs : T -> T;
  nltb : T -> T -> bool;           (* a < b  (False on nan) *)
  nleb : T -> T -> bool;           (* a <= b (False on nan) *)
  neqb : T -> T -> bool;           (* a == b (False on nan) *)
  npmin : T -> T -> T;             (* np.minimum / reduction step of np.min, torch.min *)
  npmax : T -> T -> T;             (* np.maximum / reduction step of np.max, torch.max *)
  nsum : list T -> T;              (* np.sum, torch.sum, inner products of @ : some fixed reduction *)
  nlit : Z -> positive -> T;       (* the number written p/q in the source, e.g. 0.001 = nlit 1 1000 *)
  nceil : T -> Z;                  (* ceil, as integer *)
  nbad : T -> bool                 (* np.isnan(x) or np.isinf(x) *)
}.

Section Derived.
  Context {T : Type} {O : NumOps T}.
  Definition nofnat (n : nat) : T := nlit (Z.of_nat n) 1.
  Definition ntwo : T := nlit 2 1.
  Definition nhalf : T := nlit 1 2.
  Definition nmilli : T := nlit 1 1000.     (* 0.001, 1e-3 *)
  Definition nsq (x : T) : T := nmul x x.   (* x**2 *)
  (* Python builtins on two numbers: max(a,b) is b only if b > a; min(a,b) is b only if b < a *)
  Definition pymax (a b : T) : T := if nltb a b then b else a.
  Definition pymin (a b : T) : T := if nltb b a then b else a.
End Derived.

(** Exact reals. *)
Open Scope R_scope.
#[export] Instance ROps : NumOps R := {|
  nzero := 0; none1 := 1;
  nadd := Rplus; nsub := Rminus; nmul := Rmult; ndiv := Rdiv; nopp := Ropp;
  nsqrt := sqrt; nexp := exp; nsin := sin; ncos := cos; nabs := Rabs;
  nltb := fun x y => if Rlt_dec x y then true else false;
  nleb := fun x y => if Rle_dec x y then true else false;
  neqb := fun x y => if Req_EM_T x y then true else false;
  npmin := Rmin; npmax := Rmax;
  nsum := fold_right Rplus 0;
  nlit := fun p q => IZR p / IZR (Zpos q);
  nceil := fun x => (1 - up (- x))%Z      (* = ceil x: up (-x) = floor(-x)+1, ceil x = - floor(-x) *)
  ; nbad := fun _ => false
|}.

(** Executable rationals (for running examples only; [nexp x] is 1/(1+|x|), [nsqrt x] is (1+x)/2,
    [nsin] is x, [ncos] is 1 : these stand-ins play no role in any theorem). *)
Definition QOps : NumOps Q := {|
  nzero := 0%Q; none1 := 1%Q;
  nadd := fun x y => Qred (x + y); nsub := fun x y => Qred (x - y);
  nmul := fun x y => Qred (x * y); ndiv := fun x y => Qred (x / y); nopp := Qopp;
  nsqrt := fun x => Qred ((1 + x) / 2);
  nexp := fun x => Qred (1 / (1 + (if Qle_bool 0 x then x else -x)));
  nsin := fun x => x; ncos := fun _ => 1%Q;
  nabs := fun x => if Qle_bool 0 x then x else (-x)%Q;
  nltb := fun x y => negb (Qle_bool y x);
  nleb := Qle_bool; neqb := Qeq_bool;
  npmin := fun x y => if Qle_bool x y then x else y;
  npmax := fun x y => if Qle_bool x y then y else x;
  nsum := fun l => fold_right (fun x y => Qred (x + y)) 0%Q l;
  nlit := fun p q => Qred (p # q);
  nceil := fun x => (- (Qnum (-x) / Zpos (Qden (-x))))%Z;
  nbad := fun _ => false
|}.
