(** Code outside the repository, as oracles about which nothing is assumed here. *)
From Coq Require Import List ZArith.
From Verif Require Import Base.Num Base.Py Base.Arr.

(** [T] numbers, [S] state of the (global) random generator. *)
Record Ext (T S : Type) := {
  (* np.random.normal(loc=0, scale, size=(r,c)); torch.empty([r,c]).normal_(mean=0, std=scale) *)
  x_normal : S -> T -> nat -> nat -> (nat -> nat -> T) * S;
  (* np.random.uniform(low, high, size=m): may raise OverflowError when high-low is not finite *)
  x_uniform : S -> T -> T -> nat -> res (nat -> T) * S;
  (* torch.distributions.Uniform(low, high).sample([m]) after its argument check *)
  x_tuniform : S -> list T -> list T -> nat -> (nat -> nat -> T) * S;
  (* np.linalg.inv / torch.linalg.inv on a square matrix; None = LinAlgError *)
  x_inv : mat T -> option (nat -> nat -> T);
  (* pyemd.emd_with_flow(a, b, cost)[1] *)
  x_emd : list T -> list T -> mat T -> (nat -> nat -> T);
  (* ot.emd(a, b, M) *)
  x_otemd : list T -> list T -> mat T -> (nat -> nat -> T)
}.
Arguments x_normal {T S}. Arguments x_uniform {T S}. Arguments x_tuniform {T S}.
Arguments x_inv {T S}. Arguments x_emd {T S}. Arguments x_otemd {T S}.

Section Ext.
  Context {T S : Type} {O : NumOps T} (E : Ext T S).
  (** np.linalg.inv with its squareness check (LinAlgError is also what numpy raises for a non-square argument) *)
  Definition linalg_inv (A : mat T) : res (mat T) :=
    if Nat.eqb (mr A) (mc A) then
      match x_inv E A with Some h => Ok (mk (mr A) (mr A) h) | None => Err LinAlgError end
    else Err LinAlgError.
  (** np.random.normal(loc=0.0, scale, size=(r,c)) *)
  Definition normal (scale : T) (r c : nat) : M S (mat T) :=
    fun s => let (h, s') := x_normal E s scale r c in (Ok (mk r c h), s').
  (** np.random.uniform(low, high, size=m) *)
  Definition uniform (lo hi : T) (m : nat) : M S (list T) :=
    fun s => match x_uniform E s lo hi m with
             | (Ok h, s') => (Ok (map h (seq 0 m)), s')
             | (Err e, s') => (Err e, s')
             end.
End Ext.
