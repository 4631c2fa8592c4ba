(** Comparing two runs, and counting random draws. *)
From Coq Require Import String List ZArith Lia Bool.
From Verif Require Import Base.Num Base.Py Base.Arr Model.Ext Model.DPFC.
Import ListNotations.

Section RunSpec.
  Context {T S : Type} {O : NumOps T}.

  (** changing one constructor argument *)
  Definition with_kern (p : params T) (v : string) : params T :=
    Build_params T (p_t1 p) (p_t2 p) (p_y1 p) (p_y2 p) (p_f p) (p_g p) (p_N p) (p_M p) (p_reweight p) (p_U p) (p_dens_est p) (p_reject p) v (p_f_true p) (p_brown p) (p_det p).
  Definition with_reject (p : params T) (v : bool) : params T :=
    Build_params T (p_t1 p) (p_t2 p) (p_y1 p) (p_y2 p) (p_f p) (p_g p) (p_N p) (p_M p) (p_reweight p) (p_U p) (p_dens_est p) v (p_kern p) (p_f_true p) (p_brown p) (p_det p).
  Definition with_dens_est (p : params T) (v : string) : params T :=
    Build_params T (p_t1 p) (p_t2 p) (p_y1 p) (p_y2 p) (p_f p) (p_g p) (p_N p) (p_M p) (p_reweight p) (p_U p) v (p_reject p) (p_kern p) (p_f_true p) (p_brown p) (p_det p).
  Definition with_U (p : params T) (v : option (callable T)) : params T :=
    Build_params T (p_t1 p) (p_t2 p) (p_y1 p) (p_y2 p) (p_f p) (p_g p) (p_N p) (p_M p) (p_reweight p) v (p_dens_est p) (p_reject p) (p_kern p) (p_f_true p) (p_brown p) (p_det p).
  Definition with_f (p : params T) (v : callable T) : params T :=
    Build_params T (p_t1 p) (p_t2 p) (p_y1 p) (p_y2 p) v (p_g p) (p_N p) (p_M p) (p_reweight p) (p_U p) (p_dens_est p) (p_reject p) (p_kern p) (p_f_true p) (p_brown p) (p_det p).
  Definition with_f_true (p : params T) (v : option (callable T)) : params T :=
    Build_params T (p_t1 p) (p_t2 p) (p_y1 p) (p_y2 p) (p_f p) (p_g p) (p_N p) (p_M p) (p_reweight p) (p_U p) (p_dens_est p) (p_reject p) (p_kern p) v (p_brown p) (p_det p).
  Definition with_brown (p : params T) (v : bool) : params T :=
    Build_params T (p_t1 p) (p_t2 p) (p_y1 p) (p_y2 p) (p_f p) (p_g p) (p_N p) (p_M p) (p_reweight p) (p_U p) (p_dens_est p) (p_reject p) (p_kern p) (p_f_true p) v (p_det p).
  Definition with_reweight (p : params T) (v : bool) : params T :=
    Build_params T (p_t1 p) (p_t2 p) (p_y1 p) (p_y2 p) (p_f p) (p_g p) (p_N p) (p_M p) v (p_U p) (p_dens_est p) (p_reject p) (p_kern p) (p_f_true p) (p_brown p) (p_det p).

  Definition with_g (p : params T) (v : mat T) : params T :=
    Build_params T (p_t1 p) (p_t2 p) (p_y1 p) (p_y2 p) (p_f p) v (p_N p) (p_M p) (p_reweight p) (p_U p) (p_dens_est p) (p_reject p) (p_kern p) (p_f_true p) (p_brown p) (p_det p).

  (** two constructor calls have the same outcome: the same exception, or objects with the same grid and flows; and
      the random generator is left in the same state *)
  Definition same_outcome (r1 r2 : res (obj T) * S) : Prop :=
    snd r1 = snd r2 /\
    match fst r1, fst r2 with
    | Ok o1, Ok o2 => o_grid o1 = o_grid o2 /\ o_kern o1 = o_kern o2 /\ o_Z o1 = o_Z o2 /\ o_B o1 = o_B o2 /\ o_Ztr o1 = o_Ztr o2
    | Err e1, Err e2 => e1 = e2
    | _, _ => False
    end.

  (** a call of the random generator: r x c normals, or m uniforms *)
  Inductive draw := DNormal (r c : nat) | DUniform (m : nat).

  (** [tag] observes the generator state; every call changes the observation in a way that depends only on the kind
      of call (for instance: tag = the log of all calls so far; or tag = the whole state of a generator whose stream
      position does not depend on the requested bounds and scale) *)
  Definition advances {X : Type} (E : Ext T S) (tag : S -> X) (adv : X -> draw -> X) : Prop :=
    (forall s sc r c, tag (snd (x_normal E s sc r c)) = adv (tag s) (DNormal r c)) /\
    (forall s lo hi m, tag (snd (x_uniform E s lo hi m)) = adv (tag s) (DUniform m)).

  (** any generator with a log of its calls *)
  Definition logged (E : Ext T S) : Ext T (S * list draw) := {|
    x_normal := fun s sc r c => let (h, s') := x_normal E (fst s) sc r c in (h, (s', snd s ++ [DNormal r c]));
    x_uniform := fun s lo hi m => let (h, s') := x_uniform E (fst s) lo hi m in (h, (s', snd s ++ [DUniform m]));
    x_tuniform := fun s lo hi m => let (h, s') := x_tuniform E (fst s) lo hi m in (h, (s', snd s ++ [DUniform m]));
    x_inv := x_inv E; x_emd := x_emd E; x_otemd := x_otemd E |}.

  Fixpoint times {A} (n : nat) (l : list A) : list A := match n with 0 => [] | Datatypes.S n' => l ++ times n' l end.

  (** draws of one pass of deterministic forward particles over k grid points *)
  Definition forward_draws (k dim N m : nat) : list draw :=
    if k <=? 1 then [] else DNormal dim N :: times (k - 2) (repeat (DUniform m) dim).
  (** draws of the backward pass *)
  Definition backward_draws (det : bool) (k dim N m : nat) : list draw :=
    if k <=? 2 then [] else
    let noisy := repeat (DUniform m) dim ++ [DNormal dim N] in
    if det then noisy ++ times (k - 3) (repeat (DUniform m) (dim + dim)) else times (k - 2) noisy.
  Definition all_draws (p : params T) (k : nat) : list draw :=
    let dim := List.length (p_y1 p) in
    (if p_det p then forward_draws k dim (p_N p) (p_M p) ++
                     (if p_reweight p && p_brown p then forward_draws k dim (p_N p) (p_M p) else [])
     else times (k - 1) (repeat (DNormal 1 dim) (p_N p)))
    ++ backward_draws (p_det p) k dim (p_N p) (p_M p).
End RunSpec.
