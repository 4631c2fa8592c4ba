(** The same control problem in other units and with another origin of space and time: coordinates x' = al*x + v (one scale al > 0, one
    offset per coordinate) and time t' = t + c. *)
From Coq Require Import String List ZArith Reals.
From Verif Require Import Base.Num Base.Py Base.Arr Model.Ext Model.DPFC Spec.FlowSpec.
Import ListNotations.
Local Open Scope R_scope.

(** the same exception, or answers related by R *)
Definition same_outcome {A B} (R : A -> B -> Prop) (r : res A) (r' : res B) : Prop :=
  match r, r' with Ok a, Ok a' => R a a' | Err e, Err e' => e = e' | _, _ => False end.

(** arrays of the same shape, the second k times the first *)
Definition times (k : R) (A A' : mat R) : Prop :=
  mr A' = mr A /\ mc A' = mc A /\ forall i j, (i < mr A)%nat -> (j < mc A)%nat -> get A' i j = k * get A i j.

Section Affine.
  Context (al c : R) (v : nat -> R).

  (** an ensemble (coordinates in the rows, particles in the columns), a list of points (one per row), a point, a flow, a time grid *)
  Definition ensemble_image (x x' : mat R) : Prop :=
    mr x' = mr x /\ mc x' = mc x /\ forall d n, (d < mr x)%nat -> (n < mc x)%nat -> get x' d n = al * get x d n + v d.
  Definition points_image (x x' : mat R) : Prop :=
    mr x' = mr x /\ mc x' = mc x /\ forall n d, (n < mr x)%nat -> (d < mc x)%nat -> get x' n d = al * get x n d + v d.
  Definition point_image (y y' : list R) : Prop :=
    List.length y' = List.length y /\ forall d, (d < List.length y)%nat -> nth d y' 0 = al * nth d y 0 + v d.
  Definition flow_image (A A' : arr3 R) : Prop :=
    a_d A' = a_d A /\ a_n A' = a_n A /\ a_k A' = a_k A /\
    forall d n t, (d < a_d A)%nat -> (n < a_n A)%nat -> (t < a_k A)%nat -> get3 A' d n t = al * get3 A d n t + v d.
  Definition grid_image (g g' : list R) : Prop :=
    List.length g' = List.length g /\ forall i, (i < List.length g)%nat -> nth i g' 0 = nth i g 0 + c.

  (** p' is the problem p in the new coordinates: end points and times are mapped; drift and noise are al times the old ones at
      corresponding points and times; the constraint and everything else is the same *)
  Record problem_image (p p' : params R) : Prop := {
    pi_t1 : p_t1 p' = p_t1 p + c; pi_t2 : p_t2 p' = p_t2 p + c;
    pi_y1 : point_image (p_y1 p) (p_y1 p'); pi_y2 : point_image (p_y2 p) (p_y2 p');
    pi_f : forall x x' t, rect x -> rect x' -> mr x = List.length (p_y1 p) -> mc x = p_N p -> ensemble_image x x' ->
             same_outcome (times al) (call2 (p_f p) x t) (call2 (p_f p') x' (t + c));
    pi_f1 : forall x x', rect x -> rect x' -> mr x = 1%nat -> mc x = List.length (p_y1 p) -> points_image x x' ->
             same_outcome (times al) (call1 (p_f p) x) (call1 (p_f p') x');
    pi_g : times al (p_g p) (p_g p');
    pi_N : p_N p' = p_N p; pi_M : p_M p' = p_M p; pi_rw : p_reweight p' = p_reweight p; pi_brown : p_brown p' = p_brown p;
    pi_det : p_det p' = p_det p; pi_kern : p_kern p' = p_kern p;
    pi_U : forall x x' t, rect x -> rect x' -> mr x = List.length (p_y1 p) -> mc x = p_N p -> ensemble_image x x' ->
             same_outcome (times 1) (ocall2 (p_U p) x t) (ocall2 (p_U p') x' (t + c));
    pi_U1 : forall x x', rect x -> rect x' -> mr x = List.length (p_y1 p) -> mc x = p_N p -> ensemble_image x x' ->
             same_outcome (times 1) (ocall1 (p_U p) x) (ocall1 (p_U p') x');
    pi_ftrue : forall x x' t, rect x -> rect x' -> mr x = List.length (p_y1 p) -> mc x = p_N p -> ensemble_image x x' ->
             same_outcome (times al) (ocall2 (p_f_true p) x t) (ocall2 (p_f_true p') x' (t + c)) }.

  (** what a constructed object exposes; the reference flow is filled in deterministic mode only *)
  Definition object_image (o o' : obj R) : Prop :=
    grid_image (o_grid o) (o_grid o') /\ flow_image (o_Z o) (o_Z o') /\ flow_image (o_B o) (o_B o') /\
    match o_Ztr o, o_Ztr o' with Some A, Some A' => p_det (o_par o) = true -> flow_image A A' | None, None => True | _, _ => False end.
End Affine.

(** np.random.uniform(lo, hi) is lo + (hi-lo)*u for draws u that depend on the generator alone *)
Definition uniform_affine {S} (E : Ext R S) : Prop := forall s a b lo hi m, 0 < a ->
  match x_uniform E s lo hi m, x_uniform E s (a * lo + b) (a * hi + b) m with
  | (Ok h, s1), (Ok h', s1') => s1' = s1 /\ forall i, (i < m)%nat -> h' i = a * h i + b
  | (Err e, s1), (Err e', s1') => s1' = s1 /\ e' = e
  | _, _ => False
  end.
(** the plan pyemd chooses does not depend on the unit of the costs *)
Definition emd_unit_free {S} (E : Ext R S) : Prop := forall a w u C C', 0 < a -> rect C -> rect C' -> times a C C' ->
  forall i j, (i < mr C)%nat -> (j < mc C)%nat -> x_emd E w u C' i j = x_emd E w u C i j.
(** torch.distributions.Uniform(lo, hi).sample is lo + (hi-lo)*u, coordinate by coordinate, for draws u that depend on the generator alone *)
Definition tuniform_affine {S} (E : Ext R S) : Prop := forall s a (b : nat -> R) lo hi lo' hi' m, 0 < a ->
  List.length hi = List.length lo -> List.length lo' = List.length lo -> List.length hi' = List.length lo ->
  (forall d, (d < List.length lo)%nat -> nth d lo' 0 = a * nth d lo 0 + b d /\ nth d hi' 0 = a * nth d hi 0 + b d) ->
  snd (x_tuniform E s lo' hi' m) = snd (x_tuniform E s lo hi m) /\
  forall i d, (i < m)%nat -> (d < List.length lo)%nat -> fst (x_tuniform E s lo' hi' m) i d = a * fst (x_tuniform E s lo hi m) i d + b d.
