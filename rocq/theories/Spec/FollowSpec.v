(** When a double-precision run follows a run in exact real arithmetic: closeness of ensembles, of drifts and of noise. *)
From Coq Require Import String List ZArith Reals.
From Flocq Require Import Core BinarySingleNaN.
From Verif Require Import Base.Num Base.Py Base.Arr Model.Ext Run.Double Spec.RealSpec Spec.DoubleSpec Spec.FlowSpec Spec.RoundSpec.
Local Open Scope R_scope.

Section FollowSpec.
  Context {O : NumOps double}.
  (** finite doubles, each within e of its real counterpart *)
  Definition follows (e : R) (x : mat double) (y : mat R) : Prop :=
    mr x = mr y /\ mc x = mc y /\ forall i j, (i < mr x)%nat -> (j < mc x)%nat -> finite (get x i j) /\ Rabs (B2R (get x i j) - get y i j) <= e.
  (** the drift on reals is Lipschitz with constant L (maximum norm) where coordinates are at most X; the double-precision drift evaluates it with
      error at most delta and returns numbers of size at most Phi *)
  Definition same_drift (X Phi L delta : R) (f : mat double -> res (mat double)) (fR : mat R -> res (mat R)) : Prop :=
    forall x y e V VR, 0 <= e <= 1 -> follows e x y -> (forall i j, (i < mr y)%nat -> (j < mc y)%nat -> Rabs (get y i j) <= X) ->
      f x = Ok V -> fR y = Ok VR ->
      forall i j, (i < mr x)%nat -> (j < mc x)%nat -> sized Phi (elem V i j) /\ Rabs (B2R (elem V i j) - elem VR i j) <= L * e + delta.
  (** both generators run through the same states and draw the same normals up to eps, of size at most Om *)
  Definition same_noise {S} (Om eps : R) (E : Ext double S) (ER : Ext R S) : Prop :=
    forall s r c W s1, x_normal E s (nsqrt nmilli) r c = (W, s1) -> exists WR, x_normal ER s (nsqrt nmilli) r c = (WR, s1) /\
      forall i j, (i < r)%nat -> (j < c)%nat -> sized Om (W i j) /\ Rabs (B2R (W i j) - WR i j) <= eps.
  (** the same diffusion, of size at most G *)
  Definition same_diffusion (G : R) (dim N : nat) (g : mat double) (gR : mat R) : Prop :=
    forall i j, (i < dim)%nat -> (j < N)%nat -> sized G (elem g i j) /\ elem gR i j = B2R (elem g i j).
  (** error added by one step: drift and noise errors and the rounding of the step *)
  Definition step_error (X Phi Om G delta eps : R) : R :=
    delta / 1000 + G * eps + / 1125899906842624 * (X + 1 + Phi / 1000 + G * Om) + / 100000000000000000000.
End FollowSpec.
