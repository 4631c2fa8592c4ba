(** What the control near the ends of the interval is as a feedback law: real numbers only. *)
From Coq Require Import Reals.
From Verif Require Import Spec.RealSpec.
Local Open Scope R_scope.

(** One coordinate of the control, u i, at n points with coordinate x i; mb, vb and mz, vz: means and variances of that coordinate in the
    time-reversed and in the forward flow; rho: a factor common to all points. *)
Definition feedback (rho mb vb mz vz : R) (n : nat) (x u : nat -> R) : Prop :=
  let target := (vz * mb - vb * mz) / (vz - vb) in
  (* time-reversed flow narrower than the forward flow: linear attraction towards one point, which lies beyond mb seen from mz *)
  (vb < vz -> exists gain, gain = rho * (1 / vb - 1 / vz) /\ 0 < gain /\ (forall i, (i < n)%nat -> u i = - gain * (x i - target)) /\
     (mz <= mb -> mb <= target) /\ (mb <= mz -> target <= mb)) /\
  (* wider: linear repulsion from one point *)
  (vz < vb -> exists gain, gain = rho * (1 / vz - 1 / vb) /\ 0 < gain /\ (forall i, (i < n)%nat -> u i = gain * (x i - target)) /\
     (mz <= mb -> target <= mz) /\ (mb <= mz -> mz <= target)) /\
  (* equally wide: the same push everywhere, from mz to mb *)
  (vb = vz -> forall i, (i < n)%nat -> u i = rho * (mb - mz) / vb) /\
  (* the average push, over points whose average is mz (the forward particles) and mb (the time-reversed particles) *)
  ((1 <= n)%nat -> mean n x = mz -> mean n u = rho * (mb - mz) / vb) /\
  ((1 <= n)%nat -> mean n x = mb -> mean n u = rho * (mb - mz) / vz).
