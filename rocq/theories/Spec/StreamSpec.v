(** The whole history of a construction: the flows and the single stream of random numbers that runs through them.
    Uses the one-step relations of FlowSpec only. *)
From Coq Require Import String List ZArith Lia Bool.
From Verif Require Import Base.Num Base.Py Base.Arr Model.Ext Model.Score Model.DPFC Spec.FlowSpec.
Import ListNotations.

Section StreamSpec.
  Context {T S : Type} {O : NumOps T} (E : Ext T S).

  (** deterministic forward particles: start at y1, k-1 steps, generator from s to s' *)
  Definition forward_history (p : params T) (kern : string) (grid : list T) (Z : arr3 T) (s s' : S) : Prop :=
    let k := List.length grid in
    has_shape Z (List.length (p_y1 p)) (p_N p) k /\ all_at Z 0 (p_y1 p) /\
    exists sg : nat -> S, sg 0 = s /\ sg (k - 1) = s' /\
      forall i, 1 <= i < k ->
        (if p_reweight p
         then weighted_step E nmilli kern (p_M p) (p_g p) (call2 (p_f p)) (ocall2 (p_U p)) i (nth i grid nzero)
         else plain_step E nmilli kern (p_M p) (p_g p) (call2 (p_f p)) i (nth i grid nzero))
          (slice Z (i-1)) (slice Z i) (sg (i-1)) (sg i).

  (** the reference flow: same steps with the drift f_true, never reweighted *)
  Definition reference_history (p : params T) (kern : string) (grid : list T) (Z : arr3 T) (s s' : S) : Prop :=
    let k := List.length grid in
    has_shape Z (List.length (p_y1 p)) (p_N p) k /\ all_at Z 0 (p_y1 p) /\
    exists sg : nat -> S, sg 0 = s /\ sg (k - 1) = s' /\
      forall i, 1 <= i < k ->
        plain_step E nmilli kern (p_M p) (p_g p) (ocall2 (p_f_true p)) i (nth i grid nzero)
          (slice Z (i-1)) (slice Z i) (sg (i-1)) (sg i).

  (** stochastic forward particles Y (coordinates from the third on start at 0); Z is Y with the last slice replaced
      by the target *)
  Definition stochastic_history (p : params T) (grid : list T) (Z : arr3 T) (s s' : S) : Prop :=
    let k := List.length grid in
    has_shape Z (List.length (p_y1 p)) (p_N p) k /\ all_at Z (k - 1) (p_y2 p) /\
    (forall d n, d < a_d Z -> n < a_n Z -> get3 Z d n 0 = if d <? 2 then nth d (p_y1 p) nzero else nzero) /\
    exists (Y : arr3 T) (sg : nat -> S), sg 0 = s /\ sg (k - 1) = s' /\
      (forall t, t < k - 1 -> slice Y t = slice Z t) /\
      forall i, 1 <= i < k ->
        (if p_reweight p then weighted_particle_step E nmilli (p_g p) (call1 (p_f p)) (ocall1 (p_U p))
         else particle_step E nmilli (p_g p) (call1 (p_f p)))
          (slice Y (i-1)) (slice Y i) (sg (i-1)) (sg i).

  (** time-reversed particles: start at y2 at index k-1, k-2 steps down to index 1, y1 at index 0 *)
  Definition backward_history (p : params T) (kern : string) (grid : list T) (Z B : arr3 T) (s s' : S) : Prop :=
    let k := List.length grid in
    has_shape B (List.length (p_y1 p)) (p_N p) k /\ all_at B 0 (p_y1 p) /\ all_at B (k - 1) (p_y2 p) /\
    exists sg : nat -> S, sg (k - 1) = s /\ sg 1 = s' /\
      forall j, 1 <= j -> j + 1 < k ->
        back_step E ((j =? k - 2) || negb (p_det p)) nmilli kern (p_M p) (p_g p) (call2 (p_f p)) (nth (j+1) grid nzero)
          (slice Z (j+1)) (slice B (j+1)) (slice B j) (sg (j+1)) (sg j).

  (** the constructor: forward flow, then (reweight and brown_bridge) the reference flow, then the backward flow, each
      starting with the generator where the previous one left it *)
  Definition history (p : params T) (kern : string) (grid : list T) (Z : arr3 T) (Ztr : option (arr3 T)) (B : arr3 T)
    (s s' : S) : Prop :=
    exists s1 s2,
      (if p_det p then forward_history p kern grid Z s s1 else stochastic_history p grid Z s s1) /\
      match Ztr with
      | None => p_reweight p && p_brown p = false /\ s2 = s1
      | Some Zt => p_reweight p && p_brown p = true /\
          if p_det p then reference_history p kern grid Zt s1 s2
          else has_shape Zt (List.length (p_y1 p)) (p_N p) (List.length grid) /\
               (forall t, t < List.length grid -> all_at Zt t (map (fun _ => nzero) (p_y1 p))) /\ s2 = s1
      end /\
      backward_history p kern grid Z B s2 s'.
End StreamSpec.
From Verif Require Import Model.ScoreTorch Model.TDPFC Spec.TorchSpec.

(** the same for the torch class without a bridge (reweight and brown_bridge not both set) *)
Section TorchStreamSpec.
  Context {T S : Type} {O : NumOps T} (E : Ext T S).

  Definition t_forward_history (p : params T) (grid : list T) (Z : arr3 T) (s s' : S) : Prop :=
    let k := List.length grid in
    has_shape Z (List.length (p_y1 p)) (p_N p) k /\ all_at Z 0 (p_y1 p) /\
    exists sg : nat -> S, sg 0 = s /\ sg (k - 1) = s' /\
      forall i, 1 <= i < k ->
        (if p_reweight p
         then t_weighted_step E nmilli (p_M p) (p_g p) (call2 (p_f p)) (ocall2 (p_U p)) i (nth i grid nzero)
         else t_plain_step E nmilli (p_M p) (p_g p) (call2 (p_f p)) i (nth i grid nzero))
          (slice Z (i-1)) (slice Z i) (sg (i-1)) (sg i).

  (** stochastic mode: no slice is replaced by the target *)
  Definition t_stochastic_history (p : params T) (grid : list T) (Z : arr3 T) (s s' : S) : Prop :=
    let k := List.length grid in
    has_shape Z (List.length (p_y1 p)) (p_N p) k /\
    (forall d n, d < a_d Z -> n < a_n Z -> get3 Z d n 0 = if d <? 2 then nth d (p_y1 p) nzero else nzero) /\
    exists sg : nat -> S, sg 0 = s /\ sg (k - 1) = s' /\
      forall i, 1 <= i < k ->
        (if p_reweight p then t_stoch_weighted_step E nmilli (p_g p) (call2 (p_f p)) (ocall1 (p_U p)) (nth i grid nzero)
         else noisy_step E nmilli (p_g p) (call2 (p_f p)) (nsub (nth i grid nzero) nmilli))
          (slice Z (i-1)) (slice Z i) (sg (i-1)) (sg i).

  Definition t_backward_history (p : params T) (kern : string) (grid : list T) (Z B : arr3 T) (s s' : S) : Prop :=
    let k := List.length grid in
    has_shape B (List.length (p_y1 p)) (p_N p) k /\ all_at B 0 (p_y1 p) /\ all_at B (k - 1) (p_y2 p) /\
    exists sg : nat -> S, sg (k - 1) = s /\ sg 1 = s' /\
      forall j, 1 <= j -> j + 1 < k ->
        t_back_step E ((j =? k - 2) || negb (p_det p)) nmilli kern (p_M p) (p_g p) (call2 (p_f p)) (nth (j+1) grid nzero)
          (slice Z (j+1)) (slice B (j+1)) (slice B j) (sg (j+1)) (sg j).

  Definition t_history (p : params T) (kern : string) (grid : list T) (Z B : arr3 T) (s s' : S) : Prop :=
    exists s1,
      (if p_det p then t_forward_history p grid Z s s1 else t_stochastic_history p grid Z s s1) /\
      t_backward_history p kern grid Z B s1 s'.
End TorchStreamSpec.
