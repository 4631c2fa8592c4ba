(** C87: cases that meet the hypotheses of Props/Feedback.v. *)
From Coq Require Import String List ZArith Lia Bool Reals Lra.
From Verif Require Import Base.Num Base.Py Base.Arr Lib.ArrLemmas Model.Ext Model.Score Model.DPFC Model.TDPFC Model.Controlled Run.RealExt.
From Verif Require Import Spec.FlowSpec Spec.QuerySpec Spec.RealSpec Spec.ReweightSpec Spec.ControlledSpec Spec.FeedbackSpec.
From Verif Require Import Lib.FlowLemmas Lib.ScoreLemmas Lib.StepLemmas Lib.QueryLemmas Lib.RBase Lib.RSum.
From Verif Require Import Props.Flows Props.Queries Props.QueriesR Props.Witnesses Props.Controlled Props.Undefined Props.Feedback.
Import ListNotations.
Local Open Scope R_scope.

(** the 21-point run of Witnesses.v: both variances are positive at index 3, so both theorems apply to it and to its controlled simulation *)
Example W87_run : exists o s' c s'', construct RealExt fan 0%nat = (Ok o, s') /\ List.length (o_grid o) = 21%nat /\
  (forall d, (d < 2)%nat -> 0 < variance 3 (get (slice (o_B o) 3) d) /\ 0 < variance 3 (get (slice (o_Z o) 3) d)) /\
  (forall gx s0, mc gx = 2%nat -> exists u, calculate_u RealExt o gx 3 s0 = (Ok u, s0) /\ forall d, (d < 2)%nat ->
     let b := get (slice (o_B o) 3) d in let z := get (slice (o_Z o) 3) d in
     feedback 1 (mean 3 b) (variance 3 b) (mean 3 z) (variance 3 z) (mr gx) (fun i => get gx i d) (fun i => get u d i)) /\
  (forall gx s0, mc gx = 2%nat -> exists u, t_calculate_u RealExt o gx 3 s0 = (Ok u, s0) /\ forall d, (d < 2)%nat ->
     let b := get (slice (o_B o) 3) d in let z := get (slice (o_Z o) 3) d in
     feedback (2 / 3) (mean 3 b) (variance 3 b) (mean 3 z) (variance 3 z) (mr gx) (fun i => get gx i d) (fun i => get u d i)) /\
  controlled_simulation RealExt o back (1/10) [0; 1] 4 s' = (Ok c, s'') /\
  exists h, forall d r r', (d < 2)%nat -> (r < 4)%nat -> (r' < 4)%nat ->
     let b := get (slice (o_B o) 3) d in let z := get (slice (o_Z o) 3) d in let F := ct_F c in
     get3 F d r 3 - get3 F d r' 3 = (1 - 1 / 1000 * (1/10) ^ 2 * (1 / variance 3 b - 1 / variance 3 z)) * (get3 F d r 2 - get3 F d r' 2)
       + 1 / 1000 * (- get3 F d r 2 - - get3 F d r' 2) + 1/10 * (h d r - h d r').
Proof.
  destruct W69 as (o & s' & c & s'' & H & Hs & L & Sim & _). exists o, s', c, s''. split; [exact H|]. split; [exact L|].
  destruct (construct_consistent _ _ _ _ _ H) as (P & Hc). rewrite L in Hc. cbn [fan p_y1 List.length p_N] in Hc.
  assert (F : forward_of o (o_Z o)) by (unfold forward_of; rewrite P; reflexivity).
  assert (V : forall d, (d < 2)%nat -> 0 < variance 3 (get (slice (o_B o) 3) d) /\ 0 < variance 3 (get (slice (o_Z o) 3) d)).
  { intros d Hd. destruct (fan_shapes 0 o s' H L 3 ltac:(lia)) as (R0 & C0 & R1 & C1).
    pose proof (spread_variance _ d (fan_spread_B 0 o s' H L 3 d ltac:(lia) Hd)) as V1. pose proof (spread_variance _ d (fan_spread_Z 0 o s' H L 3 d ltac:(lia) Hd)) as V2.
    rewrite C1 in V1. rewrite C0 in V2. split; assumption. }
  split; [exact V|]. split; [|split; [|split]].
  - intros gx s0 Hg. destruct (C87_feedback RealExt o 2 3 21 (o_Z o) Hc F gx 3 3 s0) as (u & U1 & U2); try (unfold selects, edge; lia).
    exists u. split; [exact U1|]. intros d Hd. destruct (V d Hd). now apply U2.
  - intros gx s0 Hg. destruct (C87_torch_feedback RealExt o 2 3 21 (o_Z o) Hc F gx 3 3 s0) as (u & U1 & U2); try (unfold selects, edge; lia).
    exists u. split; [exact U1|]. intros d Hd. destruct (V d Hd). replace (2 / 3) with ((INR 3 - 1) / INR 3) by (cbn; lra). now apply U2.
  - exact Hs.
  - destruct (C69_controlled_simulation RealExt o 3 21 back (1/10) [0; 1] 4 Hc (back_field _ _) s' c s'' Hs ltac:(lia)) as (SF & _).
    destruct Sim as (_ & _ & st & _ & _ & St). rewrite L in St. specialize (St 3%nat ltac:(lia)).
    destruct (C87_simulation RealExt o 2 3 21 (o_Z o) Hc F back (1/10) _ _ _ 3 4 _ _ St SF ltac:(lia) ltac:(lia) ltac:(unfold edge; lia)) as (h & s1 & s2 & fx & _ & Hf & Q).
    exists h. intros d r r' Hd Hr Hr' b z F0. destruct (V d Hd) as (V1 & V2). subst b z F0. rewrite (Q d r r' Hd Hr Hr' V1 V2).
    cbn [back call1] in Hf. injection Hf as <-. assert (HS : sh (ct_F c) 2 4 21) by (apply has_shape_sh; exact SF).
    destruct (sh_slice _ _ _ _ 2 HS ltac:(lia)) as (_ & RX & CX). cbn [Nat.sub].
    unfold mopp. change (3 - 1)%nat with 2%nat. rewrite !get_mmap1 by (rewrite ?RX, ?CX; lia). reflexivity.
Qed.

(** two hand-made flows: forward 0,2,4 and time-reversed 0,1,2 (shifted by d in coordinate d): the control pulls towards 2/3 + d with gain 9/8 *)
Definition narrow : obj R := {| o_par := fan; o_kern := "RBF"; o_grid := map INR (seq 0 21);
  o_Z := Arr3 2 3 21 (map (fun _ => mk 2 3 (fun d n => INR d + 2 * INR n)) (seq 0 21));
  o_B := Arr3 2 3 21 (map (fun _ => mk 2 3 (fun d n => INR d + INR n)) (seq 0 21)); o_Ztr := None |}.
Lemma narrow_consistent : consistent narrow 2 3 21.
Proof.
  split; [reflexivity|]. split; [reflexivity|]. split; [repeat split; try reflexivity; repeat constructor|]. split; [repeat split; try reflexivity; repeat constructor|]. discriminate.
Qed.
Example W87_narrow gx s : mc gx = 2%nat -> exists u, calculate_u RealExt narrow gx 3 s = (Ok u, s) /\
  forall d i, (d < 2)%nat -> (i < mr gx)%nat -> get u d i = - (9 / 8) * (get gx i d - (2 / 3 + INR d)).
Proof.
  intro Hg. destruct (C87_feedback RealExt narrow 2 3 21 (o_Z narrow) narrow_consistent eq_refl gx 3 3 s) as (u & U1 & U2); try (unfold selects, edge; lia).
  exists u. split; [exact U1|]. intros d i Hd Hi.
  assert (E1 : mean 3 (get (slice (o_B narrow) 3) d) = INR d + 1) by (destruct d as [|[|d]]; [| |lia]; unfold mean; cbn; lra).
  assert (E2 : mean 3 (get (slice (o_Z narrow) 3) d) = INR d + 2) by (destruct d as [|[|d]]; [| |lia]; unfold mean; cbn; lra).
  assert (E3 : variance 3 (get (slice (o_B narrow) 3) d) = 2 / 3) by (unfold variance; rewrite E1; destruct d as [|[|d]]; [| |lia]; cbn; lra).
  assert (E4 : variance 3 (get (slice (o_Z narrow) 3) d) = 8 / 3) by (unfold variance; rewrite E2; destruct d as [|[|d]]; [| |lia]; cbn; lra).
  specialize (U2 d Hd). cbv zeta in U2. rewrite E1, E2, E3, E4 in U2. specialize (U2 ltac:(lra) ltac:(lra)).
  destruct U2 as (U2 & _). destruct (U2 ltac:(lra)) as (g & -> & _ & V & _). rewrite (V i Hi). field.
Qed.
