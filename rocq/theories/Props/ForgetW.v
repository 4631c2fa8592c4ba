(** C90: runs that complete: starts [0;1] and [a;1], drifts -x and c - x. *)
From Coq Require Import String List ZArith Reals Bool Lia Lra.
From Verif Require Import Base.Num Base.Py Base.Arr Lib.ArrLemmas Lib.RBase Model.Ext Model.Score Model.DPFC Model.TDPFC Spec.FlowSpec Spec.TotalSpec Spec.TTotalSpec Spec.NearbySpec Spec.ForgetSpec.
From Verif Require Import Lib.FlowLemmas Lib.StepLemmas Lib.TorchLemmas Props.Flows Props.Grid Props.Total Props.Torch Props.TorchR Props.TTotal Props.Nearby Props.NearbyW Props.Forget.
Import ListNotations.
Local Open Scope R_scope.

Lemma fg_pulls c (f f' : mat R -> res (mat R)) : (forall x, f x = Ok (mk (mr x) (mc x) (fun d n => 0 - get x d n))) ->
  (forall x, f' x = Ok (mk (mr x) (mc x) (fun d n => c - get x d n))) -> pulls_back 1 (Rabs c) f f'.
Proof.
  intros H1 H2 x y V W (R1 & C1) HV HW i j Hi Hj. rewrite H1 in HV. rewrite H2 in HW. injection HV as <-. injection HW as <-. exists 1. split; [lra|].
  rewrite !elem_all by lia. replace (0 - get x i j - (c - get y i j) + 1 * (get x i j - get y i j)) with (- c) by ring. rewrite Rabs_Ropp. lra.
Qed.
Lemma fg_order c (f f' : mat R -> res (mat R)) : 0 <= c -> (forall x, f x = Ok (mk (mr x) (mc x) (fun d n => 0 - get x d n))) ->
  (forall x, f' x = Ok (mk (mr x) (mc x) (fun d n => c - get x d n))) -> order_preserving f f'.
Proof.
  intros Hc H1 H2 x y V W ((R1 & C1) & HB) HV HW i j Hi Hj. rewrite H1 in HV. rewrite H2 in HW. injection HV as <-. injection HW as <-.
  rewrite !elem_all by lia. specialize (HB i j Hi Hj). lra.
Qed.
Lemma fg_starts a d : 0 <= a -> (d < 2)%nat -> nth d [0; 1] 0 <= nth d [a; 1] 0.
Proof. intros Ha Hd. destruct d as [|[|d]]; [cbn; lra|cbn; lra|lia]. Qed.

Lemma fg_runs a0 c0 : exists o s', construct NearExt (near_problem (1/50) a0 c0) 0%nat = (Ok o, s') /\ List.length (o_grid o) = 21%nat.
Proof.
  assert (L : List.length (timegrid (p_t1 (near_problem (1/50) a0 c0)) (p_t2 (near_problem (1/50) a0 c0))) = 21%nat) by (rewrite length_grid; apply (npts_spec _ _ 20); cbn; lra).
  destruct (C18_stochastic_construction_succeeds NearExt (near_problem (1/50) a0 c0) (near_posed _ _ _)) with (s := 0%nat) as (o & s' & H).
  - intros s lo hi m. eexists. eexists. reflexivity.
  - intros A _. cbn. discriminate.
  - reflexivity.
  - rewrite L. lia.
  - exists o, s'. split; [exact H|]. now rewrite (Flows.grid_eq _ _ _ _ _ H).
Qed.
Lemma fg_t_runs a0 c0 : exists o s', t_construct NearExt IsTensor (near_problem (1/1000) a0 c0) 0%nat = (Ok o, s') /\ List.length (o_grid o) = 2%nat.
Proof.
  assert (L : List.length (timegrid 0 (1/1000)) = 2%nat) by (rewrite length_grid; apply (npts_spec _ _ 1); cbn; lra).
  assert (HG : t_timegrid (p_t1 (near_problem (1/1000) a0 c0)) (p_t2 (near_problem (1/1000) a0 c0)) = Ok (timegrid 0 (1/1000))) by (cbn [near_problem p_t1 p_t2]; apply t_timegrid_eq; lra).
  destruct (C68_torch_short NearExt _ (near_t_posed (1/1000) a0 c0) _ 0%nat (or_intror eq_refl) HG ltac:(rewrite L; lia)) as (o & s' & H).
  exists o, s'. split; [exact H|]. destruct (t_construct_ok _ _ _ _ _ _ H) as (_ & _ & _ & G & _). rewrite HG in G. injection G as <-. exact L.
Qed.
Example C90_example a c : exists o s1 o' s2, construct NearExt (near_problem (1/50) 0 0) 0%nat = (Ok o, s1) /\ construct NearExt (near_problem (1/50) a c) 0%nat = (Ok o', s2) /\
  (forall d n t, (d < 2)%nat -> (n < 4)%nat -> (t < 20)%nat -> Rabs (get3 (o_Z o) d n t - get3 (o_Z o') d n t) <= (999 / 1000) ^ t * Rabs a + Rabs c) /\
  (0 <= a -> 0 <= c -> forall d n t, (d < 2)%nat -> (n < 4)%nat -> (t < 20)%nat -> get3 (o_Z o) d n t <= get3 (o_Z o') d n t).
Proof.
  destruct (fg_runs 0 0) as (o & s1 & H & L). destruct (fg_runs a c) as (o' & s2 & H' & L'). exists o, s1, o', s2. split; [exact H|]. split; [exact H'|]. split.
  - intros d n t Hd Hn Ht.
    pose proof (C90_forget NearExt (near_problem (1/50) 0 0) (near_problem (1/50) a c) 0%nat o o' s1 s2 H H' eq_refl eq_refl ltac:(rewrite L, L'; reflexivity) eq_refl eq_refl eq_refl eq_refl
      (fun i j _ _ => eq_refl) ltac:(rewrite L; lia) 1 (Rabs c) (Rabs a) ltac:(lra) (Rabs_pos c) (Rabs_pos a) (near_starts a) (fg_pulls c _ _ (fun x => eq_refl) (fun x => eq_refl)) d n t Hd Hn ltac:(rewrite L; lia)) as Q.
    replace (1 - 1 / 1000) with (999 / 1000) in Q by field. replace (Rabs c / 1) with (Rabs c) in Q by field. exact Q.
  - intros Ha Hc d n t Hd Hn Ht.
    exact (C90_order NearExt (near_problem (1/50) 0 0) (near_problem (1/50) a c) 0%nat o o' s1 s2 H H' eq_refl eq_refl ltac:(rewrite L, L'; reflexivity) eq_refl eq_refl eq_refl eq_refl
      (fun i j _ _ => eq_refl) ltac:(rewrite L; lia) (fun d => fg_starts a d Ha) (fg_order c _ _ Hc (fun x => eq_refl) (fun x => eq_refl)) d n t Hd Hn ltac:(rewrite L; lia)).
Qed.
Example C90_torch_example a c : exists o s1 o' s2, t_construct NearExt IsTensor (near_problem (1/1000) 0 0) 0%nat = (Ok o, s1) /\
  t_construct NearExt IsTensor (near_problem (1/1000) a c) 0%nat = (Ok o', s2) /\ List.length (o_grid o) = 2%nat /\
  (forall d n, (d < 2)%nat -> (n < 4)%nat -> Rabs (get3 (o_Z o) d n 1 - get3 (o_Z o') d n 1) <= 999 / 1000 * Rabs a + Rabs c) /\
  (0 <= a -> 0 <= c -> forall d n, (d < 2)%nat -> (n < 4)%nat -> get3 (o_Z o) d n 1 <= get3 (o_Z o') d n 1).
Proof.
  destruct (fg_t_runs 0 0) as (o & s1 & H & L). destruct (fg_t_runs a c) as (o' & s2 & H' & L'). exists o, s1, o', s2. split; [exact H|]. split; [exact H'|]. split; [exact L|]. split.
  - intros d n Hd Hn.
    pose proof (C90_torch_forget NearExt IsTensor IsTensor (near_problem (1/1000) 0 0) (near_problem (1/1000) a c) 0%nat o o' s1 s2 H H' ltac:(discriminate) eq_refl eq_refl ltac:(congruence) eq_refl eq_refl eq_refl eq_refl
      (fun i j _ _ => eq_refl) 1 (Rabs c) (Rabs a) ltac:(lra) (Rabs_pos c) (Rabs_pos a) (near_starts a) (fun i _ => fg_pulls c _ _ (fun x => eq_refl) (fun x => eq_refl)) d n 1%nat Hd Hn ltac:(rewrite L; lia)) as Q.
    replace ((1 - 1 / 1000) ^ 1) with (999 / 1000) in Q by field. replace (Rabs c / 1) with (Rabs c) in Q by field. exact Q.
  - intros Ha Hc d n Hd Hn.
    exact (C90_torch_order NearExt IsTensor IsTensor (near_problem (1/1000) 0 0) (near_problem (1/1000) a c) 0%nat o o' s1 s2 H H' ltac:(discriminate) eq_refl eq_refl ltac:(congruence) eq_refl eq_refl eq_refl eq_refl
      (fun i j _ _ => eq_refl) (fun d => fg_starts a d Ha) (fun i _ => fg_order c _ _ Hc (fun x => eq_refl) (fun x => eq_refl)) d n 1%nat Hd Hn ltac:(rewrite L; lia)).
Qed.
