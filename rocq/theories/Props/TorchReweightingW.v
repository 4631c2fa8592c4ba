(** The theorems of Props/TorchReweighting.v on concrete runs of torched_DPFC (the deterministic problem of Run/RealExt.v on a
    two-point grid: one reweighted step from y1). *)
From Coq Require Import String List ZArith Lia Bool Reals Lra.
From Verif Require Import Base.Num Base.Py Base.Arr Lib.ArrLemmas Model.Ext Model.Cdist Model.Reweight Model.Score Model.DPFC Model.TDPFC.
From Verif Require Import Spec.FlowSpec Spec.TorchSpec Spec.TotalSpec Spec.TTotalSpec Spec.RunSpec Spec.RealSpec Spec.RangeSpec Spec.Contracts Spec.ReweightSpec.
From Verif Require Import Lib.FlowLemmas Lib.ScoreLemmas Lib.StepLemmas Lib.StochLemmas Lib.CoreLemmas Lib.QueryLemmas Lib.TorchLemmas Lib.RBase Lib.RSum Lib.ReweightLemmas Run.RealExt.
From Verif Require Import Props.Flows Props.Grid Props.Reweighting Props.Torch Props.TorchR Props.TTotal Props.Witnesses Props.TorchReweighting.
Import ListNotations.
Local Open Scope R_scope.

Lemma short_grid rw brown s o s' : t_construct RealExt IsTensor (shorten (real_problem rw brown)) s = (Ok o, s') -> nth 1 (o_grid o) 0 = 1/1000.
Proof.
  intro H. destruct (t_construct_ok RealExt _ _ _ _ _ H) as (_ & _ & _ & G & _).
  rewrite t_timegrid_eq in G by (cbn; lra). injection G as <-. rewrite nth_grid; [cbn; lra|].
  rewrite (npts_spec _ _ 1); [lia|cbn; lra].
Qed.
Lemma torch_first_step p b s o s' y sa sb : p_y1 p = [0; 1] -> p_N p = 3%nat -> p_det p = true -> p_f p = rf -> t_construct RealExt b p s = (Ok o, s') ->
  (2 <= List.length (o_grid o))%nat ->
  t_plain_step RealExt nmilli 2 (mk 1 1 (fun _ _ => 1/2)) (call2 (p_f p)) 1 (nth 1 (o_grid o) 0) (slice (o_Z o) 0) y sa sb ->
  forall d n, (d < 2)%nat -> (n < 3)%nat -> get y d n = nth d [0; 1] 0 * (999/1000) + 1/2 * (sqrt (1/1000) * INR (d + n)).
Proof.
  intros E1 E2 E3 E4 H L. unfold t_plain_step. cbn [Nat.eqb]. rewrite E4. intros (F & W & HF & HW & Hy) d n Hd Hn.
  pose proof (C49_torch_shape RealExt _ _ _ _ _ H ltac:(rewrite E1; discriminate)) as (HZ & _). pose proof HZ as (D & NN & _). apply has_shape_sh in HZ.
  rewrite E1, E2 in *. cbn [List.length] in *.
  destruct (sh_slice _ _ _ _ 0 HZ ltac:(lia)) as (_ & R0 & C0).
  pose proof (C49_torch_forward_start _ _ _ _ _ _ H E3 L) as A0. rewrite E1 in A0.
  rewrite Hy by lia. cbn in HF. injection HF as <-. cbn in HW. injection HW as <- _.
  unfold elem. unfold mopp, mmap1. cbn [mr mc mk]. rewrite R0, C0. cbn [Nat.eqb]. rewrite get_mk by lia.
  assert (Q : get (slice (o_Z o) 0) d n = nth d [0; 1] 0) by (apply (A0 d n); [rewrite D|rewrite NN]; lia). rewrite Q.
  unfold nmilli. cbn -[nth INR sqrt Nat.add]. rewrite get_mk by lia. field.
Qed.
(** C37: the reweighted step moves the average of the second coordinate away from the line sin t *)
Example W62_repels : exists o s' y sa sb, t_construct RealExt IsTensor (shorten (real_problem true false)) 0%nat = (Ok o, s') /\ List.length (o_grid o) = 2%nat /\
  t_plain_step RealExt nmilli 2 (mk 1 1 (fun _ _ => 1/2)) (call2 rf) 1 (nth 1 (o_grid o) 0) (slice (o_Z o) 0) y sa sb /\
  average y 1 < average (slice (o_Z o) 1) 1.
Proof.
  destruct (W68_short true false 0 eq_refl) as (o & s' & H & L).
  assert (HE : emd_plans (x_otemd RealExt)) by exact (proj1 (proj2 (proj2 real_parts))).
  destruct (C62_constraint_repels RealExt IsTensor (shorten (real_problem true false)) 0%nat o s' rU 1 HE H ltac:(discriminate) eq_refl eq_refl
    ltac:(cbn; lia) eq_refl ltac:(intros x t; reflexivity) ltac:(cbn; lia) 1%nat ltac:(lia)) as (y & w & sa & sb & Ry & Cy & Hst & _ & _ & Hall).
  exists o, s', y, sa, sb. split; [exact H|]. split; [exact L|]. split; [exact Hst|].
  pose proof (torch_first_step (shorten (real_problem true false)) IsTensor 0 o s' y sa sb eq_refl eq_refl eq_refl eq_refl H ltac:(lia) Hst) as V. pose proof sqrt_milli.
  assert (Sp : spread y 1). { exists 0%nat, 1%nat. rewrite Cy. cbn [shorten real_problem p_N]. split; [lia|]. split; [lia|]. rewrite !V by lia. cbn [nth INR Nat.add]. lra. }
  destruct Hall as (_ & _ & Hlt & _); [exists 1%nat; cbn; split; [lia|exact Sp]|].
  apply Hlt; [|exact Sp]. intros n Hn. cbn in Hn. rewrite V by lia. pose proof (SIN_bound (nth 1 (o_grid o) 0)). cbn [nth].
  assert (1 <= INR (1 + n)) by (rewrite plus_INR; cbn [INR]; pose proof (pos_INR n); lra). nra.
Qed.
(** C36: a constraint with the same value 7 + t for every particle *)
Example W62_constant : let p := with_U (shorten (real_problem false false)) (Some cU) in
  exists o s', t_construct RealExt IsTensor p 0%nat = (Ok o, s') /\ List.length (o_grid o) = 2%nat /\
  same_outcome (t_construct RealExt IsTensor (with_reweight p true) 0%nat) (Ok o, s').
Proof.
  intro p. assert (HG : t_timegrid (p_t1 p) (p_t2 p) = Ok (timegrid 0 (0 + 1/1000))) by (apply t_timegrid_eq; cbn; lra).
  assert (L : List.length (timegrid 0 (0 + 1/1000)) = 2%nat) by (rewrite length_grid; apply (npts_spec _ _ 1); cbn; lra).
  assert (HP : t_well_posed p). { destruct (real_t_posed false false) as (_ & []). constructor; auto; discriminate. }
  destruct (C68_torch_short RealExt p HP _ 0%nat (or_introl eq_refl) HG ltac:(lia)) as (o & s' & H). exists o, s'. split; [exact H|].
  destruct (t_construct_ok RealExt _ _ _ _ _ H) as (_ & _ & _ & G & _). rewrite HG in G. injection G as G. rewrite <- G. split; [exact L|].
  apply (C62_constant_constraint_changes_nothing RealExt IsTensor p 0%nat cU o s'); try reflexivity; try discriminate.
  - apply contracts_consistent.
  - cbn. lia.
  - cbn [p with_U shorten real_problem p_det p_N]. intros x t _ Hn.
    exists (vec (repeat (7 + t) 3)), (7 + t). split; [cbn [cU call2]; rewrite Hn; reflexivity|]. split; [reflexivity|]. split; [left; reflexivity|].
    intros n Hn'. destruct n as [|[|[|n]]]; try lia; reflexivity.
  - exact H.
  - intros i Hi _. rewrite <- G, L in Hi. assert (i = 1)%nat by lia. subst i. exists 0%nat. split; [cbn; lia|].
    destruct (C57_torch_forward_recurrence RealExt IsTensor p 0%nat o s' H ltac:(discriminate) eq_refl) as (sg & _ & Hst).
    specialize (Hst 1%nat ltac:(rewrite <- G, L; lia)). cbn [p with_U shorten real_problem p_reweight] in Hst.
    pose proof (torch_first_step p IsTensor 0 o s' _ _ _ eq_refl eq_refl eq_refl eq_refl H ltac:(rewrite <- G, L; lia) Hst) as V.
    pose proof (C49_torch_shape RealExt _ _ _ _ _ H ltac:(discriminate)) as (HZ & _). apply has_shape_sh in HZ.
    destruct (sh_slice _ _ _ _ 1 HZ ltac:(rewrite <- G, L; lia)) as (_ & _ & C1). cbn in C1. pose proof sqrt_milli.
    exists 0%nat, 1%nat. rewrite C1. split; [lia|]. split; [lia|]. rewrite !V by lia. cbn [nth INR Nat.add]. lra.
Qed.
