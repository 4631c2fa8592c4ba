(** C89: nearby problems of which both runs complete: starts [0;1] and [a;1], drifts -x and c - x, for every a and c. *)
From Coq Require Import String List ZArith Reals Bool Lia Lra.
From Verif Require Import Base.Num Base.Py Base.Arr Lib.ArrLemmas Lib.RBase Model.Ext Model.Score Model.DPFC Model.TDPFC Spec.FlowSpec Spec.TotalSpec Spec.TTotalSpec Spec.NearbySpec.
From Verif Require Import Lib.FlowLemmas Lib.StepLemmas Lib.TorchLemmas Props.Flows Props.Grid Props.Total Props.Torch Props.TorchR Props.TTotal Props.Nearby.
Import ListNotations.
Local Open Scope R_scope.

Definition NearExt : Ext R nat := {|
  x_normal := fun s sc r c => (fun i j => sc * (INR (i + j + s) - 1), Datatypes.S s);
  x_uniform := fun s lo hi m => (Ok (fun i => lo), Datatypes.S s); x_tuniform := fun s lo hi m => (fun i d => nth d lo 0, Datatypes.S s);
  x_inv := fun A => Some (fun i j => 0); x_emd := fun a b c i j => 0; x_otemd := fun a b c i j => 0 |}.
Definition near_problem (t2 a c : R) : params R := {|
  p_t1 := 0; p_t2 := t2; p_y1 := [a; 1]; p_y2 := [1; 2];
  p_f := {| call1 := fun x => Ok (mk (mr x) (mc x) (fun d n => c - get x d n)); call2 := fun x _ => Ok (mk (mr x) (mc x) (fun d n => c - get x d n)) |};
  p_g := mk 1 1 (fun _ _ => 1); p_N := 4; p_M := 3; p_reweight := false; p_U := None; p_dens_est := "nonparametric"; p_reject := true; p_kern := "RBF"; p_f_true := None; p_brown := false; p_det := false |}.
Lemma near_posed t2 a c : well_posed_stochastic (near_problem t2 a c).
Proof. constructor; cbn; auto; try lia; try discriminate; intros; eexists; (split; [reflexivity|]); cbn; auto. Qed.
Lemma near_t_posed t2 a c : t_well_posed (near_problem t2 a c).
Proof. constructor; cbn; auto; try lia; try discriminate; intros; eexists; (split; [reflexivity|]); cbn; auto. Qed.
Lemma elem_all r c (f : nat -> nat -> R) i j : (i < r)%nat -> (j < c)%nat -> elem (mk r c f) i j = f i j.
Proof.
  intros Hi Hj. unfold elem. cbn [mr mc mk]. destruct (Nat.eqb_spec r 1), (Nat.eqb_spec c 1); subst; rewrite ?get_mk by lia; try reflexivity.
  all: try (replace i with 0%nat by lia); try (replace j with 0%nat by lia); reflexivity.
Qed.
Lemma near_drifts c (f f' : mat R -> res (mat R)) : (forall x, f x = Ok (mk (mr x) (mc x) (fun d n => 0 - get x d n))) ->
  (forall x, f' x = Ok (mk (mr x) (mc x) (fun d n => c - get x d n))) -> nearby_drifts 1 (Rabs c) f f'.
Proof.
  intros H1 H2 x y e V V' He (R1 & C1 & H) HV HV' i j Hi Hj. rewrite H1 in HV. rewrite H2 in HV'. injection HV as <-. injection HV' as <-.
  rewrite !elem_all by lia. specialize (H i j Hi Hj). replace (0 - get x i j - (c - get y i j)) with (- (get x i j - get y i j) + - c) by ring.
  eapply Rle_trans; [apply Rabs_triang|]. rewrite !Rabs_Ropp. lra.
Qed.
Lemma near_starts a d : (d < 2)%nat -> Rabs (nth d [0; 1] 0 - nth d [a; 1] 0) <= Rabs a.
Proof.
  intro Hd. destruct d as [|[|d]]; [| |lia]; cbn.
  - replace (0 - a) with (- a) by ring. rewrite Rabs_Ropp. lra.
  - replace (1 - 1) with 0 by ring. rewrite Rabs_R0. apply Rabs_pos.
Qed.
Example C89_example a c : exists o s1 o' s2, construct NearExt (near_problem (1/50) 0 0) 0%nat = (Ok o, s1) /\ construct NearExt (near_problem (1/50) a c) 0%nat = (Ok o', s2) /\
  forall d n t, (d < 2)%nat -> (n < 4)%nat -> (t < 20)%nat ->
    Rabs (get3 (o_Z o) d n t - get3 (o_Z o') d n t) <= (Rabs a + INR t * Rabs c / 1000) * exp (1 / 1000 * INR t).
Proof.
  assert (R : forall a c, exists o s', construct NearExt (near_problem (1/50) a c) 0%nat = (Ok o, s') /\ List.length (o_grid o) = 21%nat).
  { intros a0 c0. assert (L : List.length (timegrid (p_t1 (near_problem (1/50) a0 c0)) (p_t2 (near_problem (1/50) a0 c0))) = 21%nat) by (rewrite length_grid; apply (npts_spec _ _ 20); cbn; lra).
    destruct (C18_stochastic_construction_succeeds NearExt (near_problem (1/50) a0 c0) (near_posed _ _ _)) with (s := 0%nat) as (o & s' & H).
    - intros s lo hi m. eexists. eexists. reflexivity.
    - intros A _. cbn. discriminate.
    - reflexivity.
    - rewrite L. lia.
    - exists o, s'. split; [exact H|]. now rewrite (Flows.grid_eq _ _ _ _ _ H). }
  destruct (R 0 0) as (o & s1 & H & L). destruct (R a c) as (o' & s2 & H' & L'). exists o, s1, o', s2. split; [exact H|]. split; [exact H'|].
  intros d n t Hd Hn Ht.
  exact (C89_stochastic NearExt 1 (Rabs c) (Rabs a) ltac:(lra) (Rabs_pos c) (Rabs_pos a) (near_problem (1/50) 0 0) (near_problem (1/50) a c) 0%nat o o' s1 s2 H H'
    eq_refl eq_refl ltac:(rewrite L, L'; reflexivity) eq_refl eq_refl eq_refl eq_refl (near_starts a) (near_drifts c _ _ (fun x => eq_refl) (fun x => eq_refl)) (fun i j _ _ => eq_refl)
    ltac:(rewrite L; lia) d n t Hd Hn ltac:(rewrite L; lia)).
Qed.
Example C89_torch_example a c : exists o s1 o' s2, t_construct NearExt IsTensor (near_problem (1/1000) 0 0) 0%nat = (Ok o, s1) /\
  t_construct NearExt IsTensor (near_problem (1/1000) a c) 0%nat = (Ok o', s2) /\ List.length (o_grid o) = 2%nat /\
  forall d n, (d < 2)%nat -> (n < 4)%nat -> Rabs (get3 (o_Z o) d n 1 - get3 (o_Z o') d n 1) <= (Rabs a + Rabs c / 1000) * exp (1 / 1000).
Proof.
  assert (R : forall a c, exists o s', t_construct NearExt IsTensor (near_problem (1/1000) a c) 0%nat = (Ok o, s') /\ List.length (o_grid o) = 2%nat).
  { intros a0 c0. assert (L : List.length (timegrid 0 (1/1000)) = 2%nat) by (rewrite length_grid; apply (npts_spec _ _ 1); cbn; lra).
    assert (HG : t_timegrid (p_t1 (near_problem (1/1000) a0 c0)) (p_t2 (near_problem (1/1000) a0 c0)) = Ok (timegrid 0 (1/1000))) by (cbn [near_problem p_t1 p_t2]; apply t_timegrid_eq; lra).
    destruct (C68_torch_short NearExt _ (near_t_posed (1/1000) a0 c0) _ 0%nat (or_intror eq_refl) HG ltac:(rewrite L; lia)) as (o & s' & H).
    exists o, s'. split; [exact H|]. destruct (t_construct_ok _ _ _ _ _ _ H) as (_ & _ & _ & G & _). rewrite HG in G. injection G as <-. exact L. }
  destruct (R 0 0) as (o & s1 & H & L). destruct (R a c) as (o' & s2 & H' & L'). exists o, s1, o', s2. split; [exact H|]. split; [exact H'|]. split; [exact L|].
  intros d n Hd Hn.
  pose proof (C89_torch_stochastic NearExt 1 (Rabs c) (Rabs a) ltac:(lra) (Rabs_pos c) (Rabs_pos a) IsTensor IsTensor (near_problem (1/1000) 0 0) (near_problem (1/1000) a c) 0%nat o o' s1 s2 H H'
    ltac:(discriminate) eq_refl eq_refl ltac:(congruence) eq_refl eq_refl eq_refl eq_refl (near_starts a)) as Q.
  specialize (Q (fun i _ => near_drifts c _ _ (fun x => eq_refl) (fun x => eq_refl)) (fun i j _ _ => eq_refl) d n 1%nat Hd Hn ltac:(rewrite L; lia)).
  cbn [INR] in Q. rewrite Rmult_1_r, Rmult_1_l in Q. exact Q.
Qed.
