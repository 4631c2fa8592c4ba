(** C73, C77: check_if_covered of the two script classes. *)
From Coq Require Import String List ZArith Lia Bool Reals Lra.
From Verif Require Import Base.Num Base.Py Base.Arr Lib.ArrLemmas Model.Ext Model.Score Model.DPFC Model.Kuramoto Model.CellFate.
From Verif Require Import Spec.FlowSpec Spec.QuerySpec Spec.RealSpec Spec.Contracts Spec.RangeSpec.
From Verif Require Import Lib.FlowLemmas Lib.ScoreLemmas Lib.QueryLemmas Lib.RBase Lib.RSum Props.Flows Props.Queries Props.QueriesR.
Import ListNotations.
Local Open Scope R_scope.

Lemma covered_gen (z b : mat R) (X : list R) dim : (1 <= mc z)%nat -> (1 <= mc b)%nat -> (dim <= List.length X)%nat ->
  exists c, rfold (fun cov ii => let! bnd := inter_bnd z b ii in let! x := pyget X (Z.of_nat ii) in Ok (cov && (nleb (fst bnd) x && nleb x (snd bnd)))) (seq 0 dim) true = Ok c /\
    (c = true <-> forall d, (d < dim)%nat -> in_range z d (nth d X 0) /\ in_range b d (nth d X 0)).
Proof.
  intros Hz Hb HX.
  set (v := fun ii => let! bnd := inter_bnd z b ii in let! x := pyget X (Z.of_nat ii) in Ok (nleb (fst bnd) x && nleb x (snd bnd))).
  assert (Hv : forall d, (d < dim)%nat -> exists c, v d = Ok c /\ (c = true <-> in_range z d (nth d X 0) /\ in_range b d (nth d X 0))).
  { intros d Hd. destruct (row_bounds z d ltac:(lia)) as (rz & Rz). destruct (row_bounds b d ltac:(lia)) as (rb & Rb).
    unfold v. unfold inter_bnd. pose proof Rz as (Z1 & Z2). pose proof Rb as (B1 & B2). rewrite Z1, Z2, B1, B2. cbn [rbind fst snd].
    rewrite (pyget_nat X d 0) by lia. cbn [rbind]. eexists. split; [reflexivity|].
    rewrite andb_true_iff, !nleb_R, pymax_R, pymin_R. rewrite (range_R z d rz _ Rz), (range_R b d rb _ Rb).
    pose proof (Rmax_l (fst rz) (fst rb)). pose proof (Rmax_r (fst rz) (fst rb)). pose proof (Rmin_l (snd rz) (snd rb)). pose proof (Rmin_r (snd rz) (snd rb)).
    split; [cbn in *; lra|]. intros ((? & ?) & ? & ?). split; [apply Rmax_lub|apply Rmin_glb]; auto. }
  destruct (fold_and dim v true) as (c & C1 & C2). { intros d Hd. destruct (Hv d Hd) as (c & ? & _). eauto. }
  exists c. split.
  - rewrite <- C1. apply rfold_ext. intros cov ii _. unfold v. rewrite !rbind_assoc. destruct (inter_bnd z b ii); [|reflexivity]. cbn [rbind]. now destruct (pyget X (Z.of_nat ii)).
  - rewrite C2. split.
    + intros (_ & Q) d Hd. destruct (Hv d Hd) as (c' & V1 & V2). apply V2. rewrite (Q d Hd) in V1. congruence.
    + intro Q. split; [auto|]. intros d Hd. destruct (Hv d Hd) as (c' & V1 & V2). rewrite V1. f_equal. apply V2. auto.
Qed.

(** the Kuramoto class: a point is covered at a grid index iff each of its coordinates lies within the ranges of both ensembles at that index *)
Theorem C73_covered (o : kobj R) dim N k ti X : List.length (k_y1 (ko_par o)) = dim -> has_shape (ko_Z o) dim N k -> has_shape (ko_B o) dim N k ->
  (1 <= N)%nat -> (ti < k)%nat -> (dim <= List.length X)%nat ->
  exists c, k_check_if_covered o X (Z.of_nat ti) = Ok c /\
    (c = true <-> forall d, (d < dim)%nat -> in_range (slice (ko_Z o) ti) d (nth d X 0) /\ in_range (slice (ko_B o) ti) d (nth d X 0)).
Proof.
  intros L HZ HB HN Ht HX. apply has_shape_sh in HZ, HB. destruct (sh_slice _ _ _ _ ti HZ Ht) as (_ & _ & CZ). destruct (sh_slice _ _ _ _ ti HB Ht) as (_ & _ & CB).
  destruct (covered_gen (slice (ko_Z o) ti) (slice (ko_B o) ti) X dim) as (c & C1 & C2); try lia. exists c. split; [|exact C2]. rewrite <- C1. unfold k_check_if_covered. rewrite L.
  apply rfold_ext. intros cov ii _. rewrite getsl_nat by (destruct HZ as (_ & _ & _ & ->); auto). rewrite getsl_nat by (destruct HB as (_ & _ & _ & ->); auto). reflexivity.
Qed.
(** the class of the cell-differentiation script, whose reversed ensemble may have fewer trajectories; without any left the query fails *)
Theorem C77_covered (o : obj R) dim N N' k ti X : List.length (p_y1 (o_par o)) = dim -> has_shape (o_Z o) dim N k -> has_shape (o_B o) dim N' k ->
  (1 <= N)%nat -> (1 <= dim)%nat -> (ti < k)%nat -> (dim <= List.length X)%nat ->
  ((1 <= N')%nat -> exists c, ncheck_if_covered o X (Z.of_nat ti) = Ok c /\
     (c = true <-> forall d, (d < dim)%nat -> in_range (slice (o_Z o) ti) d (nth d X 0) /\ in_range (slice (o_B o) ti) d (nth d X 0))) /\
  (N' = 0%nat -> ncheck_if_covered o X (Z.of_nat ti) = Err ValueError).
Proof.
  intros L HZ HB HN Hd Ht HX. apply has_shape_sh in HZ, HB. destruct (sh_slice _ _ _ _ ti HZ Ht) as (_ & _ & CZ). destruct (sh_slice _ _ _ _ ti HB Ht) as (_ & _ & CB).
  assert (Q : ncheck_if_covered o X (Z.of_nat ti) = rfold (fun cov ii => let! bnd := inter_bnd (slice (o_Z o) ti) (slice (o_B o) ti) ii in let! x := pyget X (Z.of_nat ii) in Ok (cov && (nleb (fst bnd) x && nleb x (snd bnd)))) (seq 0 dim) true).
  { unfold ncheck_if_covered. rewrite L. apply rfold_ext. intros cov ii _. rewrite getsl_nat by (destruct HZ as (_ & _ & _ & ->); auto). rewrite getsl_nat by (destruct HB as (_ & _ & _ & ->); auto). reflexivity. }
  rewrite Q. split.
  - intro HN'. apply covered_gen; lia.
  - intro Z0. destruct dim as [|dim]; [lia|]. cbn [seq rfold]. unfold inter_bnd at 1. destruct (row_bounds (slice (o_Z o) ti) 0 ltac:(lia)) as (rz & Rz1 & Rz2). rewrite Rz1. cbn [rbind].
    assert (row (slice (o_B o) ti) 0 = []) as ->; [unfold row; rewrite CB, Z0; reflexivity|]. reflexivity.
Qed.
(** the point in the middle of two overlapping ensembles is covered, a point outside the smaller one is not *)
Example covered_example : let o := {| o_par := {| p_t1 := 0; p_t2 := 1; p_y1 := [0]; p_y2 := [0]; p_f := {| call1 := fun _ => Err TypeError; call2 := fun x _ => Ok x |}; p_g := mk 1 1 (fun _ _ => 1); p_N := 2;
      p_M := 1; p_reweight := false; p_U := None; p_dens_est := "nonparametric"; p_reject := true; p_kern := "RBF"; p_f_true := None; p_brown := false; p_det := true |}; o_kern := "RBF"; o_grid := [0];
      o_Z := Arr3 1 2 1 [mk 1 2 (fun _ n => INR n * 4)]; o_B := Arr3 1 2 1 [mk 1 2 (fun _ n => 1 + INR n)]; o_Ztr := None |} : obj R in
  ncheck_if_covered o [3/2] 0 = Ok true /\ ncheck_if_covered o [3] 0 = Ok false.
Proof.
  intro o. assert (SH : forall f : nat -> nat -> R, has_shape (Arr3 1 2 1 [mk 1 2 f]) 1 2 1).
  { intro f. split; [reflexivity|]. split; [reflexivity|]. split; [reflexivity|]. split; [reflexivity|]. cbn. repeat constructor. }
  assert (Q : forall x, exists c, ncheck_if_covered o [x] 0 = Ok c /\ (c = true <-> 1 <= x <= 2)).
  { intro x. destruct (C77_covered o 1 2 2 1 0 [x] eq_refl (SH _) (SH _)) as (H & _); try (cbn; lia). destruct (H ltac:(lia)) as (c & C1 & C2). exists c. split; [exact C1|]. rewrite C2. clear. split.
    - intro H. destruct (H 0%nat ltac:(lia)) as (_ & (a & A1 & A2) & (b & B1 & B2)). cbn [o o_B slice a_s nth] in *. cbn [mc mk] in A1, B1. rewrite get_mk in A2, B2 by lia.
      assert (INR b <= 1) by (change 1 with (INR 1); apply le_INR; lia). pose proof (pos_INR a). lra.
    - intros H d Hd. assert (d = 0%nat) as -> by lia. cbn [o o_B o_Z slice a_s nth]. split; split.
      + exists 0%nat. cbn [mc mk]. split; [lia|]. rewrite get_mk by lia. cbn [INR nth]. lra.
      + exists 1%nat. cbn [mc mk]. split; [lia|]. rewrite get_mk by lia. cbn [INR nth]. lra.
      + exists 0%nat. cbn [mc mk]. split; [lia|]. rewrite get_mk by lia. cbn [INR nth]. lra.
      + exists 1%nat. cbn [mc mk]. split; [lia|]. rewrite get_mk by lia. cbn [INR nth]. lra. }
  split.
  - destruct (Q (3/2)) as (c & -> & C). f_equal. apply C. lra.
  - destruct (Q 3) as ([|] & -> & C); [|reflexivity]. destruct C as (C & _). specialize (C eq_refl). lra.
Qed.
