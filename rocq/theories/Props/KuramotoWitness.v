(** Non-vacuity of C73 and C74: concrete problems over the reals that meet the hypotheses. *)
From Coq Require Import String List ZArith Reals Lia Lra Bool.
From Verif Require Import Base.Num Base.Py Base.Arr Lib.ArrLemmas Model.Ext Model.DPFC Model.Kuramoto.
From Verif Require Import Spec.TotalSpec Spec.RealSpec Spec.Contracts Spec.KuramotoSpec Spec.OscSpec Run.RealExt.
From Verif Require Import Lib.RBase Lib.StepLemmas Lib.KuramotoTotal Props.Kuramoto Props.KuramotoSim Props.Oscillators Props.KuramotoR Props.KuramotoCut.
Import ListNotations.
Local Open Scope R_scope.

(** particle n of the "draw": the mean shifted by n times the variance of the coordinate *)
Definition wmvn (s : nat) (mean : list R) (cov : mat R) (n : nat) : (nat -> nat -> R) * nat := (fun m d => nth d mean 0 + INR m * get cov d d, Datatypes.S s).
Definition kp (k : nat) : kpar R := {| k_t1 := 0; k_t2 := 4/1000; k_y1 := [0; 1; 2]; k_f := kur_f 2 (kur_ws 3 (1/4)); k_g := 1/2; k_N := 2; k_k := k; k_M := 2;
  k_reweight := true; k_U := kur_U 3; k_kern := "RBF"; k_dt := 1/1000 |}.
Lemma kp_posed k : k_well_posed (kp k).
Proof.
  constructor; cbn [kp k_y1 k_N k_kern k_f k_reweight k_U List.length]; auto; try lia.
  - now apply kur_field.
  - intros _ x Hx Cx. destruct (C74_constraint x ltac:(lia)) as (u & Hu & U1 & U2 & _). rewrite Hx in Hu. exists u. rewrite Cx in U2. auto.
Qed.
Lemma kp_grid k : List.length (np_arange (k_t1 (kp k)) (nadd (k_t2 (kp k)) (ndiv (k_dt (kp k)) ntwo)) (k_dt (kp k))) = 5%nat.
Proof. apply LimitCycle.arange_R. cbn [kp k_t2 k_dt]. unfold ntwo. cbn [nadd ndiv nlit ROps INR]. lra. Qed.
(** five grid points and k = 5 (C73_reverse_flow, C73_phases) or k = 7 (C73_k_too_large): the class succeeds *)
Example W73_construct : forall k, (5 <= k)%nat -> exists o s', k_construct RealExt mod2pi wmvn (kp k) 0%nat = (Ok o, s') /\ List.length (ko_grid o) = 5%nat.
Proof.
  intros k Hk. destruct contracts_consistent as (HI & _ & _ & _ & _ & HO).
  destruct (C73_runs RealExt HI HO mod2pi wmvn (kp k) 0%nat (kp_posed k)) as (o & s' & H). { cbn; lia. } { rewrite kp_grid. exact Hk. }
  exists o, s'. split; [exact H|]. destruct (run_parts RealExt mod2pi wmvn (kp k) 0%nat o s' H) as (? & ? & ? & _ & _ & ->). cbn [ko_grid]. apply kp_grid.
Qed.
(** with k = 4 it does not (C73_k_at_least_grid) *)
Example W73_k_too_small : forall o s', k_construct RealExt mod2pi wmvn (kp 4) 0%nat <> (Ok o, s').
Proof. intros o s' H. pose proof (C73_k_at_least_grid RealExt mod2pi wmvn (kp 4) 0%nat o s' H) as Q. rewrite kp_grid in Q. cbn in Q. lia. Qed.
(** the script, three oscillators, two particles, two inducing points, two repetitions *)
Example W73_script : exists o c s', k_script RealExt mod2pi wmvn 2 (1/4) (1/2) 2 2 2 [0; 1; 2] 0%nat = (Ok (o, c), s') /\ st (ks_F c) 0 1 = [0; 1; 2].
Proof.
  destruct contracts_consistent as (HI & _ & _ & _ & _ & HO).
  destruct (C73_script RealExt HI HO mod2pi mod2pi_wraps wmvn 2 (1/4) (1/2) 2 2 2 [0; 1; 2] ltac:(lia) ltac:(discriminate) 0%nat) as (o & c & s' & H & _ & _ & _ & _ & _ & _ & _ & _ & _ & Q).
  exists o, c, s'. split; [exact H|]. now destruct (Q 1%nat ltac:(lia)).
Qed.
(** the initial ensemble is not reduced modulo 2 pi *)
Example W73_initial_not_reduced : exists p o s', k_construct RealExt mod2pi wmvn p 0%nat = (Ok o, s') /\ get (slice (ko_Z o) 0) 0 0 = 7.
Proof.
  set (p := {| k_t1 := 0; k_t2 := 4/1000; k_y1 := [7]; k_f := kur_f 2 [1/4]; k_g := 1/2; k_N := 2; k_k := 5; k_M := 2;
    k_reweight := false; k_U := kur_U 1; k_kern := "RBF"; k_dt := 1/1000 |}).
  assert (WP : k_well_posed p). { constructor; cbn [p k_y1 k_N k_kern k_f k_reweight k_U List.length]; auto; try lia; try discriminate. now apply kur_field. }
  destruct contracts_consistent as (HI & _ & _ & _ & _ & HO).
  destruct (C73_runs RealExt HI HO mod2pi wmvn p 0%nat WP) as (o & s' & H). { cbn; lia. } { pose proof (kp_grid 5) as Q. cbn [kp k_t1 k_t2 k_dt] in Q. cbn [p k_t1 k_t2 k_dt k_k]. rewrite Q. lia. }
  exists p, o, s'. split; [exact H|]. destruct (C73_forward_flow RealExt mod2pi wmvn p 0%nat o s' H) as (_ & _ & _ & h & sa & sm & sg & H1 & H2 & _).
  { pose proof (kp_grid 5) as Q. cbn [kp k_t1 k_t2 k_dt] in Q. cbn [p k_t1 k_t2 k_dt]. rewrite Q. lia. }
  rewrite H2. cbn [p k_y1 k_N List.length]. rewrite get_mk by (cbn; lia). unfold wmvn in H1. injection H1 as <- _. cbn. lra.
Qed.
(** two oscillators in anti-phase have order parameter 0, two equal ones 1 *)
Example W74_order : kur_R 2 [0; PI] = 0 /\ kur_R 2 [1; 1 + 2 * PI] = 1.
Proof.
  split.
  - etransitivity; [exact (C74_order_parameter [0; PI])|]. unfold order_parameter. cbn [List.length]. rewrite !sumn2. cbn [nth]. rewrite cos_0, cos_PI, sin_0, sin_PI.
    replace ((1 + -1) ^ 2 + (0 + 0) ^ 2) with 0 by ring. rewrite sqrt_0. unfold Rdiv. ring.
  - apply (C74_synchronised [1; 1 + 2 * PI]); [discriminate|]. intros [|[|i]] [|[|j]] Hi Hj; cbn in Hi, Hj; try lia; cbn [nth]; [exists 0%Z|exists (-1)%Z|exists 1%Z|exists 0%Z]; cbn; lra.
Qed.
(** the frequencies of five oscillators: round(5/2) = 2 *)
Example W74_frequencies : kur_ws 5 1 = [1; 1; -1; -1; -1] /\ kur_ws 7 1 = [1; 1; 1; 1; -1; -1; -1].
Proof. split; cbn; repeat f_equal; lra. Qed.
(** the cut: RealExt meets the hypotheses of C73_reweighting_depends_on_origin *)
Example W73_cut : exists x x' y y', phases x /\ phases x' /\
      (forall d m, (d < 2)%nat -> (m < 2)%nat -> same_phase (get x' d m) (get x d m - PI / 4)) /\
      k_reweight_slice RealExt mod2pi {| k_t1 := 0; k_t2 := 1; k_y1 := [0; 0]; k_f := kur_f 2 [0; 0]; k_g := 1; k_N := 2; k_k := 5; k_M := 2;
        k_reweight := true; k_U := kur_U 2; k_kern := "RBF"; k_dt := 1/1000 |} x = Ok y /\
      k_reweight_slice RealExt mod2pi {| k_t1 := 0; k_t2 := 1; k_y1 := [0; 0]; k_f := kur_f 2 [0; 0]; k_g := 1; k_N := 2; k_k := 5; k_M := 2;
        k_reweight := true; k_U := kur_U 2; k_kern := "RBF"; k_dt := 1/1000 |} x' = Ok y' /\
      ~ same_phase (get y' 0 1) (get y 0 1 - PI / 4).
Proof.
  destruct contracts_consistent as (_ & _ & HE & _). apply (C73_reweighting_depends_on_origin RealExt HE mod2pi mod2pi_wraps); reflexivity.
Qed.
