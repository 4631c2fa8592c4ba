(** A concrete pair of runs for C86: the problem of C64_run in the stochastic mode, in double precision and in exact arithmetic. *)
From Coq Require Import String List ZArith Reals Bool Lia Lra.
From Flocq Require Import Core BinarySingleNaN.
From Verif Require Import Base.Num Base.Py Base.Arr Lib.ArrLemmas Lib.RSum Model.Ext Model.Score Model.DPFC Run.Double Run.DoubleExp Spec.RealSpec Spec.DoubleSpec Spec.FlowSpec Spec.RoundSpec Spec.FollowSpec Spec.TotalSpec.
From Verif Require Import Lib.DoubleLemmas Lib.FlowLemmas Lib.StepLemmas Lib.RoundLemmas Props.DoubleGrid Props.Flows Props.Grid Props.Total Props.DoubleWitness Props.DoubleNaNW Props.Follow.
Import ListNotations.
Local Open Scope R_scope.
#[local] Instance FWOps : NumOps double := DoubleOps exp_nearest (fun x => x) (fun x => x) sum_right.

(** the same run in exact arithmetic: same normals, same data *)
Definition ExactExt : Ext R nat := {|
  x_normal := fun s sc r c => (fun i j => B2R (fst (x_normal LowExt s (nsqrt nmilli) r c) i j), Datatypes.S s);
  x_uniform := fun s lo hi m => (Ok (fun _ => lo), Datatypes.S s); x_tuniform := fun s lo hi m => (fun i d => nth d lo 0, Datatypes.S s);
  x_inv := fun A => Some (fun i j => 0); x_emd := fun a b c i j => 0; x_otemd := fun a b c i j => 0 |}.
Definition exact_problem : params R := {|
  p_t1 := 0; p_t2 := 1 / 50; p_y1 := [0; 1]; p_y2 := [1; 2];
  p_f := {| call1 := fun x => Ok (mk (mr x) (mc x) (fun d n => - get x d n)); call2 := fun x _ => Ok (mk (mr x) (mc x) (fun d n => - get x d n)) |};
  p_g := mk 1 1 (fun _ _ => 1); p_N := 4; p_M := 3; p_reweight := false; p_U := None; p_dens_est := "nonparametric"; p_reject := true; p_kern := "RBF"; p_f_true := None; p_brown := false; p_det := false |}.
Definition sdt : double := nsqrt nmilli.
Lemma sdt_ok : sized (1 / 10) sdt.
Proof.
  assert (F : is_finite sdt = true) by (vm_compute; reflexivity). split; [exact F|].
  destruct (dZ_exact 1 ltac:(cbn; lia)) as (A1 & V1). destruct (dZ_exact 11 ltac:(cbn; lia)) as (A2 & V2).
  destruct (div_near (dZ 1) (dZ 11) A1 ltac:(rewrite V2; lra)) as (F3 & N); [rewrite V1, V2; apply Rabs_le; lra|]. rewrite V1, V2, (Rabs_pos_eq (1 / 11)) in N by lra. apply Rabs_le_inv in N.
  assert (U1 : dle sdt (Bdiv mode_NE (dZ 1) (dZ 11))) by (vm_compute; reflexivity). assert (U2 : dle (dZ 0) sdt) by (vm_compute; reflexivity). destruct (dZ_exact 0 ltac:(cbn; lia)) as (A0 & V0).
  apply dle_fin in U1; [|exact F|exact F3]. apply dle_fin in U2; [|exact A0|exact F]. rewrite V0 in U2. set (z := B2R sdt) in *. set (z1 := B2R (Bdiv mode_NE (dZ 1) (dZ 11))) in *. unfold u, eta in N. apply Rabs_le. split; lra.
Qed.
Lemma noise_ok i j s : sized (1 / 10) (fst (x_normal LowExt s sdt 1 2) i j).
Proof. destruct sdt_ok as (F & B). change (sized (1 / 10) (if Nat.even (i + j + s) then sdt else Bopp sdt)). revert F B. generalize sdt. intros z F B. destruct (Nat.even _); [split; auto|]. split; [unfold finite; now rewrite is_finite_Bopp|]. rewrite B2R_Bopp, Rabs_Ropp. exact B. Qed.
Lemma exact_posed : well_posed_stochastic exact_problem.
Proof. constructor; cbn; auto; try lia; try discriminate; intros; eexists; (split; [reflexivity|]); cbn; auto. Qed.
Lemma exact_grid : List.length (timegrid (p_t1 exact_problem) (p_t2 exact_problem)) = 21%nat.
Proof. rewrite length_grid. apply (npts_spec _ _ 20). cbn. lra. Qed.
Lemma elem_full {T} {O : NumOps T} r c (f : nat -> nat -> T) i j : (i < r)%nat -> (j < c)%nat -> elem (mk r c f) i j = f i j.
Proof.
  intros Hi Hj. unfold elem. cbn [mr mc mk]. destruct (Nat.eqb_spec r 1), (Nat.eqb_spec c 1); subst; rewrite ?get_mk by lia; try reflexivity.
  all: try (replace i with 0%nat by lia); try (replace j with 0%nat by lia); reflexivity.
Qed.
Lemma drift_ok : same_drift 5 6 1 0 (call1 (p_f stoch_problem)) (call1 (p_f exact_problem)).
Proof.
  intros x y e V VR He (M1 & M2 & M3) HB HV HVR i j Hi Hj. cbn in HV, HVR. injection HV as <-. injection HVR as <-.
  rewrite (elem_full (mr x)), (elem_full (mr y)) by (rewrite <- ?M1, <- ?M2; auto). destruct (M3 i j Hi Hj) as (F & B). specialize (HB i j ltac:(lia) ltac:(lia)).
  set (a := get x i j) in *. set (b := get y i j) in *. change (sized 6 (Bopp a) /\ Rabs (B2R (Bopp a) - - b) <= 1 * e + 0). rewrite B2R_Bopp. split.
  - split; [unfold finite; now rewrite is_finite_Bopp|]. rewrite B2R_Bopp, Rabs_Ropp. apply Rabs_le_inv in B, HB. apply Rabs_le. lra.
  - replace (- B2R a - - b) with (- (B2R a - b)) by ring. rewrite Rabs_Ropp. lra.
Qed.
Lemma rho_small : INR 21 * step_error 5 6 (1 / 10) 1 0 0 * exp (1 / 1000 * INR 21) <= / 10 ^ 12.
Proof.
  assert (E : exp (1 / 1000 * INR 21) <= 3). { eapply Rle_trans; [left; apply exp_increasing with (y := 1)|exact exp_le_3]. replace (INR 21) with 21 by (cbn; lra). lra. }
  replace (INR 21) with 21 in * by (cbn; lra). assert (P : 0 <= step_error 5 6 (1 / 10) 1 0 0) by (unfold step_error; lra).
  eapply Rle_trans; [apply Rmult_le_compat_l; [lra|exact E]|]. unfold step_error. lra.
Qed.
Example C86_example : exists o s' oR sR', construct LowExt stoch_problem 0%nat = (Ok o, s') /\ construct ExactExt exact_problem 0%nat = (Ok oR, sR') /\ List.length (o_grid o) = 21%nat /\ List.length (o_grid oR) = 21%nat /\
  forall d n t, (d < 2)%nat -> (n < 4)%nat -> (t < 20)%nat -> finite (get3 (o_Z o) d n t) /\ Rabs (B2R (get3 (o_Z o) d n t) - get3 (o_Z oR) d n t) <= / 10 ^ 12.
Proof.
  destruct C83_example as (o & s' & H & L & _).
  destruct (C18_stochastic_construction_succeeds ExactExt exact_problem exact_posed) with (s := 0%nat) as (oR & sR' & HR).
  - intros s lo hi m. eexists. eexists. reflexivity.
  - intros A _. cbn. discriminate.
  - reflexivity.
  - rewrite exact_grid. lia.
  - assert (LR : List.length (o_grid oR) = 21%nat) by (rewrite (Flows.grid_eq _ _ _ _ _ HR); exact exact_grid).
    exists o, s', oR, sR'. split; [exact H|]. split; [exact HR|]. split; [exact L|]. split; [exact LR|].
    assert (HBd : forall t, (t + 1 < 21)%nat -> forall d n, (d < 2)%nat -> (n < 4)%nat -> Rabs (get3 (o_Z oR) d n t) <= 1 + INR t / 10).
    { destruct (C56_stochastic_recurrence ExactExt exact_problem 0%nat oR sR' HR eq_refl ltac:(rewrite LR; lia)) as (sg & S0 & HS). change (p_reweight exact_problem) with false in HS. cbv iota in HS. rewrite LR in HS.
      pose proof (Z_sh ExactExt exact_problem 0%nat oR sR' HR) as SZ. rewrite LR in SZ. change (sh (o_Z oR) 2 4 21) in SZ.
      induction t as [|t IH]; intros Ht d n Hd Hn.
      - destruct (C14_stochastic_start ExactExt exact_problem 0%nat oR sR' HR eq_refl ltac:(rewrite LR; lia)) as (_ & Z0). rewrite Z0 by (cbn; lia). cbn [INR]. destruct d as [|[|d]]; [| |lia]; cbn; apply Rabs_le; lra.
      - specialize (IH ltac:(lia) d n Hd Hn). specialize (HS (Datatypes.S t) ltac:(lia)). replace (Datatypes.S t - 1)%nat with t in HS by lia. destruct (sh_slice _ _ _ _ t SZ ltac:(lia)) as (_ & R1 & C1).
        destruct HS as (q & _ & _ & HS). destruct (HS n ltac:(rewrite C1; lia)) as (F & W & HF & HW & HX). specialize (HX d ltac:(rewrite R1; lia)). unfold get3 in *. rewrite HX. rewrite R1 in HW.
        assert (Wb : Rabs (W 0%nat d) <= 1 / 10).
        { cbn [x_normal ExactExt] in HW. injection HW as <- _. apply (noise_ok 0 d (q n)). }
        change (Ok (mk 1 (mc (vec (col (slice (o_Z oR) t) n))) (fun d0 n0 => - get (vec (col (slice (o_Z oR) t) n)) d0 n0)) = Ok F) in HF. injection HF as <-.
        rewrite (elem_full 1) by (cbn; rewrite ?col_length; lia). rewrite get_vec by (rewrite col_length; lia). rewrite nth_col by lia. change (elem (p_g exact_problem) 0 d) with 1.
        set (z := get (slice (o_Z oR) t) d n) in *. set (w := W 0%nat d) in *. change (Rabs (z + 1 / 1000 * - z + 1 * w) <= 1 + INR (Datatypes.S t) / 10). rewrite S_INR. apply Rabs_le_inv in IH, Wb. pose proof (pos_INR t). apply Rabs_le. lra. }
    intros d n t Hd Hn Ht. pose proof rho_small as RS.
    destruct (C86_stochastic_accuracy exp_nearest (fun x => x) (fun x => x) sum_right LowExt ExactExt 5 6 (1 / 10) 1 1 0 0 ltac:(lra) ltac:(lra) ltac:(lra) ltac:(lra) ltac:(lra) ltac:(lra) ltac:(lra)
      stoch_problem exact_problem 0%nat o oR s' sR' H HR eq_refl eq_refl ltac:(congruence) eq_refl eq_refl eq_refl eq_refl) with (d := d) (n := n) (t := t) as (F & B).
    + intros e He. change (e < 2)%nat in He. destruct e as [|[|e]]; [| |lia]; (split; [reflexivity|]); symmetry; [exact (proj2 (dZ_exact 0 ltac:(cbn; lia)))|exact (proj2 (dZ_exact 1 ltac:(cbn; lia)))].
    + exact drift_ok.
    + intros q r c W s1 HW. change ((fun i j => if Nat.even (i + j + q) then sdt else Bopp sdt, Datatypes.S q) = (W, s1)) in HW. injection HW as <- <-. eexists. split; [reflexivity|]. intros i j Hi Hj. split; [exact (noise_ok i j q)|].
      match goal with |- Rabs (?a - ?b) <= 0 => change b with a; replace (a - a) with 0 by ring end. rewrite Rabs_R0. lra.
    + intros i j Hi Hj. change (sized 1 (dZ 1) /\ 1 = B2R (dZ 1)). destruct (dZ_exact 1 ltac:(cbn; lia)) as (F1 & V1). unfold sized. rewrite V1, Rabs_R1. repeat split; auto; lra.
    + rewrite L. lia.
    + intros e m u He Hm Hu. rewrite L in Hu. eapply Rle_trans; [apply HBd; auto|]. assert (INR u <= INR 20) by (apply le_INR; lia). replace (INR 20) with 20 in * by (cbn; lra). lra.
    + rewrite L. eapply Rle_trans; [exact RS|]. lra.
    + exact Hd.
    + exact Hn.
    + rewrite L. lia.
    + split; [exact F|]. eapply Rle_trans; [exact B|]. eapply Rle_trans; [|exact RS]. assert (INR t <= INR 21) by (apply le_INR; lia). pose proof (pos_INR t). assert (P : 0 <= step_error 5 6 (1 / 10) 1 0 0) by (unfold step_error; lra).
      apply Rmult_le_compat; [apply Rmult_le_pos; lra|left; apply exp_pos|apply Rmult_le_compat_r; lra|].
      destruct (Req_dec (INR t) (INR 21)) as [->|]; [lra|left; apply exp_increasing; lra].
Qed.
