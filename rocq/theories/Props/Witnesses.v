(** The hypotheses of the theorems over the reals are met by concrete, non-trivial runs in the environment of Run/RealExt.v
    (which meets every contract assumed of the code outside the repository). *)
From Coq Require Import String List ZArith Reals Lra Lia Bool.
From Verif Require Import Base.Num Base.Py Base.Arr Lib.ArrLemmas Model.Ext Model.Cdist Model.Score Model.DPFC.
From Verif Require Import Spec.FlowSpec Spec.TotalSpec Spec.QuerySpec Spec.RunSpec Spec.RealSpec Spec.Contracts Spec.RangeSpec Spec.KernelSpec Spec.ReweightSpec Spec.ScoreSpec.
From Verif Require Import Lib.FlowLemmas Lib.ScoreLemmas Lib.StepLemmas Lib.StochLemmas Lib.QueryLemmas Lib.RBase Lib.RSum Run.RealExt.
From Verif Require Import Props.Flows Props.Grid Props.Queries Props.QueriesR Props.Kernels Props.Estimators Props.ScoresR Props.Reweighting Props.Symmetry Props.Stability.
Import ListNotations.
Local Open Scope R_scope.

Lemma real_parts : inv_contract RealExt /\ emd_contract RealExt /\ emd_plans (x_emd RealExt) /\ uniform_in_range RealExt /\ no_overflow RealExt.
Proof.
  destruct contracts_consistent as (H1 & H2 & _ & H4 & _ & H6). split; [auto|]. split; [auto|]. split; [now apply emd_contract_plans|]. auto.
Qed.

(** ** a run with reweighting: C18, C34, C35, C37 *)
Lemma real_run rw brown s : exists o s', construct RealExt (real_problem rw brown) s = (Ok o, s') /\ List.length (o_grid o) = 21%nat /\
  nth 1 (o_grid o) 0 = 1/1000.
Proof.
  destruct real_parts as (H1 & _ & _ & _ & H6).
  destruct (C18_construction_succeeds_R RealExt H1 (real_problem rw brown) s (real_problem_posed rw brown) H6 eq_refl) as (o & s' & H).
  { cbn. lra. }
  exists o, s'. split; [exact H|]. destruct (C01_exact_multiple RealExt _ s o s' 20 H) as (L & _).
  { cbn -[INR]. replace (INR 20) with 20 by (cbn; lra). lra. }
  split; [exact L|]. destruct (C01_timegrid RealExt _ s o s' H) as (_ & G & _); [cbn; lra|]. rewrite G by lia. cbn [real_problem p_t1 INR]. lra.
Qed.

(** the first step: y = y1 - 0.001 y1 + 1/2 sqrt(0.001) (d + n), so all particles are above 1 >= sin t in coordinate 1 *)
Lemma sqrt_milli : 3/100 < sqrt (1/1000).
Proof.
  replace (3/100) with (sqrt (9/10000)). { apply sqrt_lt_1; lra. }
  replace (9/10000) with (3/100 * (3/100)) by lra. apply sqrt_square. lra.
Qed.
Lemma real_first_step rw brown s o s' y sa sb : construct RealExt (real_problem rw brown) s = (Ok o, s') -> List.length (o_grid o) = 21%nat ->
  plain_step RealExt nmilli (o_kern o) 2 (p_g (real_problem rw brown)) (call2 rf) 1 (nth 1 (o_grid o) 0) (slice (o_Z o) 0) y sa sb ->
  forall d n, (d < 2)%nat -> (n < 3)%nat -> get y d n = nth d [0; 1] 0 * (999/1000) + 1/2 * (sqrt (1/1000) * INR (d + n)).
Proof.
  intros H L. unfold plain_step. cbn [Nat.eqb]. intros (F & W & HF & HW & Hy) d n Hd Hn.
  pose proof (C05_shape _ _ _ _ _ H) as (HZ & _). pose proof HZ as (D & NN & _). apply has_shape_sh in HZ. rewrite L in HZ.
  destruct (sh_slice _ _ _ _ 0 HZ ltac:(lia)) as (_ & R0 & C0). cbn in R0, C0, D, NN.
  pose proof (C03_forward_starts_at_y1 _ _ _ _ _ H eq_refl ltac:(lia)) as A0.
  rewrite Hy by lia. cbn in HF. injection HF as <-. cbn in HW. injection HW as <- _.
  unfold elem. unfold mopp, mmap1. cbn [mr mc mk]. rewrite R0, C0. cbn [Nat.eqb]. rewrite get_mk by lia.
  assert (Q : get (slice (o_Z o) 0) d n = nth d [0; 1] 0) by (apply (A0 d n); [rewrite D|rewrite NN]; lia). rewrite Q.
  unfold nmilli. cbn -[nth INR sqrt Nat.add]. rewrite get_mk by lia. field.
Qed.
Example W37 : exists o s', construct RealExt (real_problem true false) 0%nat = (Ok o, s') /\ List.length (o_grid o) = 21%nat /\
  exists y sa sb, plain_step RealExt nmilli (o_kern o) 2 (p_g (real_problem true false)) (call2 rf) 1 (nth 1 (o_grid o) 0) (slice (o_Z o) 0) y sa sb /\
    average y 1 < average (slice (o_Z o) 1) 1.
Proof.
  destruct real_parts as (_ & _ & HE & _). destruct (real_run true false 0) as (o & s' & H & L & _). exists o, s'. split; [exact H|]. split; [exact L|].
  destruct (C37_constraint_repels RealExt (real_problem true false) 0%nat o s' rU 1 HE H eq_refl eq_refl) with (i := 1%nat)
    as (y & w & sa & sb & Ry & Cy & Hst & _ & _ & _ & _ & Hlt & _); try (cbn; lia); try reflexivity.
  - intros x t. reflexivity.
  - exists y, sa, sb. split; [exact Hst|]. pose proof (real_first_step _ _ _ _ _ y sa sb H L Hst) as V. pose proof sqrt_milli.
    apply Hlt.
    + intros n Hn. cbn in Hn. rewrite V by lia. pose proof (SIN_bound (nth 1 (o_grid o) 0)). cbn [nth].
      assert (1 <= INR (1 + n)) by (rewrite plus_INR; cbn [INR]; pose proof (pos_INR n); lra). nra.
    + exists 0%nat, 1%nat. rewrite Cy. cbn [real_problem p_N]. split; [lia|]. split; [lia|]. rewrite !V by lia. cbn [nth INR Nat.add]. lra.
Qed.

(** ** a run without noise: f sends particle n along (n, n), so the particles fan out from y1 and back from y2 *)
Definition ff : callable R := {| call1 := fun _ => Err TypeError; call2 := fun x _ => Ok (mk (mr x) (mc x) (fun _ n => INR n)) |}.
Definition cU : callable R := {| call1 := fun _ => Err TypeError; call2 := fun x t => Ok (vec (repeat (7 + t) (mc x))) |}.
Definition fan : params R := {|
  p_t1 := 0; p_t2 := 1/50; p_y1 := [0; 1]; p_y2 := [1; 2]; p_f := ff; p_g := mk 1 1 (fun _ _ => 0); p_N := 3; p_M := 2;
  p_reweight := false; p_U := Some cU; p_dens_est := "nonparametric"; p_reject := true; p_kern := "RBF"; p_f_true := None; p_brown := false; p_det := true |}.
Lemma fan_posed : well_posed fan.
Proof.
  constructor; cbn; auto; try lia; try discriminate.
  - intros x t H1 H2. eexists. split; [reflexivity|]. cbn. auto.
Qed.
Lemma fan_run s : exists o s', construct RealExt fan s = (Ok o, s') /\ List.length (o_grid o) = 21%nat.
Proof.
  destruct real_parts as (H1 & _ & _ & _ & H6).
  destruct (C18_construction_succeeds_R RealExt H1 fan s fan_posed H6 eq_refl) as (o & s' & H).
  { cbn. lra. }
  exists o, s'. split; [exact H|]. destruct (C01_exact_multiple RealExt _ s o s' 20 H) as (L & _).
  { cbn -[INR]. replace (INR 20) with 20 by (cbn; lra). lra. }
  exact L.
Qed.
Section Fan.
  Context (s : nat) (o : obj R) (s' : nat) (H : construct RealExt fan s = (Ok o, s')) (L : List.length (o_grid o) = 21%nat).
  Lemma fan_kern : o_kern o = "RBF"%string.
  Proof. destruct (construct_ok RealExt _ _ _ _ H) as (_ & K & _). exact K. Qed.
  Lemma fan_shapes i : (i < 21)%nat -> mr (slice (o_Z o) i) = 2%nat /\ mc (slice (o_Z o) i) = 3%nat /\ mr (slice (o_B o) i) = 2%nat /\ mc (slice (o_B o) i) = 3%nat.
  Proof.
    intro Hi. pose proof (C05_shape _ _ _ _ _ H) as (HZ & HB & _). apply has_shape_sh in HZ. apply has_shape_sh in HB. rewrite L in HZ, HB.
    destruct (sh_slice _ _ _ _ i HZ Hi) as (_ & R0 & C0). destruct (sh_slice _ _ _ _ i HB Hi) as (_ & R1 & C1). cbn in *. auto.
  Qed.
  Lemma elem_ff (x : mat R) d n : (d < mr x)%nat -> (n < mc x)%nat -> mr x = 2%nat -> mc x = 3%nat -> elem (mk (mr x) (mc x) (fun _ n => INR n)) d n = INR n.
  Proof. intros Hd Hn R0 C0. unfold elem. cbn [mr mc mk]. rewrite R0, C0 in *. cbn [Nat.eqb]. now rewrite get_mk by lia. Qed.
  Lemma elem_g d n : elem (p_g fan) d n = 0.
  Proof. unfold elem. cbn [fan p_g mr mc mk Nat.eqb]. now rewrite get_mk by lia. Qed.

  Lemma fan_forward i : (i < 21)%nat -> forall d n, (d < 2)%nat -> (n < 3)%nat -> get (slice (o_Z o) i) d n = nth d [0; 1] 0 + INR i * / 1000 * INR n.
  Proof.
    induction i as [|i IH]; intros Hi d n Hd Hn.
    - pose proof (C03_forward_starts_at_y1 _ _ _ _ _ H eq_refl ltac:(lia)) as A0. pose proof (C05_shape _ _ _ _ _ H) as ((D & NN & _) & _). cbn in D, NN.
      change (get (slice (o_Z o) 0) d n) with (get3 (o_Z o) d n 0). rewrite A0; [|lia|lia]. cbn -[nth]. lra.
    - destruct (C06_forward_recurrence RealExt _ _ _ _ H eq_refl ltac:(lia)) as (sg & _ & St). specialize (St (Datatypes.S i) ltac:(lia)).
      replace (Datatypes.S i - 1)%nat with i in St by lia. destruct (fan_shapes i ltac:(lia)) as (R0 & C0 & _).
      change (p_reweight fan) with false in St. cbv iota in St. unfold plain_step in St. destruct (Datatypes.S i =? 1)%nat.
      + destruct St as (F & W & HF & _ & Hy). cbn in HF. injection HF as <-. rewrite Hy by lia. rewrite elem_ff by lia. rewrite elem_g.
        rewrite IH by lia. rewrite S_INR. unfold nmilli. cbn -[nth INR]. lra.
      + destruct St as (F & bn & rows & sc & HF & _ & _ & _ & _ & Hy). cbn in HF. injection HF as <-. rewrite Hy by lia. rewrite elem_ff by lia.
        rewrite elem_g. rewrite IH by lia. rewrite S_INR. unfold nmilli, nsq. cbn -[nth INR]. lra.
  Qed.
  Lemma fan_backward i : (i <= 19)%nat -> forall d n, (d < 2)%nat -> (n < 3)%nat -> get (slice (o_B o) (20 - i)) d n = nth d [1; 2] 0 - INR i * / 1000 * INR n.
  Proof.
    induction i as [|i IH]; intros Hi d n Hd Hn.
    - pose proof (C04_time_reversed_boundaries _ _ _ _ _ H ltac:(lia)) as (_ & A0). pose proof (C05_shape _ _ _ _ _ H) as (_ & (D & NN & _) & _). cbn in D, NN.
      rewrite L in A0. change (get (slice (o_B o) (20-0)) d n) with (get3 (o_B o) d n (21 - 1)). rewrite A0; [|lia|lia]. cbn -[nth]. lra.
    - destruct (C07_backward_recurrence RealExt _ _ _ _ H) as (sg & _ & St). specialize (St (20 - Datatypes.S i)%nat ltac:(lia) ltac:(lia)).
      replace (20 - Datatypes.S i + 1)%nat with (20 - i)%nat in St by lia. destruct (fan_shapes (20-i) ltac:(lia)) as (_ & _ & R0 & C0).
      set (b := slice (o_B o) (20 - i)) in *. set (z := slice (o_Z o) (20 - i)) in *.
      specialize (IH ltac:(lia)). clearbody b z. set (c := slice (o_B o) (20 - Datatypes.S i)) in *. clearbody c. destruct (_ || _).
      + destruct St as (F & W & sc & s1 & _ & HF & _ & Hy). cbn [fan p_f ff call2] in HF. injection HF as <-. rewrite Hy by lia. rewrite elem_ff by lia. rewrite elem_g.
        rewrite IH by lia. rewrite S_INR. unfold nmilli, nsq. cbn -[nth INR Nat.sub]. lra.
      + destruct St as (F & sz & sb & s1 & _ & _ & HF & Hy). cbn [fan p_f ff call2] in HF. injection HF as <-. rewrite Hy by lia. rewrite elem_ff by lia. rewrite elem_g.
        rewrite IH by lia. rewrite S_INR. unfold nmilli, nsq. cbn -[nth INR Nat.sub]. lra.
  Qed.
  Lemma fan_spread_Z i d : (1 <= i < 21)%nat -> (d < 2)%nat -> spread (slice (o_Z o) i) d.
  Proof.
    intros Hi Hd. destruct (fan_shapes i ltac:(lia)) as (_ & C0 & _). exists 0%nat, 1%nat. rewrite C0. split; [lia|]. split; [lia|].
    rewrite !fan_forward by lia. assert (1 <= INR i) by (change 1 with (INR 1); apply le_INR; lia). cbn [INR]. lra.
  Qed.
  Lemma fan_spread_B i d : (1 <= i < 20)%nat -> (d < 2)%nat -> spread (slice (o_B o) i) d.
  Proof.
    intros Hi Hd. destruct (fan_shapes i ltac:(lia)) as (_ & _ & _ & C0). exists 0%nat, 1%nat. rewrite C0. split; [lia|]. split; [lia|].
    replace i with (20 - (20 - i))%nat by lia. rewrite !fan_backward by lia. assert (1 <= INR (20 - i)) by (change 1 with (INR 1); apply le_INR; lia). cbn [INR]. lra.
  Qed.
End Fan.

(** C06, C07: the deterministic steps of the run use the scores of score matching *)
Example W06 : exists o s', construct RealExt fan 0%nat = (Ok o, s') /\ forall i, (2 <= i < 21)%nat -> let x := slice (o_Z o) (i-1) in
  exists z, (forall a d, (a < 2)%nat -> (d < 2)%nat -> in_range x d (z a d)) /\
    forall d, (d < 2)%nat -> exists score, matched_score 3 2 2 (two_sigma x) (particle x) z 0.002 0.001 d score.
Proof.
  destruct real_parts as (HI & _ & _ & HU & _). destruct (fan_run 0) as (o & s' & H & L). exists o, s'. split; [exact H|]. intros i Hi x.
  destruct (fan_shapes 0 o s' H L (i-1) ltac:(lia)) as (R0 & C0 & _).
  destruct (C06_score_matching RealExt HI fan 0%nat o s' H (fan_kern _ _ _ H) HU eq_refl eq_refl i ltac:(rewrite L; lia)) as (F & z & _ & Z1 & Z2).
  - rewrite C0. lia.
  - intros d Hd. rewrite R0 in Hd. apply (fan_spread_Z 0 o s' H L); lia.
  - fold x in R0, C0, Z1, Z2. rewrite R0, C0 in *. exists z. split; [exact Z1|]. intros d Hd. destruct (Z2 d Hd) as (sc & Hs & _). exists sc. exact Hs.
Qed.
Example W07 : exists o s', construct RealExt fan 0%nat = (Ok o, s') /\ forall j, (1 <= j <= 18)%nat -> let x := slice (o_Z o) (j+1) in let b := slice (o_B o) (j+1) in
  exists z z', between x b z 2 /\ between x b z' 2 /\ forall d, (d < 2)%nat -> exists sx sb,
    matched_score 3 2 2 (two_sigma x) (particle x) z 0.002 0.001 d sx /\ matched_score 3 2 2 (two_sigma b) (particle b) z' 0.002 0.001 d sb.
Proof.
  destruct real_parts as (HI & _ & _ & HU & _). destruct (fan_run 0) as (o & s' & H & L). exists o, s'. split; [exact H|]. intros j Hj x b.
  destruct (fan_shapes 0 o s' H L (j+1) ltac:(lia)) as (R0 & C0 & R1 & C1).
  destruct (C07_score_matching RealExt HI fan 0%nat o s' H (fan_kern _ _ _ H) HU eq_refl j ltac:(lia) ltac:(rewrite L; lia)) as (F & z & z' & _ & Z1 & Z2 & Z3).
  - cbn. lia.
  - intros d Hd. rewrite R1 in Hd. apply (fan_spread_Z 0 o s' H L); lia.
  - intros d Hd. rewrite R1 in Hd. apply (fan_spread_B 0 o s' H L); lia.
  - exists z, z'. rewrite R1 in Z3. split; [exact Z1|]. split; [exact Z2|]. intros d Hd. destruct (Z3 d Hd) as (sx & sb & A & B & _). exists sx, sb. auto.
Qed.
(** C22: the control at an interior index of that run, at any batch of points of the plane *)
Example W22 : exists o s', construct RealExt fan 0%nat = (Ok o, s') /\ forall ti gx s0, (6 <= ti <= 15)%Z -> mc gx = 2%nat ->
  exists u s1 z, calculate_u RealExt o gx ti s0 = (Ok u, s1) /\
    let x := slice (o_Z o) (Z.to_nat ti) in let b := slice (o_B o) (Z.to_nat ti) in between x b z 2 /\ forall d, (d < 2)%nat -> exists sb sx,
      matched_score 3 2 2 (two_sigma b) (particle b) z 0.002 0.001 d sb /\ matched_score 3 2 2 (two_sigma x) (particle x) z 0.002 0.001 d sx /\
      forall i, (i < mr gx)%nat -> get u d i = sb (get gx i) - sx (get gx i).
Proof.
  destruct real_parts as (HI & _ & _ & HU & HO). destruct (fan_run 0) as (o & s' & H & L). exists o, s'. split; [exact H|]. intros ti gx s0 Ht Hg.
  destruct (construct_consistent _ _ _ _ _ H) as (P & Hc). rewrite L in Hc. cbn [fan p_y1 List.length p_N] in Hc.
  destruct (C22_interior_answers RealExt HI o 2 3 21 gx ti s0 Hc ltac:(lia) HO (fan_kern _ _ _ H)) as (u & s1 & Hu); try (rewrite P; reflexivity); try lia; auto.
  destruct (C22_score_matching RealExt HI o 2 3 21 gx ti s0 u s1 Hc ltac:(lia) HU (fan_kern _ _ _ H)) as (z & Z1 & Z2); try (rewrite P; reflexivity); try lia; auto.
  - intros d Hd. apply (fan_spread_Z 0 o s' H L); lia.
  - intros d Hd. apply (fan_spread_B 0 o s' H L); lia.
  - rewrite P in Z1, Z2. exists u, s1, z. auto.
Qed.
(** C20, C53: the edge control of that run is a difference of normal scores *)
Lemma spread_variance (x : mat R) d : spread x d -> 0 < variance (mc x) (get x d).
Proof.
  intros (m & n & Hm & Hn & Hd). unfold variance. apply Rmult_lt_0_compat; [|apply Rinv_0_lt_compat, lt_0_INR; lia].
  set (mu := mean _ _). assert (A : 0 <= sumn (mc x) (fun i => (get x d i - mu) ^ 2)) by (apply sumn_ge0; intros; apply pow2_ge_0).
  destruct A as [A|A]; [exact A|exfalso]. apply Hd.
  assert (Z : forall i, (i < mc x)%nat -> (get x d i - mu) ^ 2 = 0).
  { intros i Hi. apply (sumn_0_inv (mc x) (fun i => (get x d i - mu) ^ 2)); auto. intros; apply pow2_ge_0. }
  pose proof (Z m Hm) as A1. pose proof (Z n Hn) as A2. rewrite <- Rsqr_pow2 in A1, A2. apply Rsqr_0_uniq in A1, A2. lra.
Qed.
Example W20 : exists o s', construct RealExt fan 0%nat = (Ok o, s') /\ forall gx s0, mc gx = 2%nat ->
  exists u, calculate_u RealExt o gx 3 s0 = (Ok u, s0) /\ forall d i, (d < 2)%nat -> (i < mr gx)%nat ->
    let b := get (slice (o_B o) 3) d in let z := get (slice (o_Z o) 3) d in
    exists sb sz, normal_score (mean 3 b) (variance 3 b) (get gx i d) sb /\ normal_score (mean 3 z) (variance 3 z) (get gx i d) sz /\ get u d i = sb - sz.
Proof.
  destruct (fan_run 0) as (o & s' & H & L). exists o, s'. split; [exact H|]. intros gx s0 Hg.
  destruct (construct_consistent _ _ _ _ _ H) as (P & Hc). rewrite L in Hc. cbn [fan p_y1 List.length p_N] in Hc.
  assert (F : forward_of o (o_Z o)) by (unfold forward_of; rewrite P; reflexivity).
  destruct (C20_gaussian_control RealExt o 2 3 21 (o_Z o) gx 3 3 s0 Hc F ltac:(lia)) as (u & Hu & V); try (unfold selects, edge; lia).
  exists u. split; [exact Hu|]. intros d i Hd Hi. destruct (fan_shapes 0 o s' H L 3 ltac:(lia)) as (R0 & C0 & R1 & C1).
  pose proof (spread_variance _ d (fan_spread_B 0 o s' H L 3 d ltac:(lia) Hd)) as V1. pose proof (spread_variance _ d (fan_spread_Z 0 o s' H L 3 d ltac:(lia) Hd)) as V2.
  rewrite C1 in V1. rewrite C0 in V2. exact (V d i Hd Hi V1 V2).
Qed.
(** C36: with a constraint that does not depend on the particle, reweighting changes nothing (fan has U(x,t) = 7 + t) *)
Example W36 s : same_outcome (construct RealExt (with_reweight fan true) s) (construct RealExt fan s) /\ exists o s', construct RealExt fan s = (Ok o, s').
Proof.
  destruct real_parts as (_ & HE & _). split.
  - apply (C36_constant_constraint_changes_nothing RealExt fan s cU HE); try reflexivity; [cbn; lia|]. cbn [fan p_det]. intros x t _ Hn.
    exists (vec (repeat (7 + t) 3)), (7 + t). split; [cbn [cU call2]; rewrite Hn; reflexivity|]. split; [reflexivity|]. split; [left; reflexivity|].
    intros n Hn'. cbn in Hn'. destruct n as [|[|[|n]]]; try lia; reflexivity.
  - destruct (fan_run s) as (o & s' & H & _). eauto.
Qed.
(** C34, C35: the reweighted run of Run/RealExt.v at every index *)
Example W34 : exists o s', construct RealExt (real_problem true true) 0%nat = (Ok o, s') /\ List.length (o_grid o) = 21%nat /\ forall i, (1 <= i < 21)%nat ->
  exists y u, mc y = 3%nat /\ ocall2 (Some rU) y (nth i (o_grid o) 0) = Ok u /\ reweighted_from (fun n => elem u 0 n * / 1000) y (slice (o_Z o) i).
Proof.
  destruct real_parts as (_ & _ & HE & _). destruct (real_run true true 0) as (o & s' & H & L & _). exists o, s'. split; [exact H|]. split; [exact L|]. intros i Hi.
  destruct (C34_reweighting RealExt _ _ _ _ HE H eq_refl ltac:(cbn; lia) i ltac:(rewrite L; lia) eq_refl) as (y & u & sa & sb & _ & Cy & _ & HU & HR). eauto.
Qed.
(** C26: two equal flows give the zero control, at the edges and inside *)
Definition twin : obj R := let A := Arr3 2 3 21 (map (fun i => mk 2 3 (fun d n => INR (d + n) + INR i)) (seq 0 21)) in
  {| o_par := fan; o_kern := "RBF"; o_grid := map INR (seq 0 21); o_Z := A; o_B := A; o_Ztr := None |}.
Lemma twin_consistent : consistent twin 2 3 21.
Proof.
  split; [reflexivity|]. split; [reflexivity|]. assert (A : has_shape (o_Z twin) 2 3 21). { repeat split; try reflexivity. repeat constructor. }
  split; [exact A|]. split; [exact A|]. discriminate.
Qed.
Example W26 : forall ti gx s, (-21 <= ti < 21)%Z -> mc gx = 2%nat -> exists u s', calculate_u RealExt twin gx ti s = (Ok u, s') /\
  forall d i, (d < mr u)%nat -> (i < mc u)%nat -> get u d i = 0.
Proof.
  intros ti gx s Ht Hg. destruct real_parts as (HI & _ & _ & _ & HO).
  assert (exists u s', calculate_u RealExt twin gx ti s = (Ok u, s')) as (u & s' & Hu).
  { destruct (Z_le_dec 6 ti) as [A|A]; [destruct (Z_le_dec ti 15) as [B|B]|].
    - apply (C22_interior_answers RealExt HI twin 2 3 21); auto using twin_consistent; try reflexivity; lia.
    - destruct (C21_gaussian_window RealExt twin 2 3 21 twin_consistent (o_Z twin) eq_refl gx ti (Z.to_nat ti) s) as (u & Hu & _); try (unfold selects, edge); try lia. eauto.
    - destruct (C21_gaussian_window RealExt twin 2 3 21 twin_consistent (o_Z twin) eq_refl gx ti (Z.to_nat (ti mod 21)) s) as (u & Hu & _); try (unfold edge); try lia; [|eauto].
      unfold selects. pose proof (Z.mod_pos_bound ti 21 ltac:(lia)). split; [lia|]. rewrite Z2Nat.id by lia.
      destruct (Z_lt_dec ti 0); [right|left; symmetry; apply Z.mod_small; lia]. rewrite <- (Z_mod_plus_full ti 1 21). rewrite Z.mod_small by lia. lia. }
  exists u, s'. split; [exact Hu|]. apply (C26_vanishes RealExt twin 2 3 21 gx ti s u s' twin_consistent); auto.
Qed.

(** ** the estimators: three samples, two inducing points in the plane, lengthscales 1 and 2 *)
Definition eX : mat R := mk 3 2 (fun i j => INR i - INR j).
Definition eZ : mat R := mk 2 2 (fun i j => INR (i * j)).
Lemma e_args X Zp : mr X = 3%nat -> mc X = 2%nat -> mc Zp = 2%nat -> estimator_args 2 X Zp (LVec [1; 2]) 0.001.
Proof.
  intros _ H1 H2. split; [|split; [|lra]].
  - repeat split; auto.
  - intros d Hd. destruct d as [|[|d]]; [| |lia]; cbn; lra.
Qed.
Example W43 : exists a v, minimises 3 2 2 (fun d => nth d [1; 2] 0) (get eX) (get eZ) 1 (0.001 + 0.001) 0.001 a /\
  score_function_multid_seperate RealExt eX eZ 0.001 "RBF" (LVec [1; 2]) 2 = Ok v /\ List.length v = 3%nat.
Proof.
  destruct real_parts as (HI & _).
  destruct (C43_samples RealExt HI _ 2 eX eZ (LVec [1; 2]) 0.001 1 (se_separate RealExt) (e_args eX eZ eq_refl eq_refl eq_refl) ltac:(lia)) as (a & Ha & Hv).
  exists a. eexists. split; [exact Ha|]. split; [exact Hv|]. now rewrite map_length, seq_length.
Qed.
Example W47 : exists v, score_function_multid_seperate RealExt eX eZ 0.001 "RBF" (LVec [1; 2]) 1 = Ok v /\ List.length v = 3%nat /\
  (* samples in reverse order *)
  score_function_multid_seperate RealExt (mk 3 2 (fun i d => get eX (2 - i) d)) eZ 0.001 "RBF" (LVec [1; 2]) 1 = Ok (map (fun i => 1 * nth (2 - i) v 0) (seq 0 3)) /\
  (* everything moved by (5, -1) *)
  score_function_multid_seperate RealExt (mk 3 2 (fun i d => get eX i d + nth d [5; -1] 0)) (mk 2 2 (fun i d => get eZ i d + nth d [5; -1] 0)) 0.001 "RBF" (LVec [1; 2]) 1
    = Ok (map (fun i => 1 * nth i v 0) (seq 0 3)) /\
  (* everything three times as large *)
  score_function_multid_seperate RealExt (mk 3 2 (fun i d => 3 * get eX i d)) (mk 2 2 (fun i d => 3 * get eZ i d)) 0.001 "RBF" (LVec [3 * 1; 3 * 2]) 1
    = Ok (map (fun i => / 3 * nth i v 0) (seq 0 3)).
Proof.
  destruct real_parts as (HI & _). pose proof (e_args eX eZ eq_refl eq_refl eq_refl) as HA.
  assert (ES : forall X Zp l, estimates RealExt X Zp 0.001 l {| on_samples := score_function_multid_seperate RealExt X Zp 0.001 "RBF" l;
     as_function := score_function_multid_seperate_fun RealExt X Zp 0.001 "RBF" l; all_on_samples := score_function_multid_seperate_all_dims RealExt X Zp 0.001 "RBF" l;
     all_as_function := score_function_multid_seperate_all_dims_fun RealExt X Zp 0.001 "RBF" l |}).
  { intros X Zp l. exact (estimates_intro RealExt X Zp 0.001 l _ _ (se_separate RealExt) (fe_separate RealExt)). }
  assert (P : rows_permuted (fun i => 2 - i)%nat eX (mk 3 2 (fun i d => get eX (2 - i) d))).
  { repeat split; cbn [mr mc mk eX]; intros; try lia. now rewrite get_mk by lia. }
  assert (T : forall n (A : mat R), mr A = n -> mc A = 2%nat -> translated (fun d => nth d [5; -1] 0) A (mk n 2 (fun i d => get A i d + nth d [5; -1] 0))).
  { intros n A H1 H2. repeat split; cbn [mr mc mk]; auto. intros. now rewrite get_mk by lia. }
  assert (Sc : forall n (A : mat R), mr A = n -> mc A = 2%nat -> scaled 3 A (mk n 2 (fun i d => 3 * get A i d))).
  { intros n A H1 H2. repeat split; cbn [mr mc mk]; auto. intros. now rewrite get_mk by lia. }
  destruct (C47_reordered_samples RealExt HI 2 eX eZ (LVec [1; 2]) 0.001 HA _ _ _ _ P (ES _ _ _) (ES _ _ _)) as (A & _).
  destruct (A 0%nat ltac:(lia)) as ((v & V1 & V2 & V3) & _). exists v. split; [exact V1|]. split; [exact V2|]. split; [exact V3|]. clear A.
  destruct (C47_translation RealExt HI 2 eX eZ (LVec [1; 2]) 0.001 HA _ _ _ _ _ (T 3%nat eX eq_refl eq_refl) (T 2%nat eZ eq_refl eq_refl) (ES _ _ _) (ES _ _ _)) as (A & _).
  destruct (A 0%nat ltac:(lia)) as ((v' & V1' & V2' & V3') & _). cbn [on_samples] in V1, V1'. rewrite V1 in V1'. injection V1' as <-. split; [exact V3'|]. clear A V3'.
  destruct (C47_scaling RealExt HI 2 eX eZ (LVec [1; 2]) 0.001 HA 3 _ _ _ _ ltac:(lra) (Sc 3%nat eX eq_refl eq_refl) (Sc 2%nat eZ eq_refl eq_refl) (ES _ _ _) (ES _ _ _)) as (A & _).
  destruct (A 0%nat ltac:(lia)) as ((v' & V1' & _ & V3') & _). cbn [on_samples] in V1'. rewrite V1 in V1'. injection V1' as <-. exact V3'.
Qed.
(** C63: the bounds apply to every interior index of the fan run *)
Example W63 : exists o s', construct RealExt fan 0%nat = (Ok o, s') /\ forall ti gx s0, (6 <= ti <= 15)%Z -> mc gx = 2%nat ->
  exists u s1, calculate_u RealExt o gx ti s0 = (Ok u, s1) /\
    let x := slice (o_Z o) (Z.to_nat ti) in let b := slice (o_B o) (Z.to_nat ti) in
    forall d i, (d < 2)%nat -> (i < mr gx)%nat -> 0 < sigma x d /\ 0 < sigma b d /\ Rabs (get u d i) <= 500 * INR 3 * (/ sigma x d + / sigma b d).
Proof.
  destruct real_parts as (HI & _ & _ & HU & HO). destruct (fan_run 0) as (o & s' & H & L). exists o, s'. split; [exact H|]. intros ti gx s0 Ht Hg.
  destruct (construct_consistent _ _ _ _ _ H) as (P & Hc). rewrite L in Hc. cbn [fan p_y1 List.length p_N] in Hc.
  destruct (C22_interior_answers RealExt HI o 2 3 21 gx ti s0 Hc ltac:(lia) HO (fan_kern _ _ _ H)) as (u & s1 & Hu); try (rewrite P; reflexivity); try lia; auto.
  exists u, s1. split; [exact Hu|]. intros x b d i Hd Hi.
  assert (Sx : forall d, (d < 2)%nat -> spread x d) by (intros; apply (fan_spread_Z 0 o s' H L); lia).
  assert (Sb : forall d, (d < 2)%nat -> spread b d) by (intros; apply (fan_spread_B 0 o s' H L); lia).
  split; [now apply sigma_pos; auto|]. split; [now apply sigma_pos; auto|].
  apply (C63_control_bounded RealExt HI o 2 3 21 gx ti s0 u s1 Hc ltac:(lia) HU (fan_kern _ _ _ H)); auto; try (rewrite P; reflexivity); lia.
Qed.
