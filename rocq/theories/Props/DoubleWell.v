(** C88: the double-well system of the figures. *)
From Coq Require Import String List ZArith Lia Bool Reals Lra.
From Verif Require Import Base.Num Base.Py Base.Arr Lib.ArrLemmas Model.Ext Model.DPFC Model.Examples Model.DoubleWell Spec.ReweightSpec Lib.RBase Spec.FlowSpec Spec.TotalSpec Spec.Contracts Spec.QuerySpec Lib.FlowLemmas Lib.StepLemmas Lib.RunLemmas Lib.QueryLemmas Lib.StochLemmas Props.Flows Props.Grid Props.Queries Props.ScoresR Run.RealExt Props.Witnesses Props.ExampleSystems.
Import ListNotations.
Local Open Scope R_scope.

Lemma dw_f1_R (x : R) : dw_f1 x = 4 * x - 4 * x ^ 3.
Proof. unfold dw_f1. cbn. lra. Qed.
Lemma dw_V1_R (x : R) : dw_V1 x = - 2 * x ^ 2 + x ^ 4.
Proof. unfold dw_V1, nsq, ntwo. cbn. lra. Qed.

(** the drift is minus the derivative of the potential, for every particle of an ensemble *)
Theorem C88_gradient (x : mat R) (t : R) : exists F V, call1 dw x = Ok F /\ call2 dw x t = Ok F /\ V = dw_V x /\
  mr F = mr x /\ mc F = mc x /\ mr V = mr x /\ mc V = mc x /\
  exists pot : R -> R, forall d n, (d < mr x)%nat -> (n < mc x)%nat -> get V d n = pot (get x d n) /\ derivable_pt_lim pot (get x d n) (- get F d n).
Proof.
  exists (dw_f x), (dw_V x). repeat (split; [reflexivity|]). exists (fun y => - 2 * y ^ 2 + y ^ 4). intros d n Hd Hn. unfold dw_V, dw_f. rewrite !get_mmap1 by auto. rewrite dw_V1_R, dw_f1_R. split; [reflexivity|].
  set (y := get x d n). replace (- (4 * y - 4 * y ^ 3)) with (- 2 * (INR 2 * y ^ pred 2) + INR 4 * y ^ pred 4) by (cbn; ring).
  apply (derivable_pt_lim_plus (fun s => - 2 * s ^ 2) (fun s => s ^ 4)); [|apply derivable_pt_lim_pow].
  apply (derivable_pt_lim_scal (fun s => s ^ 2)). apply derivable_pt_lim_pow.
Qed.
(** two wells of equal depth 1 at -1 and 1, a barrier at 0, no other equilibrium *)
Theorem C88_wells (x : R) : (dw_f1 x = 0 <-> x = -1 \/ x = 0 \/ x = 1) /\ -1 <= dw_V1 x /\ (dw_V1 x = -1 <-> x = -1 \/ x = 1) /\
  dw_V1 0 = 0 /\ dw_V1 (- x) = dw_V1 x /\ dw_f1 (- x) = - dw_f1 x.
Proof.
  rewrite !dw_f1_R, !dw_V1_R. split; [|split; [|split; [|split; [|split]]]]; try ring.
  - split; [|intros [-> | [-> | ->]]; ring]. intro H. assert (K : x * ((x - 1) * (x + 1)) = 0) by (replace (x * ((x - 1) * (x + 1))) with (- (4 * x - 4 * x ^ 3) / 4) by field; rewrite H; lra).
    apply Rmult_integral in K. destruct K as [K|K]; [right; now left|]. apply Rmult_integral in K. destruct K; [right; right; lra|left; lra].
  - pose proof (pow2_ge_0 (x ^ 2 - 1)) as P. replace ((x ^ 2 - 1) ^ 2) with (x ^ 4 - 2 * x ^ 2 + 1) in P by ring. lra.
  - split; [|intros [-> | ->]; ring]. intro H. assert (K : (x - 1) * (x + 1) = 0).
    { assert (Q : ((x - 1) * (x + 1)) ^ 2 = 0) by (replace (((x - 1) * (x + 1)) ^ 2) with (x ^ 4 - 2 * x ^ 2 + 1) by ring; lra).
      rewrite <- Rsqr_pow2 in Q. now apply Rsqr_0_uniq in Q. }
    apply Rmult_integral in K. destruct K; [right; lra|left; lra].
Qed.

(** n noiseless, uncontrolled Euler steps of length h *)
Fixpoint euler (h : R) (n : nat) (x : R) : R := match n with O => x | S m => let y := euler h m x in y + h * dw_f1 y end.
Lemma step_R h x : x + h * dw_f1 x - 1 = (x - 1) * (1 - 4 * h * x * (x + 1)).
Proof. rewrite dw_f1_R. ring. Qed.
(** from the right of the barrier, up to 1.5, with steps of length at most 1/15: never past the bottom of the well, and exponentially fast to it.
    So no noiseless uncontrolled particle changes wells *)
Theorem C88_trapped_right h x0 n : 0 < h <= 1 / 15 -> 0 < x0 <= 3 / 2 ->
  Rmin x0 1 <= euler h n x0 <= Rmax x0 1 /\ Rabs (euler h n x0 - 1) <= (1 - 4 * h * Rmin x0 1 * (Rmin x0 1 + 1)) ^ n * Rabs (x0 - 1).
Proof.
  intros Hh Hx. set (m := Rmin x0 1). assert (M : 0 < m <= 1) by (unfold m; split; [apply Rmin_glb_lt; lra|apply Rmin_r]).
  assert (Mx : m <= x0) by apply Rmin_l. assert (K1 : Rmax x0 1 <= 3 / 2) by (apply Rmax_lub; lra).
  induction n as [|n (I1 & I2)].
  - cbn [euler pow]. split; [split; [exact Mx|apply Rmax_l]|lra].
  - cbn [euler]. set (y := euler h n x0) in *. set (q := 1 - 4 * h * y * (y + 1)).
    assert (P1 : m * (m + 1) <= y * (y + 1)) by (apply Rmult_le_compat; lra).
    assert (P2 : y * (y + 1) <= 15 / 4) by (replace (15 / 4) with (3 / 2 * (3 / 2 + 1)) by lra; apply Rmult_le_compat; lra).
    assert (Q1 : 0 <= q). { unfold q. assert (h * (y * (y + 1)) <= 1 / 15 * (15 / 4)) by (apply Rmult_le_compat; try lra; apply Rmult_le_pos; lra). lra. }
    assert (Q2 : q <= 1 - 4 * h * m * (m + 1)). { unfold q. assert (h * (m * (m + 1)) <= h * (y * (y + 1))) by (apply Rmult_le_compat_l; lra). lra. }
    assert (Q3 : q <= 1). { unfold q. assert (0 <= h * (y * (y + 1))) by (apply Rmult_le_pos; [lra|apply Rmult_le_pos; lra]). lra. }
    pose proof (step_R h y) as St. fold q in St. set (y' := y + h * dw_f1 y) in *.
    split.
    + destruct (Rle_dec y 1) as [L|L].
      * assert (A : 0 <= (1 - y) * q) by (apply Rmult_le_pos; lra). assert (B : (1 - y) * q <= (1 - y) * 1) by (apply Rmult_le_compat_l; lra).
        pose proof (Rmax_r x0 1). split; [lra|]. apply Rle_trans with 1; lra.
      * assert (A : 0 <= (y - 1) * q) by (apply Rmult_le_pos; lra). assert (B : (y - 1) * q <= (y - 1) * 1) by (apply Rmult_le_compat_l; lra). lra.
    + rewrite St, Rabs_mult, (Rabs_right q) by lra. cbn [pow].
      replace ((1 - 4 * h * m * (m + 1)) * (1 - 4 * h * m * (m + 1)) ^ n * Rabs (x0 - 1)) with (((1 - 4 * h * m * (m + 1)) ^ n * Rabs (x0 - 1)) * (1 - 4 * h * m * (m + 1))) by ring.
      apply Rmult_le_compat; try lra. apply Rabs_pos.
Qed.
Lemma euler_odd h n x : euler h n (- x) = - euler h n x.
Proof. induction n as [|n IH]; cbn [euler]; [reflexivity|]. rewrite IH. rewrite !dw_f1_R. ring. Qed.
Theorem C88_trapped_left h x0 n : 0 < h <= 1 / 15 -> - (3 / 2) <= x0 < 0 ->
  Rmin x0 (-1) <= euler h n x0 <= Rmax x0 (-1) /\ Rabs (euler h n x0 + 1) <= (1 - 4 * h * Rmin (- x0) 1 * (Rmin (- x0) 1 + 1)) ^ n * Rabs (x0 + 1).
Proof.
  intros Hh Hx. destruct (C88_trapped_right h (- x0) n Hh ltac:(lra)) as (A & B). rewrite euler_odd in A, B. split.
  - unfold Rmin, Rmax in *. destruct (Rle_dec (- x0) 1), (Rle_dec x0 (-1)); lra.
  - replace (Rabs (euler h n x0 + 1)) with (Rabs (- euler h n x0 - 1)) by (rewrite <- Rabs_Ropp; f_equal; ring).
    replace (Rabs (x0 + 1)) with (Rabs (- x0 - 1)) by (rewrite <- Rabs_Ropp; f_equal; ring). exact B.
Qed.
(** non-vacuous: the step of the scripts, from 1/2 *)
Example C88_case n : 1 / 2 <= euler (1 / 1000) n (1 / 2) <= 1 /\ Rabs (euler (1 / 1000) n (1 / 2) - 1) <= (997 / 1000) ^ n * (1 / 2).
Proof.
  destruct (C88_trapped_right (1 / 1000) (1 / 2) n ltac:(lra) ltac:(lra)) as (A & B). rewrite Rmin_left in A, B by lra. rewrite Rmax_right in A by lra.
  split; [exact A|]. replace (Rabs (1 / 2 - 1)) with (1 / 2) in B by (rewrite Rabs_left; lra). replace (1 - 4 * (1 / 1000) * (1 / 2) * (1 / 2 + 1)) with (997 / 1000) in B by lra. exact B.
Qed.

(** a bridge between any two points: the package completes, in any number N >= 1 of particles, with both flows pinned *)
Definition well_problem (t1 t2 a b g : R) (N M : nat) : params R := {|
  p_t1 := t1; p_t2 := t2; p_y1 := [a]; p_y2 := [b]; p_f := dw; p_g := mk 1 1 (fun _ _ => g); p_N := N; p_M := M;
  p_reweight := false; p_U := None; p_dens_est := "nonparametric"; p_reject := true; p_kern := "RBF"; p_f_true := None; p_brown := false; p_det := true |}.
Lemma well_posed_well t1 t2 a b g N M : (1 <= N)%nat -> well_posed (well_problem t1 t2 a b g N M).
Proof.
  intro HN. constructor; cbn; auto; try discriminate. intros x t H1 H2. exists (dw_f x). auto.
Qed.
Theorem C88_bridge {S : Type} (E : Ext R S) t1 t2 a b g N M s : inv_contract E -> no_overflow E -> (1 <= N)%nat -> t1 <= t2 ->
  exists o s', construct E (well_problem t1 t2 a b g N M) s = (Ok o, s') /\ let k := List.length (o_grid o) in
    has_shape (o_Z o) 1 N k /\ has_shape (o_B o) 1 N k /\
    ((2 <= k)%nat -> all_at (o_Z o) 0 [a] /\ all_at (o_B o) 0 [a] /\ all_at (o_B o) (k - 1) [b]).
Proof.
  intros HI HO HN Ht. destruct (C18_construction_succeeds_R E HI _ s (well_posed_well t1 t2 a b g N M HN) HO eq_refl Ht) as (o & s' & H).
  exists o, s'. split; [exact H|]. destruct (construct_consistent _ _ _ _ _ H) as (_ & Hc). destruct Hc as (_ & _ & HZ & HB & _).
  split; [exact HZ|]. split; [exact HB|]. intro K. split; [exact (C03_forward_starts_at_y1 _ _ _ _ _ H eq_refl K)|]. exact (C04_time_reversed_boundaries _ _ _ _ _ H K).
Qed.
Example C88_bridge_case s : exists o s', construct RealExt (well_problem 0 (1/50) (-1) 1 (1/2) 3 2) s = (Ok o, s') /\
  all_at (o_Z o) 0 [-1] /\ all_at (o_B o) 0 [-1] /\ all_at (o_B o) (List.length (o_grid o) - 1) [1].
Proof.
  destruct real_parts as (HI & _ & _ & _ & HO). destruct (C88_bridge RealExt 0 (1/50) (-1) 1 (1/2) 3 2 s HI HO ltac:(lia) ltac:(lra)) as (o & s' & H & _ & _ & K).
  exists o, s'. split; [exact H|]. apply K. assert (L : List.length (o_grid o) = 21%nat); [|lia].
  destruct (construct_ok _ _ _ _ _ H) as (_ & _ & -> & _). cbn [well_problem p_t1 p_t2].
  rewrite length_grid. apply (npts_spec 0 (1/50) 20). cbn [INR]. lra.
Qed.
