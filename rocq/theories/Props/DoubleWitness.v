(** Concrete cases for C80-C82: the correctly rounded exponential and summation from the right meet the contracts, and the run of
    C64_run meets the hypotheses of C81. *)
From Coq Require Import String List ZArith Reals Bool Lia Lra.
From Flocq Require Import Core BinarySingleNaN.
From Verif Require Import Base.Num Base.Py Base.Arr Lib.ArrLemmas Model.Ext Model.Score Model.ScoreTorch Model.DPFC Run.Double Run.DoubleExp Spec.DoubleSpec Spec.RealSpec Spec.ReweightSpec Spec.FlowSpec Spec.QuerySpec.
From Verif Require Import Lib.DoubleLemmas Props.DoubleGrid Props.DoubleWeights Props.DoubleQueries Props.DoubleKernels Props.DoubleAccuracy Props.Flows Props.Total Spec.TotalSpec.
Import ListNotations.
Local Open Scope R_scope.
#[local] Instance WOps : NumOps double := DoubleOps exp_nearest (fun x => x) (fun x => x) sum_right.

(** two particles with exponents -1000 and 0: proper weights; both exponents -1000: NaN weights *)
Definition ex_e (a b : Z) : mat double := mk 1 2 (fun _ n => if Nat.eqb n 0 then dZ a else dZ b).
Example C80_example : exists w, weights_of 2 (ex_e (-1000) 0) = Ok w /\
  (forall n, (n < 2)%nat -> finite (nth n w dNaN) /\ 0 <= B2R (nth n w dNaN) <= 1) /\
  Rabs (sumn 2 (fun n => B2R (nth n w dNaN)) - 1) <= INR 2 * / 1125899906842624.
Proof.
  assert (W : exists w, weights_of 2 (ex_e (-1000) 0) = Ok w). { unfold weights_of, assign_shape, ex_e. cbn [mexp mmap1 mk mr mc Nat.eqb andb orb rbind]. eauto. }
  destruct W as (w & W). exists w. split; [exact W|].
  assert (E1 : elem (ex_e (-1000) 0) 0 1 = dZ 0) by reflexivity. assert (E0 : elem (ex_e (-1000) 0) 0 0 = dZ (-1000)) by reflexivity.
  assert (Hnum : forall n, (n < 2)%nat -> number (elem (ex_e (-1000) 0) 0 n)). { intros [|[|n]] Hn; [rewrite E0|rewrite E1|lia]; apply fin_number; apply dZ_exact; cbn; lia. }
  assert (X1 : exp_nearest (elem (ex_e (-1000) 0) 0 1) = dZ 1) by (rewrite E1; apply exp_nearest_ok).
  assert (X0 : exp_nearest (elem (ex_e (-1000) 0) 0 0) = dZ 0).
  { rewrite E0. apply (ex_underflow _ exp_nearest_ok). destruct (dZ_exact (-1000) ltac:(cbn; lia)) as (F & V). destruct (dZ_exact (-760) ltac:(cbn; lia)) as (F' & V'). apply dle_fin; auto. rewrite V, V'. lra. }
  destruct (C80_weights exp_nearest (fun x => x) (fun x => x) sum_right 2 _ w sum_right_ok exp_nearest_ok ltac:(lia) ltac:(cbn [INR]; lra) W Hnum) as (s & T & _ & [(_ & _ & A & B) | [(A & _) | (A & _)]]).
  - split; [exact A|exact B].
  - exfalso. destruct (A 1%nat ltac:(lia)) as (_ & Q). change (B2R (exp_nearest (elem (ex_e (-1000) 0) 0 1)) = 0) in Q. rewrite X1 in Q. destruct dZ1 as (_ & V). rewrite V in Q. lra.
  - exfalso. change (tree_sum [exp_nearest (elem (ex_e (-1000) 0) 0 0); exp_nearest (elem (ex_e (-1000) 0) 0 1)] s) in T. rewrite X0, X1 in T. destruct dZ1 as (F1 & V1).
    assert (F : finite s); [|rewrite A in F; discriminate]. apply (tree_fin _ _ T).
    + intros z [ <- |[ <- |[]]]; split; auto; try reflexivity; (split; [reflexivity|]). * cbn. lra. * rewrite ext_fin, V1 by auto. lra.
    + cbn [total fold_right List.length]. rewrite V1. change (B2R (dZ 0)) with 0. change (gam 2) with ((1 + u) ^ 1). apply Rle_trans with 2; [unfold u; lra|]. change 2 with (bpow radix2 1) at 1. apply bpow_le. lia.
Qed.
Example C80_example_nan : weights_of 2 (ex_e (-1000) (-1000)) = Ok [dNaN; dNaN].
Proof.
  assert (W : exists w, weights_of 2 (ex_e (-1000) (-1000)) = Ok w). { unfold weights_of, assign_shape, ex_e. cbn [mexp mmap1 mk mr mc Nat.eqb andb orb rbind]. eauto. }
  destruct W as (w & W). rewrite W. f_equal. apply (C80_underflow exp_nearest (fun x => x) (fun x => x) sum_right 2 _ w sum_right_ok exp_nearest_ok W).
  intros n Hn. assert (E : elem (ex_e (-1000) (-1000)) 0 n = dZ (-1000)) by (destruct n as [|[|n]]; [reflexivity|reflexivity|lia]).
  change (dle (elem (ex_e (-1000) (-1000)) 0 n) (dZ (-760))). rewrite E. destruct (dZ_exact (-1000) ltac:(cbn; lia)) as (F & V). destruct (dZ_exact (-760) ltac:(cbn; lia)) as (F' & V'). apply dle_fin; auto. rewrite V, V'. lra.
Qed.

(** the two-dimensional problem of C64_run (y1 = (0,1), y2 = (1,2), 4 particles): the control is NaN at the first grid point and not finite at
    the last one, at every point asked for *)
Lemma short_int n N : (Z.abs n * Z.of_nat N <= 9007199254740991)%Z -> (1 <= N)%nat -> short (dZ n) N.
Proof.
  intros H HN. destruct (dZ_exact n ltac:(nia)) as (F & V). split; [exact F|]. exists n, 0%Z. rewrite V. cbn [bpow]. split; [lra|]. split; [lia|lia].
Qed.
Example C81_example gx : mc gx = 2%nat -> exists o s',
  construct (HalfExt exp_nearest (fun x => x) (fun x => x) sum_right) (double_problem exp_nearest (fun x => x) (fun x => x) sum_right) 0%nat = (Ok o, s') /\
  (exists v, calculate_u (HalfExt exp_nearest (fun x => x) (fun x => x) sum_right) o gx 0 s' = (Ok v, s') /\ forall d i, (d < 2)%nat -> (i < mr gx)%nat -> get v d i = dNaN) /\
  (exists v, calculate_u (HalfExt exp_nearest (fun x => x) (fun x => x) sum_right) o gx (-1) s' = (Ok v, s') /\ forall d i, (d < 2)%nat -> (i < mr gx)%nat -> ~ finite (get v d i)).
Proof.
  intro Hg. destruct (C64_run exp_nearest (fun x => x) (fun x => x) sum_right) as (o & s' & H & L & _). exists o, s'. split; [exact H|].
  assert (Sh : forall n, (n = 0 \/ n = 1 \/ n = 2)%Z -> short (dZ n) 4) by (intros n [ -> |[ -> | -> ]]; apply short_int; cbn; lia). split.
  - destruct (C81_start exp_nearest (fun x => x) (fun x => x) sum_right _ _ _ _ _ H ltac:(cbn; lia) ltac:(cbn; lia) ltac:(rewrite L; lia) gx 0%Z s' sum_right_ok eq_refl) as (v & V1 & _ & _ & V2); [unfold selects; rewrite L; lia|cbn; lia|].
    exists v. split; [exact V1|]. intros d i Hd Hi. apply V2; [cbn; lia|exact Hi|]. destruct d as [|[|d]]; [apply Sh; auto|apply Sh; auto|lia].
  - destruct (C81_end exp_nearest (fun x => x) (fun x => x) sum_right _ _ _ _ _ H ltac:(cbn; lia) ltac:(cbn; lia) ltac:(rewrite L; lia) gx (-1)%Z s' sum_right_ok) as (v & V1 & _ & _ & V2); [unfold selects; rewrite L; lia|cbn; lia|].
    exists v. split; [exact V1|]. intros d i Hd Hi. apply V2; [cbn; lia|exact Hi|]. destruct d as [|[|d]]; [apply Sh; auto|apply Sh; auto|lia].
Qed.

(** three points on a line, unit lengthscale; lengthscale 0.0 *)
Definition ex_x : mat double := mk 3 1 (fun i _ => dZ (Z.of_nat i)).
Lemma ex_x_fin i d : finite (get ex_x i d).
Proof. unfold get, ex_x. destruct i as [|[|[|i]]], d as [|d]; cbn; try reflexivity; try (destruct d; reflexivity); try (destruct i; reflexivity). Qed.
Example C82_example : exists A, K_sep ex_x ex_x (LVec [dZ 1]) = Ok A /\ mr A = 3%nat /\ mc A = 3%nat /\
  forall i j, (i < 3)%nat -> (j < 3)%nat -> finite (get A i j) /\ 0 <= B2R (get A i j) <= 1 /\ (i = j -> get A i j = dZ 1).
Proof.
  destruct dZ1 as (F1 & V1).
  destruct (C82_values exp_nearest (fun x => x) (fun x => x) sum_right K_sep 1 ex_x ex_x (LVec [dZ 1]) sum_right_ok exp_nearest_ok ltac:(constructor)) as (A & HA & R & C & V).
  - repeat split.
  - intros d Hd. replace d with 0%nat by lia. split; [exact F1|]. cbn [d_scale nth]. rewrite V1, Rabs_R1. change 1 with (bpow radix2 0). split; apply bpow_le; lia.
  - exists A. split; [exact HA|]. split; [exact R|]. split; [exact C|]. intros i j Hi Hj. destruct (V i j Hi Hj) as (V2 & V3 & V4). { intros d _. split; apply ex_x_fin. }
    split; [exact V2|]. split; [exact V3|]. intros ->. apply V4. reflexivity.
Qed.
Example C82_example_zero : exists A, K_sep ex_x ex_x (LVec [dZ 0]) = Ok A /\ forall i, (i < 3)%nat -> get A i i = dNaN.
Proof.
  destruct (C82_vanishing_lengthscale exp_nearest (fun x => x) (fun x => x) sum_right K_sep 1 ex_x ex_x (LVec [dZ 0]) sum_right_ok exp_nearest_ok ltac:(constructor)) as (A & HA & _ & _ & V).
  - repeat split.
  - exists A. split; [exact HA|]. intros i Hi. apply (V i i Hi Hi 0%nat); [lia|reflexivity|cbn [nth]; change (B2R (dZ 0)) with 0; rewrite Rabs_R0; apply bpow_ge_0|]. split; [apply ex_x_fin|]. split; [apply ex_x_fin|reflexivity].
Qed.
(** neighbours at distance 1: exp(-1/2) with 13 correct decimals, in both packages *)
Example C82_example_accuracy : (exists A, K_sep ex_x ex_x (LVec [dZ 1]) = Ok A /\ Rabs (B2R (get A 0 1) - exp (- (1 / 2))) <= / 10000000000000) /\
  (exists o A o', RBF_init (LScal (dZ 1)) (dZ 1) false = Ok o /\ RBF_Kernel o ex_x ex_x = Ok (A, o') /\ Rabs (B2R (get A 0 1) - exp (- (1 / 2))) <= / 10000000000000).
Proof.
  destruct dZ1 as (F1 & V1). assert (PS : plain_scale (dZ 1)) by (split; [exact F1|rewrite V1, Rabs_R1; lra]).
  assert (C : forall i, (i < 2)%nat -> plain_coord (get ex_x i 0) /\ B2R (get ex_x i 0) = INR i).
  { intros i Hi. unfold ex_x. rewrite get_mk by lia. destruct (dZ_exact (Z.of_nat i)) as (F & V); [lia|]. rewrite <- INR_IZR_INZ in V. split; [|exact V]. split; [exact F|]. rewrite V. destruct i as [|[|i]]; [| |lia]; cbn [INR]; rewrite ?Rabs_R0, ?Rabs_R1; lra. }
  assert (G : forall l, d_scale l 0 = dZ 1 -> gauss_exponent 1 ex_x ex_x l 0 1 = 1 / 2).
  { intros l E. unfold gauss_exponent. cbn [sumn]. rewrite E. destruct (C 0%nat ltac:(lia)) as (_ & ->). destruct (C 1%nat ltac:(lia)) as (_ & ->). rewrite V1. cbn [INR]. lra. }
  assert (E1 : exp (- (1 / 2)) <= 1) by (apply Rle_trans with (exp 0); [apply exp_mono; lra|rewrite exp_0; lra]). pose proof (exp_pos (- (1 / 2))) as E0.
  assert (Fin : forall z, Rabs (z - exp (- (1 / 2))) <= exp (- (1 / 2)) * (48 * INR (1 + 1) * (1 / 2 + 1) * u) -> Rabs (z - exp (- (1 / 2))) <= / 10000000000000).
  { intros z H. eapply Rle_trans; [exact H|]. apply Rle_trans with (1 * (48 * INR (1 + 1) * (1 / 2 + 1) * u)); [apply Rmult_le_compat_r; [cbn [INR Nat.add]; unfold u; lra|lra]|cbn [INR Nat.add]; unfold u; lra]. }
  assert (H01 : forall d, (d < 1)%nat -> plain_coord (get ex_x 0 d) /\ plain_coord (get ex_x 1 d)). { intros d Hd. replace d with 0%nat by lia. split; apply C; lia. }
  split.
  - destruct (C82_accuracy exp_nearest (fun x => x) (fun x => x) sum_right K_sep 1 ex_x ex_x (LVec [dZ 1]) sum_right_ok exp_nearest_ok ltac:(constructor)) as (A & HA & _ & _ & V); [repeat split|lia| |].
    { intros d Hd. replace d with 0%nat by lia. exact PS. }
    exists A. split; [exact HA|]. apply Fin. destruct (V 0%nat 1%nat ltac:(cbn; lia) ltac:(cbn; lia) H01) as (_ & W); [apply Rle_trans with (1 / 2); [apply Req_le; exact (G (LVec [dZ 1]) eq_refl)|lra]|]. rewrite <- (G (LVec [dZ 1]) eq_refl). exact W.
  - destruct (C82_torch_accuracy exp_nearest (fun x => x) (fun x => x) sum_right 1 ex_x ex_x (LScal (dZ 1)) sum_right_ok exp_nearest_ok) as (o & A & o' & HR & HA & _ & _ & V); [repeat split|lia|exact PS|].
    exists o, A, o'. split; [exact HR|]. split; [exact HA|]. apply Fin. destruct (V 0%nat 1%nat ltac:(cbn; lia) ltac:(cbn; lia) H01) as (_ & W); [apply Rle_trans with (1 / 2); [apply Req_le; exact (G (LScal (dZ 1)) eq_refl)|lra]|]. rewrite <- (G (LScal (dZ 1)) eq_refl). exact W.
Qed.

(** the problem of C64_run with the constraint -10^6 everywhere and reweighting (a legitimate constraint: a constant one changes nothing, C36): every
    exponential underflows, the construction raises nothing, and with the plan HalfExt every particle is NaN from the first step on *)
Definition flat_problem : params double :=
  let q := double_problem exp_nearest (fun x => x) (fun x => x) sum_right in
  {| p_t1 := p_t1 q; p_t2 := p_t2 q; p_y1 := p_y1 q; p_y2 := p_y2 q; p_f := p_f q; p_g := p_g q; p_N := p_N q; p_M := p_M q; p_reweight := true;
     p_U := Some {| call1 := fun _ => Err TypeError; call2 := fun x _ => Ok (mk 1 (mc x) (fun _ _ => dZ (-1000000))) |};
     p_dens_est := p_dens_est q; p_reject := p_reject q; p_kern := p_kern q; p_f_true := p_f_true q; p_brown := false; p_det := true |}.
Lemma sum_right_nan l : l <> [] -> (forall z, In z l -> z = dNaN) -> sum_right l = dNaN.
Proof.
  intros Hl H. assert (T : tree_sum l (sum_right l)) by apply sum_right_ok. revert H Hl. induction T as [|x|l l1 l2 x y P T1 IH1 T2 IH2]; intros H Hl; [now destruct Hl|apply H; now left|].
  destruct l1 as [|a l1]. { destruct l2 as [|b l2]; [apply Permutation.Permutation_sym, Permutation.Permutation_nil in P; now destruct Hl|]. rewrite IH2; [now destruct x| |discriminate]. intros z Hz. apply H. eapply Permutation.Permutation_in; [apply Permutation.Permutation_sym; exact P|]. exact Hz. }
  rewrite IH1; [reflexivity| |discriminate]. intros z Hz. apply H. eapply Permutation.Permutation_in; [apply Permutation.Permutation_sym; exact P|]. apply in_or_app. now left.
Qed.
Example C80_example_run : exists o s', construct (HalfExt exp_nearest (fun x => x) (fun x => x) sum_right) flat_problem 0%nat = (Ok o, s') /\ List.length (o_grid o) = 21%nat /\
  forall d n i, (d < 2)%nat -> (n < 4)%nat -> (1 <= i < 21)%nat -> get3 (o_Z o) d n i = dNaN.
Proof.
  destruct (C64_run exp_nearest (fun x => x) (fun x => x) sum_right) as (o0 & s0 & H0 & L0 & _).
  assert (G0 : o_grid o0 = timegrid (p_t1 flat_problem) (p_t2 flat_problem)) by (apply (Flows.grid_eq _ _ _ _ _ H0)).
  destruct (C18_construction_succeeds (HalfExt exp_nearest (fun x => x) (fun x => x) sum_right) flat_problem 0%nat) as (o & s' & H).
  - constructor; cbn; auto; try lia; try discriminate; intros; eexists; (split; [reflexivity|]); cbn; auto.
  - intros s lo hi m. cbn. eauto.
  - left. cbn. lia.
  - intros A _. cbn. discriminate.
  - reflexivity.
  - rewrite <- G0, L0. lia.
  - exists o, s'. split; [exact H|]. assert (LL : List.length (o_grid o) = 21%nat) by (rewrite (Flows.grid_eq _ _ _ _ _ H), <- G0; exact L0). split; [exact LL|].
    intros d n i Hd Hn Hi. destruct (C80_run exp_nearest (fun x => x) (fun x => x) sum_right _ flat_problem 0%nat o s' sum_right_ok exp_nearest_ok H eq_refl eq_refl i ltac:(lia)) as (y & c & My & Cy & HU & K).
    cbn [ocall2 flat_problem p_U call2] in HU. injection HU as <-. change (mc y = 4%nat) in Cy. rewrite Cy in K.
    destruct K as (cost & K).
    { intros m Hm. assert (Em : elem (mk 1 4 (fun _ _ => dZ (-1000000)) : mat double) 0 m = dZ (-1000000)) by (destruct m as [|[|[|[|m]]]]; try lia; reflexivity).
      change (dle (nmul (elem (mk 1 4 (fun _ _ => dZ (-1000000)) : mat double) 0 m) nmilli) (dZ (-760))). rewrite Em. unfold nmilli. cbn [nmul nlit WOps DoubleOps].
      destruct (dZ_exact 1 ltac:(cbn; lia)) as (A1 & V1). destruct (dZ_exact 1000 ltac:(cbn; lia)) as (A2 & V2). destruct (dZ_exact (-1000000) ltac:(cbn; lia)) as (A3 & V3). destruct (dZ_exact (-760) ltac:(cbn; lia)) as (A4 & V4).
      destruct (div_near (dZ 1) (dZ 1000) A1 ltac:(rewrite V2; lra)) as (F & N); [rewrite V1, V2; apply Rabs_le; lra|]. rewrite V1, V2 in N. set (h := Bdiv mode_NE (dZ 1) (dZ 1000)) in *. rewrite (Rabs_pos_eq (1 / 1000)) in N by lra. apply Rabs_le_inv in N.
      assert (Hh : 9 / 10000 <= B2R h <= 11 / 10000) by (unfold u, eta in N; lra).
      destruct (mult_near (dZ (-1000000)) h A3 F) as (F' & N'); [rewrite V3; apply Rabs_le; lra|]. rewrite V3 in N'. rewrite Rabs_left1 with (a := -1000000 * B2R h) in N' by lra. apply Rabs_le_inv in N'.
      apply dle_fin; [exact F'|exact A4|]. rewrite V4. unfold u, eta in N'. lra. }
    rewrite K by (rewrite ?My; cbn; lia). apply sum_right_nan; [discriminate|]. intros z Hz. apply in_map_iff in Hz. destruct Hz as (m & <- & Hm). apply in_seq in Hm.
    cbn [x_emd HalfExt]. rewrite (nth_indep _ _ dNaN) by (rewrite repeat_length; lia). rewrite nth_repeat. cbn [nmul WOps DoubleOps]. change (Bmult mode_NE dNaN ?z) with dNaN.
    now destruct (get y d m).
Qed.
