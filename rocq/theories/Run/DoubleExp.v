(** The contracts of Spec/DoubleSpec.v can be met: the correctly rounded exponential, and summation from the right. *)
From Coq Require Import List ZArith Reals Permutation Bool Lia Lra.
From Flocq Require Import Core BinarySingleNaN Relative.
From Verif Require Import Base.Num Run.Double Spec.DoubleSpec Lib.DoubleLemmas.
Import ListNotations.
Local Open Scope R_scope.

(** the double nearest to r (infinity if r is too large) *)
Definition nearest (r : R) : double :=
  binary_normalize 53 1024 Hprec Hemax mode_NE (Ztrunc (scaled_mantissa radix2 (SpecFloat.fexp 53 1024) (rnd r))) (cexp radix2 (SpecFloat.fexp 53 1024) (rnd r)) false.
Lemma nearest_val r : 0 <= r -> (rnd r < big1024 -> finite (nearest r) /\ B2R (nearest r) = rnd r) /\ (big1024 <= rnd r -> nearest r = dinf).
Proof.
  intro P. unfold nearest. pose proof (binary_normalize_correct 53 1024 Hprec Hemax mode_NE (Ztrunc (scaled_mantissa radix2 (SpecFloat.fexp 53 1024) (rnd r))) (cexp radix2 (SpecFloat.fexp 53 1024) (rnd r)) false) as C.
  cbv zeta in C. assert (G : generic_format radix2 (SpecFloat.fexp 53 1024) (rnd r)). { apply generic_format_round; [apply fexp_correct; reflexivity|apply valid_rnd_round_mode]. }
  change (F2R (Float radix2 (Ztrunc (scaled_mantissa radix2 (SpecFloat.fexp 53 1024) (rnd r))) (cexp radix2 (SpecFloat.fexp 53 1024) (rnd r)))) with (F2R (Float radix2 (Ztrunc (scaled_mantissa radix2 (SpecFloat.fexp 53 1024) (rnd r))) (cexp radix2 (SpecFloat.fexp 53 1024) (rnd r)))) in C.
  rewrite <- G in C. assert (V : rnd (rnd r) = rnd r) by (apply round_generic; [apply valid_rnd_round_mode|exact G]). rewrite V in C. pose proof (rnd_nonneg r P) as P'.
  rewrite (Rabs_pos_eq _ P') in C. fold big1024 in C. split; intro H.
  - rewrite Rlt_bool_true in C by auto. now destruct C as (C1 & C2 & _).
  - rewrite Rlt_bool_false in C by auto. rewrite (Rlt_bool_false (rnd r) 0) in C by auto. symmetry in C. now apply overflow_inf in C.
Qed.

(** exp, correctly rounded *)
Definition exp_nearest (x : double) : double :=
  match x with B754_nan => B754_nan | B754_infinity true => dZ 0 | B754_infinity false => dinf | _ => nearest (exp (B2R x)) end.
Lemma exp_nearest_fin x : finite x -> exp_nearest x = nearest (exp (B2R x)).
Proof. destruct x; try discriminate; reflexivity. Qed.
Lemma rnd_1 : rnd 1 = 1. Proof. pose proof (rnd_id (dZ 1)) as I. destruct dZ1 as (_ & V). now rewrite V in I. Qed.
Lemma big_gt1 : 1 < big1024. Proof. unfold big1024. change 1 with (bpow radix2 0). apply bpow_lt. lia. Qed.

Lemma exp_nat n : exp (INR n) = exp 1 ^ n.
Proof. induction n as [|n IH]; [apply exp_0|]. rewrite S_INR, exp_plus, IH. cbn [pow]. ring. Qed.
Lemma exp_600 : exp 600 <= bpow radix2 960.
Proof.
  replace 600 with (INR 600) by (rewrite INR_IZR_INZ; reflexivity). rewrite exp_nat. change 600%nat with (5 * 120)%nat. rewrite pow_mult.
  replace (bpow radix2 960) with ((2 ^ 8) ^ 120). 2: { rewrite <- pow_mult. change (bpow radix2 960) with (IZR (Zpower_pos 2 960)). rewrite Zpower_pos_nat. rewrite Zpower_nat_Z, <- pow_IZR. reflexivity. }
  apply pow_incr. pose proof exp_le_3. pose proof (exp_pos 1). split; [apply pow_le; lra|]. apply Rle_trans with (3 ^ 5); [apply pow_incr; lra|lra].
Qed.
Lemma pow_bpow n : 2 ^ n = bpow radix2 (Z.of_nat n).
Proof. rewrite <- (IZR_Zpower radix2) by lia. change (IZR (Zpower radix2 (Z.of_nat n))) with (IZR (2 ^ Z.of_nat n)). now rewrite <- pow_IZR. Qed.
Lemma exp1_lower : 269 / 100 <= exp 1.
Proof.
  assert (H : forall n x, exp (INR n * x) = exp x ^ n). { intros n x. induction n as [|n IH]; [cbn; rewrite Rmult_0_l; apply exp_0|]. rewrite S_INR. replace ((INR n + 1) * x) with (x + INR n * x) by ring. rewrite exp_plus, IH. reflexivity. }
  replace (exp 1) with (exp (INR 64 * / 64)) by (f_equal; rewrite INR_IZR_INZ; cbn; lra). rewrite H. apply Rle_trans with ((1 + / 64) ^ 64); [lra|]. apply pow_incr. split; [lra|]. apply exp_ineq1_le.
Qed.
Lemma exp_760 : exp (-760) <= bpow radix2 (-1076).
Proof.
  change (-760) with (- (760)). rewrite exp_Ropp. replace (bpow radix2 (-1076)) with (/ bpow radix2 1076) by (now rewrite <- bpow_opp). apply Rinv_le_contravar; [apply bpow_gt_0|].
  replace 760 with (INR 760) by (rewrite INR_IZR_INZ; reflexivity). rewrite exp_nat. change 760%nat with (12 * 63 + 4)%nat. rewrite pow_add, pow_mult.
  replace (bpow radix2 1076) with ((2 ^ 17) ^ 63 * 2 ^ 5). 2: { rewrite <- pow_mult, <- pow_add, pow_bpow. reflexivity. }
  pose proof exp1_lower as L. apply Rmult_le_compat; [apply pow_le, pow_le; lra|apply pow_le; lra| |].
  - apply pow_incr. split; [apply pow_le; lra|]. apply Rle_trans with ((269 / 100) ^ 12); [lra|]. apply pow_incr. lra.
  - apply Rle_trans with ((269 / 100) ^ 4); [lra|]. apply pow_incr. lra.
Qed.
Lemma exp_mono x y : x <= y -> exp x <= exp y.
Proof. intros [H| -> ]; [left; now apply exp_increasing|lra]. Qed.
Lemma rnd_tiny r : 0 <= r <= bpow radix2 (-1076) -> rnd r = 0.
Proof.
  intro H. apply Rle_antisym; [|now apply rnd_nonneg]. eapply Rle_trans; [apply rnd_le, H|]. apply Req_le.
  apply (round_N_small_pos radix2 (SpecFloat.fexp 53 1024) (fun n => negb (Z.even n)) _ (-1075)); [|reflexivity]. split; [apply Rle_refl|]. apply bpow_lt. lia.
Qed.

Theorem exp_nearest_ok : exp_contract exp_nearest.
Proof.
  split; [reflexivity| | | | | ].
  - intros x Nx. apply nn_dle. destruct (number_cases x Nx) as [F | [ -> | -> ]]; [|now split; [|cbn; pose proof big_pos; lra]|now split; [|cbn; lra]].
    rewrite exp_nearest_fin by auto. pose proof (exp_pos (B2R x)) as P. destruct (nearest_val (exp (B2R x)) ltac:(lra)) as (A & B).
    destruct (Rlt_or_le (rnd (exp (B2R x))) big1024) as [L|L].
    + destruct (A L) as (F' & V). split; [now apply fin_number|]. rewrite ext_fin, V by auto. apply rnd_nonneg. lra.
    + rewrite (B L). split; [reflexivity|]. cbn. pose proof big_pos. lra.
  - intros x H. apply dle_ext in H. destruct H as (Nx & _ & H). change (ext (dZ 0)) with 0 in H. apply dle_ext. destruct dZ1 as (F1 & V1).
    destruct (number_cases x Nx) as [F | [ -> | -> ]].
    + rewrite ext_fin in H by auto. rewrite exp_nearest_fin by auto. pose proof (exp_pos (B2R x)) as P. assert (Q : exp (B2R x) <= 1) by (eapply Rle_trans; [apply exp_mono, H|rewrite exp_0; lra]).
      assert (L : rnd (exp (B2R x)) <= 1) by (eapply Rle_trans; [apply rnd_le, Q|rewrite rnd_1; lra]). destruct (nearest_val (exp (B2R x)) ltac:(lra)) as (A & _).
      destruct (A ltac:(pose proof big_gt1; lra)) as (F' & V). split; [now apply fin_number|]. split; [now apply fin_number|]. rewrite !ext_fin, V, V1 by auto. exact L.
    + exfalso. cbn in H. pose proof big_pos. lra.
    + split; [reflexivity|]. split; [now apply fin_number|]. rewrite (ext_fin _ F1), V1. cbn. lra.
  - intro s. rewrite exp_nearest_fin by reflexivity. cbn [B2R]. rewrite exp_0. destruct (nearest_val 1 ltac:(lra)) as (A & _). rewrite rnd_1 in A. destruct (A big_gt1) as (F & V). destruct dZ1 as (F1 & V1).
    apply B2R_Bsign_inj; auto; [congruence|]. unfold nearest. rewrite rnd_1. 
    pose proof (binary_normalize_correct 53 1024 Hprec Hemax mode_NE (Ztrunc (scaled_mantissa radix2 (SpecFloat.fexp 53 1024) 1)) (cexp radix2 (SpecFloat.fexp 53 1024) 1) false) as C. cbv zeta in C.
    assert (G : generic_format radix2 (SpecFloat.fexp 53 1024) 1). { rewrite <- V1. apply format. }
    rewrite <- G, rnd_1, Rabs_R1 in C. rewrite Rlt_bool_true in C by apply big_gt1. destruct C as (_ & _ & ->). rewrite Rcompare_Gt by lra. reflexivity.
  - intros x H. apply dle_ext in H. destruct H as (Nx & _ & H). destruct (dZ_exact (-760) ltac:(cbn; lia)) as (F7 & V7). rewrite (ext_fin _ F7), V7 in H.
    destruct (number_cases x Nx) as [F | [ -> | -> ]]; [|exfalso; cbn in H; pose proof big_gt1; lra|reflexivity].
    rewrite ext_fin in H by auto. rewrite exp_nearest_fin by auto. assert (T : rnd (exp (B2R x)) = 0). { apply rnd_tiny. split; [left; apply exp_pos|]. eapply Rle_trans; [|apply exp_760]. now apply exp_mono. }
    unfold nearest. rewrite T, scaled_mantissa_0, Ztrunc_IZR. reflexivity.
  - intros x F H. rewrite exp_nearest_fin by auto. apply Rabs_le_inv in H. pose proof (exp_pos (B2R x)) as P. destruct (nearest_val (exp (B2R x)) ltac:(lra)) as (A & _).
    assert (U : exp (B2R x) <= bpow radix2 960) by (eapply Rle_trans; [|apply exp_600]; apply exp_mono; lra).
    assert (L : bpow radix2 (-960) <= exp (B2R x)).
    { apply Rle_trans with (exp (- (600))); [|apply exp_mono; lra]. rewrite exp_Ropp. replace (bpow radix2 (-960)) with (/ bpow radix2 960) by (now rewrite <- bpow_opp). apply Rinv_le_contravar; [apply exp_pos|apply exp_600]. }
    destruct A as (F' & V).
    { apply Rle_lt_trans with (bpow radix2 960); [|apply bpow_lt; lia]. pose proof (rnd_le _ _ U) as Q. rewrite (round_generic _ _ _ (bpow radix2 960)) in Q; [exact Q|]. apply generic_format_bpow. cbn. lia. }
    split; [exact F'|]. rewrite V. pose proof (relative_error_N_FLT radix2 (-1074) 53 ltac:(lia) (fun n => negb (Z.even n)) (exp (B2R x))) as E.
    rewrite (Rabs_pos_eq (exp (B2R x))) in E by lra. rewrite <- bpow_u. pose proof (bpow_gt_0 radix2 (-53 + 1)) as PB.
    eapply Rle_trans; [apply E|]. { eapply Rle_trans; [apply bpow_le|exact L]. lia. }
    change (/ 2 * bpow radix2 (- (53) + 1) * exp (B2R x)) with (/ 2 * bpow radix2 (-53 + 1) * exp (B2R x)).
    assert (0 <= exp (B2R x) * bpow radix2 (-53 + 1)) by (apply Rmult_le_pos; lra). lra.
Qed.

(** summation from the right, starting with 0 *)
Definition sum_right (l : list double) : double := fold_right (Bplus mode_NE) (dZ 0) l.
Theorem sum_right_ok : sum_contract sum_right.
Proof. intro l. induction l as [|x l IH]; [constructor|]. apply (ts_add (x :: l) [x] l); [reflexivity|constructor|exact IH]. Qed.
