(** The periodic kernels of the code over the reals. *)
From Coq Require Import String List ZArith Reals Lra Lia Bool.
From Verif Require Import Base.Num Base.Py Base.Arr Lib.ArrLemmas Model.Ext Model.Cdist Model.Score Lib.ScoreLemmas.
From Verif Require Import Spec.RealSpec Spec.Contracts Spec.KernelSpec Spec.PeriodicSpec Lib.RSum Lib.RMat Lib.Gauss Lib.KernelForms Lib.Estimator Lib.EstForms Lib.KEst.
Import ListNotations.
Local Open Scope R_scope.

(** ** the kernel as mathematics *)
Lemma perk_exp D l x y : perk D l x y = exp (sumn D (fun d => -2 * sin ((x d - y d) / 2) ^ 2 / l d ^ 2)).
Proof. apply prodn_exp. Qed.
Lemma perk_pos D l x y : 0 < perk D l x y.
Proof. rewrite perk_exp. apply exp_pos. Qed.
Lemma perk_sym D l x y : perk D l x y = perk D l y x.
Proof. unfold perk. apply prodn_ext. intros d _. f_equal. replace ((x d - y d) / 2) with (- ((y d - x d) / 2)) by lra. rewrite sin_neg. unfold Rdiv. ring. Qed.
Lemma perk_refl D l x : perk D l x x = 1.
Proof. rewrite perk_exp, sumn_0, exp_0; [reflexivity|]. intros d _. replace ((x d - x d) / 2) with 0 by lra. rewrite sin_0. unfold Rdiv. ring. Qed.
Lemma half_angle u : 2 * sin (u / 2) ^ 2 = 1 - cos u.
Proof. replace (cos u) with (cos (2 * (u / 2))) by (f_equal; lra). rewrite cos_2a_sin. ring. Qed.
Lemma perk_psd n D l (z : nat -> nat -> R) : (forall d, (d < D)%nat -> l d <> 0) -> psd n (fun i j => perk D l (z i) (z j)).
Proof.
  intros Hl v. set (u := fun i e => if (e <? D)%nat then cos (z i e) / l e else sin (z i (e - D)%nat) / l (e - D)%nat).
  set (c := exp (- sumn D (fun d => / (l d ^ 2)))).
  replace (qf n _ v) with (c * qf n (fun i j => exp (sumn (D + D) (fun e => u i e * u j e))) v).
  - apply Rmult_le_pos; [left; apply exp_pos|apply psd_exp].
  - unfold qf. rewrite <- sumn_scal. apply sumn_ext. intros i _. rewrite <- sumn_scal. apply sumn_ext. intros j _.
    replace (perk D l (z i) (z j)) with (c * exp (sumn (D + D) (fun e => u i e * u j e))); [ring|].
    unfold c. rewrite <- exp_plus, perk_exp. f_equal. rewrite sumn_app, <- sumn_opp, <- !sumn_plus. apply sumn_ext. intros d Hd. unfold u.
    assert ((d <? D)%nat = true) as -> by (apply Nat.ltb_lt; lia). assert ((D + d <? D)%nat = false) as -> by (apply Nat.ltb_ge; lia). replace (D + d - D)%nat with d by lia.
    replace (-2 * sin ((z i d - z j d) / 2) ^ 2) with (cos (z i d - z j d) - 1) by (rewrite <- (Ropp_involutive (_ - 1)), Ropp_minus_distr, <- half_angle; ring).
    rewrite cos_minus. field. auto.
Qed.
Definition dperk (D : nat) (l x y : nat -> R) (d : nat) : R := - (sin (x d - y d) / (l d * l d)) * perk D l x y.
Lemma dlim_sinhalf b t : derivable_pt_lim (fun t => 2 * sin ((t - b) / 2) ^ 2) t (sin (t - b)).
Proof.
  apply (dlim_ext (fun t => 1 - cos (t - b))). { intro. symmetry. apply half_angle. }
  apply (dlim_val _ _ (0 - - sin (t - b) * 1)); [ring|].
  apply (derivable_pt_lim_minus (fct_cte 1) (fun t => cos (t - b))); [apply derivable_pt_lim_const|].
  apply (derivable_pt_lim_comp (fun t => t - b) cos); [|apply derivable_pt_lim_cos].
  apply (dlim_val _ _ (1 - 0)); [lra|]. apply (derivable_pt_lim_minus id (fct_cte b)); [apply derivable_pt_lim_id|apply derivable_pt_lim_const].
Qed.
Lemma perk_partial D l y d x : (d < D)%nat -> l d <> 0 -> partial_at (fun p => perk D l p y) d x (dperk D l x y d).
Proof.
  intros Hd Hl. unfold partial_at.
  apply (dlim_ext (fun t => exp (sumn D (fun i => -2 * sin ((moved x d t i - y i) / 2) ^ 2 / l i ^ 2)))). { intro. symmetry. apply perk_exp. }
  set (v := fun i => if (i =? d)%nat then - (sin (x d - y d) / (l d * l d)) else 0).
  assert (HU : derivable_pt_lim (fun t => sumn D (fun i => -2 * sin ((moved x d t i - y i) / 2) ^ 2 / l i ^ 2)) (x d) (sumn D v)).
  { apply dlim_sumn. intros i Hi. unfold v, moved. destruct (Nat.eqb_spec i d) as [->|Hne].
    - apply (dlim_ext (fun t => - / (l d ^ 2) * (2 * sin ((t - y d) / 2) ^ 2))). { intro. unfold Rdiv. ring. }
      apply (dlim_val _ _ (- / (l d ^ 2) * sin (x d - y d))); [field; auto|]. apply dlim_scal. apply dlim_sinhalf.
    - apply (derivable_pt_lim_const (-2 * sin ((x i - y i) / 2) ^ 2 / l i ^ 2)). }
  apply dlim_exp in HU. eapply dlim_val; [|exact HU]. unfold dperk, v. rewrite (sumn_delta D d (fun _ => - (sin (x d - y d) / (l d * l d))) Hd). f_equal. rewrite perk_exp. f_equal.
  apply sumn_ext. intros i Hi. unfold moved. destruct (Nat.eqb_spec i d) as [->|]; auto.
Qed.
Lemma sin2_abs u : sin (Rabs u / 2) ^ 2 = sin (u / 2) ^ 2.
Proof. unfold Rabs. destruct (Rcase_abs u); [|reflexivity]. replace (- u / 2) with (- (u / 2)) by lra. rewrite sin_neg. ring. Qed.
Lemma perk_l1_1 l x y : perk_l1 1 l x y = perk 1 (fun _ => l) x y.
Proof. unfold perk_l1, perk. cbn [sumn prodn]. rewrite Rplus_0_l, Rmult_1_l, sin2_abs. reflexivity. Qed.

(** ** the code *)
Lemma per_mk l r c f : per_of_l1 (T := R) l (mk r c f) = mk r c (fun i j => exp (-2 * sin (f i j / 2) ^ 2 / l ^ 2)).
Proof. unfold per_of_l1. rewrite mmap1_mk. apply mk_ext. intros. unfold nsq, ntwo. cbn. f_equal. replace (IZR (-2) / 1) with (-2) by lra. replace (2 / 1) with 2 by lra. unfold Rdiv. rewrite !Rmult_1_r. reflexivity. Qed.
Lemma cdist_l1_col (x y : mat R) ii : cdist_l1 (mk (mr x) 1 (fun i _ => get x i ii)) (mk (mr y) 1 (fun i _ => get y i ii)) =
  Ok (mk (mr x) (mr y) (fun i j => Rabs (get x i ii - get y j ii))).
Proof. unfold cdist_l1. cbn [mk mc mr Nat.eqb]. f_equal. apply mk_ext. intros i j Hi Hj. cbn [seq map]. rewrite !get_mk by lia. cbn. lra. Qed.
Lemma cdist_l2_col (x y : mat R) ii : cdist_l2 (mk (mr x) 1 (fun i _ => get x i ii)) (mk (mr y) 1 (fun i _ => get y i ii)) =
  Ok (mk (mr x) (mr y) (fun i j => Rabs (get x i ii - get y j ii))).
Proof. unfold cdist_l2. cbn [mk mc mr Nat.eqb]. f_equal. apply mk_ext. intros i j Hi Hj. rewrite sqdist_col by auto. cbn. rewrite Rmult_1_r. apply sqrt_Rsqr_abs. Qed.
Lemma K_per_vec D ls (x y : mat R) : mc x = D -> mc y = D -> List.length ls = D ->
  K_per x y (LVec ls) = Ok (mk (mr x) (mr y) (fun i j => - perk D (fun d => nth d ls 0) (get x i) (get y j))).
Proof.
  intros Hx Hy Hl. cbn [K_per]. rewrite (enumerate_map0 ls D Hl).
  rewrite (rfold_prod _ _ (fun d i j => exp (-2 * sin ((get x i d - get y j d) / 2) ^ 2 / nth d ls 0 ^ 2))).
  - cbn [rbind]. unfold mopp. now rewrite mmap1_mk.
  - intros ii acc Hii. rewrite !column_in by lia. cbn [rbind]. rewrite cdist_l1_col. cbn [rbind]. rewrite per_mk. f_equal. apply mk_ext. intros. now rewrite sin2_abs.
Qed.
Lemma cdist_l1_R D (x y : mat R) : mc x = D -> mc y = D -> cdist_l1 x y = Ok (mk (mr x) (mr y) (fun i j => sumn D (fun d => Rabs (get x i d - get y j d)))).
Proof. intros Hx Hy. unfold cdist_l1. rewrite Hx, Hy, Nat.eqb_refl. f_equal. apply mk_ext. intros. apply nsum_seq. Qed.
Lemma K_per_scal D l0 (x y : mat R) : mc x = D -> mc y = D -> K_per x y (LScal l0) = Ok (mk (mr x) (mr y) (fun i j => perk_l1 D l0 (get x i) (get y j))).
Proof. intros Hx Hy. cbn [K_per]. rewrite (cdist_l1_R D) by auto. cbn [rbind]. now rewrite per_mk. Qed.
Lemma grad_val k l u : u <> 0 -> l <> 0 -> - (-2 * k * u * sin (Rabs u / 2) * cos (Rabs u / 2) / (l * l * Rabs u)) = k * (sin u / (l * l)).
Proof.
  intros Hu Hl. replace (sin u) with (sin (2 * (u / 2))) by (f_equal; lra). rewrite sin_2a. unfold Rabs. destruct (Rcase_abs u).
  - replace (- u / 2) with (- (u / 2)) by lra. rewrite sin_neg, cos_neg. field. auto.
  - field. auto.
Qed.
(** no sample shares coordinate d with an inducing point *)
Definition apart (d : nat) (x y : mat R) : Prop := forall i j, (i < mr x)%nat -> (j < mr y)%nat -> get x i d <> get y j d.
Lemma grdx_per_vec D ls (x y : mat R) d : mc x = D -> mc y = D -> List.length ls = D -> (d < D)%nat -> nth d ls 0 <> 0 -> apart d x y ->
  grdx_K_per x y (LVec ls) (Z.of_nat d + 1) = Ok (mk (mr x) (mr y) (fun i j => dperk D (fun d => nth d ls 0) (get x i) (get y j) d)).
Proof.
  intros Hx Hy Hl Hd Hn Ha. unfold grdx_K_per. cbv zeta. replace (Z.of_nat d + 1 - 1)%Z with (Z.of_nat d) by lia.
  unfold diffs_at. rewrite Hx, Hy, bok_refl, bdim_refl, pyidx_nat by auto. cbn [rbind]. rewrite !bidx_lt by auto. rewrite (K_per_vec D) by auto. cbn [rbind].
  unfold smul. rewrite !mmap1_mk, bc2_mk. cbn [rbind]. rewrite bc2_mk. cbn [rbind]. rewrite bc2_mk. cbn [rbind]. cbn [lsq_at]. rewrite (pyget_nat ls d 0) by lia. cbn [rbind]. rewrite mmap1_mk, bc2_mk. cbn [rbind].
  unfold mopp. rewrite mmap1_mk. f_equal. apply mk_ext. intros i j Hi Hj. unfold ntwo, dperk. cbn. replace (IZR (-2) / 1) with (-2) by lra. replace (2 / 1) with 2 by lra.
  rewrite grad_val by (auto; specialize (Ha i j Hi Hj); lra). ring.
Qed.
Lemma grdx_per_scal D l0 (x y : mat R) d : mc x = D -> mc y = D -> (d < D)%nat -> l0 <> 0 -> apart d x y ->
  grdx_K_per x y (LScal l0) (Z.of_nat d + 1) = Ok (mk (mr x) (mr y) (fun i j => perk_l1 D l0 (get x i) (get y j) * (sin (get x i d - get y j d) / (l0 * l0)))).
Proof.
  intros Hx Hy Hd Hn Ha. unfold grdx_K_per. cbv zeta. replace (Z.of_nat d + 1 - 1)%Z with (Z.of_nat d) by lia.
  unfold diffs_at. rewrite Hx, Hy, bok_refl, bdim_refl, pyidx_nat by auto. cbn [rbind]. rewrite !bidx_lt by auto. rewrite (K_per_scal D) by auto. cbn [rbind].
  unfold smul. rewrite !mmap1_mk, bc2_mk. cbn [rbind]. rewrite bc2_mk. cbn [rbind]. rewrite bc2_mk. cbn [rbind]. cbn [lsq_at rbind]. rewrite mmap1_mk, bc2_mk. cbn [rbind].
  unfold mopp. rewrite mmap1_mk. f_equal. apply mk_ext. intros i j Hi Hj. unfold ntwo. cbn. replace (IZR (-2) / 1) with (-2) by lra. replace (2 / 1) with 2 by lra.
  rewrite <- grad_val by (auto; specialize (Ha i j Hi Hj); lra). f_equal. f_equal. ring.
Qed.
Lemma Ksz_per_vec D ls (x y : mat R) : mc x = D -> mc y = D -> List.length ls = D -> (2 <= D)%nat ->
  Ksz_per y (LVec ls) x = Ok (mk (mr x) (mr y) (fun i j => perk_out (nth 0 ls 0) (nth 1 ls 0) (get x i) (get y j))).
Proof.
  intros Hx Hy Hl HD. cbn [Ksz_per]. rewrite !column_in by lia. cbn [rbind]. rewrite cdist_l2_col, cdist_sq_col. cbn [rbind]. rewrite (pyget_nat ls 0 0), (pyget_nat ls 1 0) by lia. cbn [rbind].
  rewrite !mmap1_mk, bc2_mk. f_equal. apply mk_ext. intros. unfold perk_out. cbn. replace (IZR (-2) / 1) with (-2) by lra. reflexivity.
Qed.
Lemma Ksz_per_1 ls (x y : mat R) : mc x = 1%nat -> mc y = 1%nat -> List.length ls = 1%nat -> Ksz_per y (LVec ls) x = Err IndexError.
Proof.
  intros Hx Hy Hl. cbn [Ksz_per]. rewrite !column_in by lia. cbn [rbind]. rewrite cdist_l2_col. cbn [rbind]. rewrite (pyget_nat ls 0 0) by lia. cbn [rbind].
  unfold column. rewrite Hx. reflexivity.
Qed.
