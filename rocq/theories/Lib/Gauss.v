(** The Gaussian kernel: positivity, symmetry, derivative, positive semidefinite Gram matrices. *)
From Coq Require Import List ZArith Reals Lra Lia Bool.
From Verif Require Import Base.Num Spec.RealSpec Spec.Contracts Spec.KernelSpec Lib.RSum Lib.RMat.
Import ListNotations.
Local Open Scope R_scope.

Lemma gaussk_ext D l l' x x' y y' : (forall d, (d < D)%nat -> l d = l' d) -> (forall d, (d < D)%nat -> x d = x' d) -> (forall d, (d < D)%nat -> y d = y' d) ->
  gaussk D l x y = gaussk D l' x' y'.
Proof. intros H1 H2 H3. unfold gaussk. f_equal. f_equal. apply sumn_ext. intros d Hd. now rewrite H1, H2, H3. Qed.
Lemma gaussk_sym D l x y : gaussk D l x y = gaussk D l y x.
Proof. unfold gaussk. f_equal. f_equal. apply sumn_ext. intros. unfold Rdiv. f_equal. ring. Qed.
Lemma sqterm_ge0 (a l : R) : 0 <= a ^ 2 / (2 * l ^ 2).
Proof.
  destruct (Req_dec l 0) as [->|H]. { unfold Rdiv. replace (2 * 0 ^ 2) with 0 by ring. rewrite Rinv_0. lra. }
  assert (0 < l * l) by (destruct (Rtotal_order l 0) as [|[|]]; [nra|lra|nra]).
  apply Rmult_le_pos; [nra|]. left. apply Rinv_0_lt_compat. nra.
Qed.
Lemma gaussk_pos D l x y : 0 < gaussk D l x y. Proof. apply exp_pos. Qed.
Lemma gaussk_le1 D l x y : gaussk D l x y <= 1.
Proof.
  unfold gaussk. assert (0 <= sumn D (fun d => (x d - y d) ^ 2 / (2 * l d ^ 2))) by (apply sumn_ge0; intros; apply sqterm_ge0).
  destruct (Req_dec (sumn D (fun d => (x d - y d) ^ 2 / (2 * l d ^ 2))) 0) as [->|Hn]. { rewrite Ropp_0, exp_0. lra. }
  left. rewrite <- exp_0. apply exp_increasing. lra.
Qed.
Lemma gaussk_1 D l x y : (forall d, (d < D)%nat -> l d <> 0) -> (gaussk D l x y = 1 <-> forall d, (d < D)%nat -> x d = y d).
Proof.
  intro Hl. unfold gaussk. split.
  - intros H d Hd. rewrite <- exp_0 in H. apply exp_inv in H.
    assert (Hz := sumn_0_inv D _ (fun i _ => sqterm_ge0 (x i - y i) (l i)) ltac:(lra) d Hd). cbn beta in Hz.
    specialize (Hl d Hd). assert (Q : (x d - y d) ^ 2 = 0).
    { replace ((x d - y d) ^ 2) with ((x d - y d) ^ 2 / (2 * l d ^ 2) * (2 * l d ^ 2)) by (field; auto). rewrite Hz. ring. }
    assert (x d - y d = 0) by (apply Rmult_integral in Q; destruct Q as [|Q]; [auto|]; apply Rmult_integral in Q; destruct Q; lra). lra.
  - intro H. rewrite sumn_0. { now rewrite Ropp_0, exp_0. } intros d Hd. rewrite (H d Hd). unfold Rdiv. ring.
Qed.

(** d/dx_d k(x,y) = - (x_d - y_d)/l_d^2 * k(x,y) *)
Lemma dlim_exp u x v : derivable_pt_lim u x v -> derivable_pt_lim (fun t => exp (u t)) x (v * exp (u x)).
Proof. intro H. rewrite Rmult_comm. exact (derivable_pt_lim_comp u exp x v (exp (u x)) H (derivable_pt_lim_exp (u x))). Qed.
Lemma dlim_sumn n (u : nat -> R -> R) (v : nat -> R) x : (forall i, (i < n)%nat -> derivable_pt_lim (u i) x (v i)) ->
  derivable_pt_lim (fun t => sumn n (fun i => u i t)) x (sumn n v).
Proof.
  induction n; intro H; cbn. { apply (derivable_pt_lim_const 0). }
  apply (derivable_pt_lim_plus (fun t => sumn n (fun i => u i t)) (u n)); auto.
Qed.
Lemma dlim_scal c u x v : derivable_pt_lim u x v -> derivable_pt_lim (fun t => c * u t) x (c * v).
Proof. apply derivable_pt_lim_scal. Qed.
Lemma dlim_ext u w x v : (forall t, u t = w t) -> derivable_pt_lim u x v -> derivable_pt_lim w x v.
Proof. apply derivable_pt_lim_ext. Qed.

Definition dgauss (D : nat) (l x y : nat -> R) (d : nat) : R := - ((x d - y d) / (l d * l d)) * gaussk D l x y.
Lemma gaussk_partial D l y d x : (d < D)%nat -> l d <> 0 -> partial_at (fun p => gaussk D l p y) d x (dgauss D l x y d).
Proof.
  intros Hd Hl. unfold partial_at, gaussk.
  assert (HU : derivable_pt_lim (fun t => - sumn D (fun i => (moved x d t i - y i) ^ 2 / (2 * l i ^ 2))) (x d) (- ((x d - y d) / (l d * l d)))).
  { set (v := fun i => if (i =? d)%nat then (x d - y d) / (l d * l d) else 0).
    replace (- ((x d - y d) / (l d * l d))) with (-1 * sumn D v). 2:{ unfold v. rewrite (sumn_delta D d (fun _ => (x d - y d) / (l d * l d)) Hd). ring. }
    apply (dlim_ext (fun t => -1 * sumn D (fun i => (moved x d t i - y i) ^ 2 / (2 * l i ^ 2)))). { intro. ring. }
    apply dlim_scal. apply dlim_sumn. intros i Hi. unfold v, moved. destruct (Nat.eqb_spec i d) as [->|Hne].
    - replace ((x d - y d) / (l d * l d)) with (/ (2 * l d ^ 2) * ((1 - 0) * (x d - y d) + (x d - y d) * (1 - 0))) by (field; auto).
      apply (dlim_ext (fun t => / (2 * l d ^ 2) * ((t - y d) * (t - y d)))). { intro. field. auto. }
      apply dlim_scal. assert (HD : derivable_pt_lim (fun t => t - y d) (x d) (1 - 0)).
      { apply (derivable_pt_lim_minus id (fct_cte (y d))); [apply derivable_pt_lim_id|apply derivable_pt_lim_const]. }
      exact (derivable_pt_lim_mult _ _ _ _ _ HD HD).
    - apply (derivable_pt_lim_const ((x i - y i) ^ 2 / (2 * l i ^ 2))). }
  apply dlim_exp in HU. unfold dgauss, gaussk.
  replace (sumn D (fun d0 => (x d0 - y d0) ^ 2 / (2 * l d0 ^ 2))) with (sumn D (fun i => (moved x d (x d) i - y i) ^ 2 / (2 * l i ^ 2))); [exact HU|].
  apply sumn_ext. intros i Hi. unfold moved. destruct (Nat.eqb_spec i d) as [->|]; auto.
Qed.
Lemma expansion_partial M D l z a d x : (d < D)%nat -> l d <> 0 ->
  partial_at (expansion M D l z a) d x (sumn M (fun m => a m * dgauss D l x (z m) d)).
Proof.
  intros Hd Hl. unfold partial_at, expansion. apply dlim_sumn. intros m Hm. apply dlim_scal. now apply gaussk_partial.
Qed.
Lemma partial_unique F d x v w : partial_at F d x v -> partial_at F d x w -> v = w.
Proof. apply uniqueness_limite. Qed.

(** powers of inner products, exp of inner products *)
Lemma psd_pow n D (u : nat -> nat -> R) p : psd n (fun i j => (sumn D (fun d => u i d * u j d)) ^ p).
Proof.
  induction p as [|p IH]; intro v.
  - replace (qf n _ v) with (Rsqr (sumn n v)); [apply Rle_0_sqr|]. unfold Rsqr. rewrite sumn_sq. unfold qf.
    apply sumn_ext. intros. apply sumn_ext. intros. cbn. ring.
  - replace (qf n _ v) with (sumn D (fun d => qf n (fun i j => (sumn D (fun e => u i e * u j e)) ^ p) (fun i => v i * u i d))).
    + apply sumn_ge0. intros. apply IH.
    + unfold qf. rewrite sumn_swap. apply sumn_ext. intros i _. rewrite sumn_swap. apply sumn_ext. intros j _.
      rewrite (sumn_ext D _ (fun d => (v i * v j * sumn D (fun e => u i e * u j e) ^ p) * (u i d * u j d))) by (intros; ring).
      rewrite sumn_scal. cbn. ring.
Qed.
Lemma cv_sumn n (U : nat -> nat -> R) (L : nat -> R) : (forall i, (i < n)%nat -> Un_cv (U i) (L i)) -> Un_cv (fun k => sumn n (fun i => U i k)) (sumn n L).
Proof.
  induction n; intro H; cbn. { intros eps He. exists O. intros. unfold R_dist. rewrite Rminus_diag_eq, Rabs_R0; auto. }
  apply (CV_plus (fun k => sumn n (fun i => U i k)) (U n)); auto.
Qed.
Lemma cv_scal c U L : Un_cv U L -> Un_cv (fun k => c * U k) (c * L).
Proof.
  intro H. apply (CV_mult (fun _ => c) U); auto. intros eps He. exists O. intros. unfold R_dist. rewrite Rminus_diag_eq, Rabs_R0; auto.
Qed.
Lemma cv_ext U V L : (forall k, U k = V k) -> Un_cv U L -> Un_cv V L.
Proof. intros H HU eps He. destruct (HU eps He) as (N & HN). exists N. intros k Hk. rewrite <- H. auto. Qed.
Lemma cv_ge0 U L : (forall k, 0 <= U k) -> Un_cv U L -> 0 <= L.
Proof.
  intros H HU. destruct (Rle_or_lt 0 L) as [|Hn]; [auto|]. exfalso. destruct (HU (- L) ltac:(lra)) as (N & HN).
  specialize (HN N ltac:(lia)). specialize (H N). unfold R_dist in HN. rewrite Rabs_right in HN by lra. lra.
Qed.
Lemma psd_exp n D (u : nat -> nat -> R) : psd n (fun i j => exp (sumn D (fun d => u i d * u j d))).
Proof.
  intro v. set (t := fun i j => sumn D (fun d => u i d * u j d)).
  apply (cv_ge0 (fun k => qf n (fun i j => E1 (t i j) k) v)).
  - intro k. unfold E1. induction k as [|k IH]; cbn [sum_f_R0].
    + rewrite (qf_scal n (/ INR (fact 0)) (fun i j => t i j ^ 0)). apply Rmult_le_pos; [cbn; lra|apply psd_pow].
    + rewrite qf_plus. rewrite (qf_scal n (/ INR (fact (S k))) (fun i j => t i j ^ S k)). apply Rplus_le_le_0_compat; [exact IH|]. apply Rmult_le_pos; [|apply psd_pow].
      left. apply Rinv_0_lt_compat. apply INR_fact_lt_0.
  - unfold qf. apply cv_sumn. intros i _. apply cv_sumn. intros j _. apply cv_scal. apply E1_cvg.
Qed.
Lemma gaussk_factor D l x y : (forall d, (d < D)%nat -> l d <> 0) ->
  gaussk D l x y = exp (- sumn D (fun d => (x d / l d) ^ 2 / 2)) * exp (- sumn D (fun d => (y d / l d) ^ 2 / 2)) * exp (sumn D (fun d => x d / l d * (y d / l d))).
Proof.
  intro H. unfold gaussk. rewrite <- !exp_plus. f_equal. rewrite <- !sumn_opp, <- !sumn_plus. apply sumn_ext. intros d Hd. field. auto.
Qed.
Theorem gaussk_psd n D l (z : nat -> nat -> R) : (forall d, (d < D)%nat -> l d <> 0) -> psd n (fun i j => gaussk D l (z i) (z j)).
Proof.
  intros Hl v. set (e := fun i => exp (- sumn D (fun d => (z i d / l d) ^ 2 / 2))).
  replace (qf n _ v) with (qf n (fun i j => exp (sumn D (fun d => z i d / l d * (z j d / l d)))) (fun i => v i * e i)).
  - apply (psd_exp n D (fun i d => z i d / l d)).
  - unfold qf. apply sumn_ext. intros i _. apply sumn_ext. intros j _. rewrite gaussk_factor by auto. unfold e. ring.
Qed.
