(** Finite sums of reals. *)
From Coq Require Import List ZArith Reals Lra Lia Bool.
From Verif Require Import Base.Num Spec.RealSpec.
Import ListNotations.
Local Open Scope R_scope.

Lemma sumn_ext n f g : (forall i, (i < n)%nat -> f i = g i) -> sumn n f = sumn n g.
Proof. induction n; intro H; cbn; [auto|]. rewrite IHn, H; auto. Qed.
Lemma sumn_0 n f : (forall i, (i < n)%nat -> f i = 0) -> sumn n f = 0.
Proof. induction n; intro H; cbn; [auto|]. rewrite IHn, H; auto. lra. Qed.
Lemma sumn_plus n f g : sumn n (fun i => f i + g i) = sumn n f + sumn n g.
Proof. induction n; cbn; [lra|]. rewrite IHn. lra. Qed.
Lemma sumn_minus n f g : sumn n (fun i => f i - g i) = sumn n f - sumn n g.
Proof. induction n; cbn; [lra|]. rewrite IHn. lra. Qed.
Lemma sumn_scal n c f : sumn n (fun i => c * f i) = c * sumn n f.
Proof. induction n; cbn; [lra|]. rewrite IHn. lra. Qed.
Lemma sumn_scal_r n c f : sumn n (fun i => f i * c) = sumn n f * c.
Proof. induction n; cbn; [lra|]. rewrite IHn. lra. Qed.
Lemma sumn_div n c f : sumn n (fun i => f i / c) = sumn n f / c.
Proof. unfold Rdiv. apply sumn_scal_r. Qed.
Lemma sumn_opp n f : sumn n (fun i => - f i) = - sumn n f.
Proof. induction n; cbn; [lra|]. rewrite IHn. lra. Qed.
Lemma sumn_const n c : sumn n (fun _ => c) = INR n * c.
Proof. induction n; [cbn; lra|]. rewrite S_INR. cbn [sumn]. rewrite IHn. lra. Qed.
Lemma sumn_swap n m f : sumn n (fun i => sumn m (fun j => f i j)) = sumn m (fun j => sumn n (fun i => f i j)).
Proof.
  induction n; cbn. { symmetry. now apply sumn_0. }
  rewrite IHn. rewrite <- sumn_plus. reflexivity.
Qed.
Lemma sumn_le n f g : (forall i, (i < n)%nat -> f i <= g i) -> sumn n f <= sumn n g.
Proof. induction n; intro H; cbn; [lra|]. apply Rplus_le_compat; auto. Qed.
Lemma sumn_ge0 n f : (forall i, (i < n)%nat -> 0 <= f i) -> 0 <= sumn n f.
Proof. intro H. rewrite <- (sumn_0 n (fun _ => 0)) by auto. now apply sumn_le. Qed.
Lemma sumn_gt0 n f : (0 < n)%nat -> (forall i, (i < n)%nat -> 0 < f i) -> 0 < sumn n f.
Proof.
  intros Hn H. destruct n; [lia|]. cbn. assert (0 <= sumn n f) by (apply sumn_ge0; intros; apply Rlt_le; apply H; lia).
  specialize (H n ltac:(lia)). lra.
Qed.
Lemma sumn_term n f j : (forall i, (i < n)%nat -> 0 <= f i) -> (j < n)%nat -> f j <= sumn n f.
Proof.
  induction n; intros H Hj; [lia|]. cbn. destruct (Nat.eq_dec j n) as [->|].
  - assert (0 <= sumn n f) by (apply sumn_ge0; auto). lra.
  - assert (f j <= sumn n f) by (apply IHn; auto; lia). specialize (H n ltac:(lia)). lra.
Qed.
Lemma sumn_0_inv n f : (forall i, (i < n)%nat -> 0 <= f i) -> sumn n f = 0 -> forall i, (i < n)%nat -> f i = 0.
Proof. intros H H0 i Hi. pose proof (sumn_term n f i H Hi). specialize (H i Hi). lra. Qed.
Lemma sumn_delta n j f : (j < n)%nat -> sumn n (fun i => if (i =? j)%nat then f i else 0) = f j.
Proof.
  induction n; intro H; [lia|]. cbn. destruct (Nat.eqb_spec n j) as [->|].
  - rewrite sumn_0; [lra|]. intros i Hi. destruct (Nat.eqb_spec i j); [lia|auto].
  - rewrite IHn by lia. lra.
Qed.
Lemma sumn_S_l n f : sumn (S n) f = f O + sumn n (fun i => f (S i)).
Proof. induction n; [cbn; lra|]. cbn [sumn] in *. rewrite IHn. lra. Qed.
Lemma sumn_app n m f : sumn (n + m) f = sumn n f + sumn m (fun i => f (n + i)%nat).
Proof. induction m; [rewrite Nat.add_0_r; cbn; lra|]. rewrite Nat.add_succ_r. cbn. rewrite IHm. lra. Qed.
Lemma sumn_sq n f : sumn n f * sumn n f = sumn n (fun i => sumn n (fun j => f i * f j)).
Proof.
  rewrite <- sumn_scal_r. apply sumn_ext. intros i _. now rewrite sumn_scal.
Qed.
(** numpy reductions of mapped ranges *)
Lemma fold_plus_app l1 l2 : fold_right Rplus 0 (l1 ++ l2) = fold_right Rplus 0 l1 + fold_right Rplus 0 l2.
Proof. induction l1; cbn; [lra|]. rewrite IHl1. lra. Qed.
Lemma nsum_seq n (f : nat -> R) : nsum (map f (seq 0 n)) = sumn n f.
Proof.
  induction n; [reflexivity|]. rewrite seq_S, map_app. cbn. cbn in IHn. rewrite fold_plus_app, IHn. cbn. lra.
Qed.
Lemma nsum_app (a b : list R) : nsum (a ++ b) = nsum a + nsum b.
Proof. apply fold_plus_app. Qed.

Lemma prodn_ext n f g : (forall i, (i < n)%nat -> f i = g i) -> prodn n f = prodn n g.
Proof. induction n; intro H; cbn; [auto|]. rewrite IHn, H; auto. Qed.
Lemma prodn_exp n f : prodn n (fun i => exp (f i)) = exp (sumn n f).
Proof. induction n; cbn; [now rewrite exp_0|]. now rewrite IHn, exp_plus. Qed.

Lemma sumn_lin n a f b g : sumn n (fun i => a * f i + b * g i) = a * sumn n f + b * sumn n g.
Proof. now rewrite sumn_plus, !sumn_scal. Qed.
