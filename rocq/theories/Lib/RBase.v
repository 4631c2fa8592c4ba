(** Exact-real facts about the numpy reductions. *)
From Coq Require Import String List ZArith Lia Bool Reals Lra.
From Verif Require Import Base.Num Base.Py Base.Arr Lib.ArrLemmas Model.Ext Model.DPFC Model.TDPFC Spec.FlowSpec.
Import ListNotations.
Local Open Scope R_scope.

Lemma fold_min_spec l : forall x : R, (forall y, In y (x :: l) -> fold_left Rmin l x <= y) /\ In (fold_left Rmin l x) (x :: l).
Proof.
  induction l as [|a l IH]; intro x; cbn [fold_left].
  - split; [|now left]. intros y [->|[]]. lra.
  - destruct (IH (Rmin x a)) as (H1 & H2). split.
    + intros y [->|[->|Hy]].
      * eapply Rle_trans; [apply H1; now left|]. apply Rmin_l.
      * eapply Rle_trans; [apply H1; now left|]. apply Rmin_r.
      * apply H1. now right.
    + destruct H2 as [H2|H2]; [|now right; right]. rewrite <- H2. unfold Rmin. destruct (Rle_dec x a); cbn; auto.
Qed.
Lemma fold_max_spec l : forall x : R, (forall y, In y (x :: l) -> y <= fold_left Rmax l x) /\ In (fold_left Rmax l x) (x :: l).
Proof.
  induction l as [|a l IH]; intro x; cbn [fold_left].
  - split; [|now left]. intros y [->|[]]. lra.
  - destruct (IH (Rmax x a)) as (H1 & H2). split.
    + intros y [->|[->|Hy]].
      * eapply Rle_trans; [|apply H1; now left]. apply Rmax_l.
      * eapply Rle_trans; [|apply H1; now left]. apply Rmax_r.
      * apply H1. now right.
    + destruct H2 as [H2|H2]; [|now right; right]. rewrite <- H2. unfold Rmax. destruct (Rle_dec x a); cbn; auto.
Qed.
Lemma lmin_R (l : list R) v : lmin l = Ok v -> In v l /\ forall y, In y l -> v <= y.
Proof. destruct l as [|x l]; [discriminate|]. intro H. injection H as <-. destruct (fold_min_spec l x). auto. Qed.
Lemma lmax_R (l : list R) v : lmax l = Ok v -> In v l /\ forall y, In y l -> y <= v.
Proof. destruct l as [|x l]; [discriminate|]. intro H. injection H as <-. destruct (fold_max_spec l x). auto. Qed.

Lemma in_row (A : mat R) d v : In v (row A d) <-> exists n, (n < mc A)%nat /\ v = get A d n.
Proof.
  unfold row. rewrite in_map_iff. split.
  - intros (n & <- & H). apply in_seq in H. exists n. split; [lia|auto].
  - intros (n & H & ->). exists n. split; [auto|]. apply in_seq. lia.
Qed.
Lemma rlo_R (A : mat R) d v : lmin (row A d) = Ok v -> (exists n, (n < mc A)%nat /\ get A d n = v) /\ forall n, (n < mc A)%nat -> v <= get A d n.
Proof.
  intro H. apply lmin_R in H. destruct H as (H1 & H2). split. { apply in_row in H1. destruct H1 as (n & ? & ?). eauto. }
  intros n Hn. apply H2. apply in_row. eauto.
Qed.
Lemma rhi_R (A : mat R) d v : lmax (row A d) = Ok v -> (exists n, (n < mc A)%nat /\ get A d n = v) /\ forall n, (n < mc A)%nat -> get A d n <= v.
Proof.
  intro H. apply lmax_R in H. destruct H as (H1 & H2). split. { apply in_row in H1. destruct H1 as (n & ? & ?). eauto. }
  intros n Hn. apply H2. apply in_row. eauto.
Qed.

Lemma pymax_R (a b : R) : pymax a b = Rmax a b.
Proof. unfold pymax, Rmax. cbn. destruct (Rlt_dec a b), (Rle_dec a b); lra. Qed.
Lemma pymin_R (a b : R) : pymin a b = Rmin a b.
Proof. unfold pymin, Rmin. cbn. destruct (Rlt_dec b a), (Rle_dec a b); lra. Qed.
Lemma nleb_R (a b : R) : nleb a b = true <-> a <= b.
Proof. cbn. destruct (Rle_dec a b); split; auto; discriminate. Qed.
Lemma nltb_R (a b : R) : nltb a b = true <-> a < b.
Proof. cbn. destruct (Rlt_dec a b); split; auto; discriminate. Qed.

Lemma nofnat_R n : nofnat (T := R) n = INR n.
Proof. unfold nofnat. cbn. rewrite <- INR_IZR_INZ. field. Qed.
Lemma nsum_const (l : list R) c : (forall x, In x l -> x = c) -> nsum l = INR (length l) * c.
Proof.
  induction l as [|a l IH]; intro H. { cbn. lra. }
  change (nsum (a :: l)) with (a + nsum l). rewrite IH by (intros; apply H; now right). rewrite (H a) by now left.
  cbn [length]. rewrite S_INR. lra.
Qed.
(** the standard deviation of a constant sample is zero *)
Lemma nmean_const (l : list R) c : l <> [] -> (forall x, In x l -> x = c) -> nmean l = c.
Proof.
  intros Hn H. unfold nmean. rewrite (nsum_const l c H), nofnat_R. cbn. field. apply not_0_INR. destruct l; [congruence|cbn; lia].
Qed.
Lemma ssd_const (l : list R) c : (forall x, In x l -> x = c) -> ssd l = 0.
Proof.
  intro H. destruct l as [|a l]; [reflexivity|]. unfold ssd. rewrite (nmean_const _ c) by (auto; discriminate).
  rewrite (nsum_const _ 0); [lra|]. intros x Hx. apply in_map_iff in Hx. destruct Hx as (y & <- & Hy). rewrite (H y Hy). unfold nsq. cbn. lra.
Qed.
Lemma nstd_const (l : list R) c : (forall x, In x l -> x = c) -> nstd l = 0.
Proof. intro H. unfold nstd. rewrite (ssd_const l c H). cbn. unfold Rdiv. rewrite Rmult_0_l. apply sqrt_0. Qed.

Lemma nstd_ge0 (l : list R) : 0 <= nstd l. Proof. apply sqrt_pos. Qed.
