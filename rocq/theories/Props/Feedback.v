(** C87: near the ends the control is a linear feedback. *)
From Coq Require Import String List ZArith Lia Bool Reals Lra.
From Verif Require Import Base.Num Base.Py Base.Arr Lib.ArrLemmas Model.Ext Model.Score Model.DPFC Model.TDPFC Run.RealExt.
From Verif Require Import Spec.FlowSpec Spec.TorchSpec Spec.QuerySpec Spec.RealSpec Spec.ReweightSpec Spec.ControlledSpec Spec.FeedbackSpec.
From Verif Require Import Lib.FlowLemmas Lib.ScoreLemmas Lib.StepLemmas Lib.QueryLemmas Lib.RBase Lib.RSum.
From Verif Require Import Props.Flows Props.Queries Props.QueriesR Props.TorchQueries Props.TorchR Props.Witnesses.
Import ListNotations.
Local Open Scope R_scope.

Lemma mean_affine n (x u : nat -> R) a b : (1 <= n)%nat -> (forall i, (i < n)%nat -> u i = a * x i + b) -> mean n u = a * mean n x + b.
Proof.
  intros Hn H. unfold mean. rewrite (sumn_ext n u (fun i => a * x i + b)) by auto.
  assert (Q : sumn n (fun i => a * x i + b) = a * sumn n x + INR n * b) by now rewrite sumn_plus, sumn_scal, sumn_const.
  rewrite Q. field. apply not_0_INR. lia.
Qed.
(** the algebra: a difference of two Gaussian scores is a feedback *)
Lemma feedback_of_scores rho mb vb mz vz n x u : 0 < rho -> 0 < vb -> 0 < vz ->
  (forall i, (i < n)%nat -> u i = rho * (- (x i - mb) / vb - - (x i - mz) / vz)) -> feedback rho mb vb mz vz n x u.
Proof.
  intros Hr Hb Hz H. unfold feedback. set (target := (vz * mb - vb * mz) / (vz - vb)).
  assert (A : forall i, (i < n)%nat -> u i = (rho * (1 / vz - 1 / vb)) * x i + rho * (mb / vb - mz / vz)) by (intros i Hi; rewrite H by auto; field; lra).
  split; [|split; [|split; [|split]]].
  - intro L. exists (rho * (1 / vb - 1 / vz)).
    assert (D : target - mb = vb / (vz - vb) * (mb - mz)) by (unfold target; field; lra).
    assert (P : 0 < vb / (vz - vb)) by (apply Rdiv_lt_0_compat; lra).
    split; [reflexivity|]. split.
    { apply Rmult_lt_0_compat; [auto|]. replace (1 / vb - 1 / vz) with ((vz - vb) / (vb * vz)) by (field; lra). apply Rdiv_lt_0_compat; [lra|]. now apply Rmult_lt_0_compat. }
    split. { intros i Hi. rewrite H by auto. unfold target. field. lra. }
    split; intro Q.
    + assert (0 <= vb / (vz - vb) * (mb - mz)) by (apply Rmult_le_pos; lra). lra.
    + assert (0 <= vb / (vz - vb) * (mz - mb)) by (apply Rmult_le_pos; lra). lra.
  - intro L. exists (rho * (1 / vz - 1 / vb)).
    assert (D : target - mz = vz / (vb - vz) * (mz - mb)) by (unfold target; field; lra).
    assert (P : 0 < vz / (vb - vz)) by (apply Rdiv_lt_0_compat; lra).
    split; [reflexivity|]. split.
    { apply Rmult_lt_0_compat; [auto|]. replace (1 / vz - 1 / vb) with ((vb - vz) / (vb * vz)) by (field; lra). apply Rdiv_lt_0_compat; [lra|]. now apply Rmult_lt_0_compat. }
    split. { intros i Hi. rewrite H by auto. unfold target. field. lra. }
    split; intro Q.
    + assert (0 <= vz / (vb - vz) * (mb - mz)) by (apply Rmult_le_pos; lra). lra.
    + assert (0 <= vz / (vb - vz) * (mz - mb)) by (apply Rmult_le_pos; lra). lra.
  - intros <- i Hi. rewrite H by auto. field. lra.
  - intros Hn M. rewrite (mean_affine n x u _ _ Hn A), M. field. lra.
  - intros Hn M. rewrite (mean_affine n x u _ _ Hn A), M. field. lra.
Qed.
Lemma gauss_score_val (z : mat R) d N x : mc z = N -> (1 <= N)%nat -> gauss_score z d x = - (x - mean N (get z d)) / variance N (get z d).
Proof. intros C HN. unfold gauss_score. rewrite mean_row, var_row by lia. rewrite C. reflexivity. Qed.
Lemma forward_sh (o : obj R) dim N k A : consistent o dim N k -> forward_of o A -> sh A dim N k.
Proof.
  intros Hc HF. destruct Hc as (_ & _ & HZ & _ & HT). unfold forward_of in HF. destruct (p_reweight (o_par o) && p_brown (o_par o)); [|subst A; now apply has_shape_sh].
  destruct (HT eq_refl) as (Zt & Q & HZt). rewrite HF in Q. injection Q as <-. now apply has_shape_sh in HZt.
Qed.
Lemma backward_sh (o : obj R) dim N k : consistent o dim N k -> sh (o_B o) dim N k.
Proof. intros (_ & _ & _ & HB & _). now apply has_shape_sh in HB. Qed.

Lemma spread_or_not (y : mat R) d : spread y d \/ (forall i, (i < mc y)%nat -> get y d i = get y d 0).
Proof.
  assert (H : forall n, (n <= mc y)%nat -> spread y d \/ (forall i, (i < n)%nat -> get y d i = get y d 0)).
  { induction n as [|n IH]; intro Hn; [right; lia|]. destruct (IH ltac:(lia)) as [H|H]; [now left|].
    destruct (Req_EM_T (get y d n) (get y d 0)) as [Q|Q].
    - right. intros i Hi. destruct (Nat.eq_dec i n) as [->|]; [exact Q|apply H; lia].
    - left. exists n, 0%nat. repeat split; auto; lia. }
  exact (H (mc y) (Nat.le_refl _)).
Qed.

Section Feedback.
  Context {S : Type} (E : Ext R S) (o : obj R) (dim N k : nat) (A : arr3 R) (Hc : consistent o dim N k) (HF : forward_of o A).

  Theorem C87_feedback gx ti j s : (1 <= N)%nat -> selects k ti j -> edge k ti -> (dim <= mc gx)%nat ->
    exists u, calculate_u E o gx ti s = (Ok u, s) /\ forall d, (d < dim)%nat ->
      let b := get (slice (o_B o) j) d in let z := get (slice A j) d in 0 < variance N b -> 0 < variance N z ->
      feedback 1 (mean N b) (variance N b) (mean N z) (variance N z) (mr gx) (fun i => get gx i d) (fun i => get u d i).
  Proof.
    intros HN Hs He Hm. destruct (C21_gaussian_window E o dim N k Hc A HF gx ti j s HN Hs He Hm) as (u & H1 & _ & _ & H2 & _).
    exists u. split; [exact H1|]. intros d Hd b z Hb Hz. apply feedback_of_scores; auto; try lra. intros i Hi. rewrite H2 by auto.
    destruct (sh_slice _ _ _ _ j (forward_sh _ _ _ _ _ Hc HF) ltac:(apply Hs)) as (_ & _ & CA). destruct (sh_slice _ _ _ _ j (backward_sh _ _ _ _ Hc) ltac:(apply Hs)) as (_ & _ & CB).
    rewrite (gauss_score_val _ d N _ CA HN), (gauss_score_val _ d N _ CB HN). fold b z. cbn [nsub ROps]. ring.
  Qed.
  (** torched_DPFC: the same feedback, weaker by the factor (N-1)/N: same target, same sign *)
  Theorem C87_torch_feedback gx ti j s : (2 <= N)%nat -> selects k ti j -> edge k ti -> (dim <= mc gx)%nat ->
    exists u, t_calculate_u E o gx ti s = (Ok u, s) /\ forall d, (d < dim)%nat ->
      let b := get (slice (o_B o) j) d in let z := get (slice A j) d in 0 < variance N b -> 0 < variance N z ->
      feedback ((INR N - 1) / INR N) (mean N b) (variance N b) (mean N z) (variance N z) (mr gx) (fun i => get gx i d) (fun i => get u d i).
  Proof.
    intros HN Hs He Hm. destruct (C53_torch_numpy_ratio E o dim N k A gx ti j s Hc HF HN Hs He Hm) as (u & v & U1 & V1 & _ & _ & V2).
    destruct (C21_gaussian_window E o dim N k Hc A HF gx ti j s ltac:(lia) Hs He Hm) as (u' & H1 & _ & _ & H2 & _).
    assert (u' = u) as -> by congruence.
    exists v. split; [exact V1|]. intros d Hd b z Hb Hz.
    destruct (sh_slice _ _ _ _ j (forward_sh _ _ _ _ _ Hc HF) ltac:(apply Hs)) as (_ & _ & CA). destruct (sh_slice _ _ _ _ j (backward_sh _ _ _ _ Hc) ltac:(apply Hs)) as (_ & _ & CB).
    assert (HI : 1 < INR N) by (change 1 with (INR 1); apply lt_INR; lia).
    assert (SP : forall y : mat R, mc y = N -> 0 < variance N (get y d) -> spread y d).
    { intros y Cy V. destruct (spread_or_not y d) as [Q|Q]; [exact Q|exfalso]. revert V. apply Rle_not_lt. apply Req_le. unfold variance.
      assert (K : forall i, (i < N)%nat -> get y d i = get y d 0) by (intros i Hi; apply Q; lia).
      assert (M : mean N (get y d) = get y d 0).
      { rewrite (mean_affine N (fun _ => 1) (get y d) 0 (get y d 0)) by (try lia; intros; rewrite K by auto; ring). ring. }
      rewrite (sumn_ext N _ (fun _ => 0)) by (intros i Hi; rewrite M, K by auto; ring). rewrite sumn_0 by auto. unfold Rdiv. ring. }
    apply feedback_of_scores; auto. { apply Rdiv_lt_0_compat; lra. }
    intros i Hi. rewrite V2 by auto. rewrite H2 by auto.
    rewrite (gauss_score_val _ d N _ CA ltac:(lia)), (gauss_score_val _ d N _ CB ltac:(lia)). reflexivity.
  Qed.

  (** in the documented controlled simulation, two trajectories at such a step: their difference is multiplied by 1 - dt g^2 (1/vb - 1/vz),
      apart from the differences of their drifts and of their noises *)
  Theorem C87_simulation f g F U Fn t reps s s' : simulated_step E o f g F U Fn t s s' -> has_shape F dim reps k -> (1 <= N)%nat ->
    (1 <= t < k)%nat -> edge k (Z.of_nat t) ->
    exists h s1 s2 fx, x_normal E s1 (sqrt (1 / 1000)) dim reps = (h, s2) /\ call1 f (slice F (t-1)) = Ok fx /\
      forall d r r', (d < dim)%nat -> (r < reps)%nat -> (r' < reps)%nat ->
        let b := get (slice (o_B o) t) d in let z := get (slice A t) d in 0 < variance N b -> 0 < variance N z ->
        get3 F d r t - get3 F d r' t = (1 - 1 / 1000 * g ^ 2 * (1 / variance N b - 1 / variance N z)) * (get3 F d r (t-1) - get3 F d r' (t-1))
          + 1 / 1000 * (get fx d r - get fx d r') + g * (h d r - h d r').
  Proof.
    intros H HS HN Ht He. destruct H as (u & n1 & n2 & s1 & s2 & fx & fy & Hu & Hn & _ & Hfx & _ & H).
    apply has_shape_sh in HS. pose proof HS as (_ & DD & NN & _).
    destruct (sh_slice _ _ _ _ (t-1) HS ltac:(lia)) as (_ & RX & CX).
    destruct (C21_gaussian_window E o dim N k Hc A HF (mT (slice F (t-1))) (Z.of_nat t) t s HN ltac:(unfold selects; lia) He ltac:(cbn [mT mc mk]; lia)) as (u' & H1 & _ & _ & H2 & _).
    assert (u' = u /\ s1 = s) as (-> & ->) by (split; congruence).
    exists n1, s, s2, fx. split. { rewrite <- Hn, DD, NN. reflexivity. } split; [exact Hfx|].
    intros d r r' Hd Hr Hr' b z Hb Hz.
    destruct (H d r ltac:(lia) ltac:(lia)) as (_ & A1 & _). destruct (H d r' ltac:(lia) ltac:(lia)) as (_ & A2 & _). rewrite A1, A2. clear A1 A2 H.
    assert (V : forall r0, (r0 < reps)%nat -> get u d r0 = (1 / variance N z - 1 / variance N b) * get3 F d r0 (t-1) + (mean N b / variance N b - mean N z / variance N z)).
    { intros r0 Hr0. rewrite H2 by (cbn [mT mr mk]; lia).
      destruct (sh_slice _ _ _ _ t (forward_sh _ _ _ _ _ Hc HF) ltac:(lia)) as (_ & _ & CA). destruct (sh_slice _ _ _ _ t (backward_sh _ _ _ _ Hc) ltac:(lia)) as (_ & _ & CB).
      rewrite (gauss_score_val _ d N _ CA HN), (gauss_score_val _ d N _ CB HN). fold b z. unfold mT at 1 2. rewrite !get_mk by lia.
      change (get (slice F (t-1)) d r0) with (get3 F d r0 (t-1)). cbn [nsub ROps]. field. lra. }
    rewrite (V r Hr), (V r' Hr'). unfold nsq, nmilli. cbn. field. lra.
  Qed.
End Feedback.
