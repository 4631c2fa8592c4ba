(** C80, whole runs: the weights handed to the transport solver at every grid point, in both classes and both modes. *)
From Coq Require Import String List ZArith Reals Bool Lia Lra.
From Flocq Require Import Core BinarySingleNaN.
From Verif Require Import Base.Num Base.Py Base.Arr Lib.ArrLemmas Model.Ext Model.DPFC Model.TDPFC Run.Double Spec.DoubleSpec Spec.RealSpec Spec.ReweightSpec Spec.FlowSpec Spec.TorchSpec.
From Verif Require Import Lib.RSum Lib.StepLemmas Lib.FlowLemmas Lib.DoubleLemmas Props.Flows Props.Torch Lib.QueryLemmas Props.Queries Props.TorchQueries Props.DoubleWeights.
Import ListNotations.
Local Open Scope R_scope.

Section Runs.
  Context (fexp fsin fcos : double -> double) (fsum : list double -> double).
  #[local] Instance DrOps : NumOps double := DoubleOps fexp fsin fcos fsum.

  Lemma worth (N : nat) (e : nat -> double) : sum_contract fsum -> exp_contract fexp -> (1 <= N)%nat -> INR N <= 1073741824 ->
    let ws := map (fun n => fexp (e n)) (seq 0 N) in weights_worth fexp N e (map (fun v => ndiv v (nsum ws)) ws).
  Proof.
    intros Hs He HN HB ws. set (m0 := mk 1 N (fun _ n => e n) : mat double).
    assert (Hel : forall n, (n < N)%nat -> elem m0 0 n = e n).
    { intros k Hk. unfold elem, m0. cbn [mr mc mk Nat.eqb]. destruct (Nat.eqb_spec N 1); rewrite get_mk by lia; [|reflexivity]. now replace k with 0%nat by lia. }
    assert (W : exists w, weights_of N m0 = Ok w). { unfold weights_of, assign_shape, m0. cbn [mexp mmap1 mk mr mc]. rewrite !Nat.eqb_refl. cbn [andb orb rbind]. eauto. }
    destruct W as (w & W). assert (Ew : map (fun v => ndiv v (nsum ws)) ws = w).
    { pose proof W as W'. apply weights_of_ok in W'. destruct W' as (_ & W'). cbv zeta in W'. subst w. replace ws with (map (fun k => nexp (bget m0 0 k)) (seq 0 N)); [reflexivity|]. unfold ws. apply map_ext_in. intros k Hk. apply in_seq in Hk. change (fexp (elem m0 0 k) = fexp (e k)). f_equal. apply Hel. lia. }
    rewrite Ew. clear Ew. assert (Hmap : map (fun n => fexp (elem m0 0 n)) (seq 0 N) = ws) by (apply map_ext_in; intros k Hk; apply in_seq in Hk; now rewrite Hel by lia).
    split; [now apply (w_len fexp fsin fcos fsum N m0)|]. split; [|split].
    - intro Hn. destruct (C80_weights fexp fsin fcos fsum N m0 w Hs He HN ltac:(lra) W ltac:(intros; rewrite Hel; auto)) as (s & T & _ & [(_ & _ & A & B) | [(A & B) | (A & B)]]).
      + left. auto.
      + right. left. split; [|exact B]. intros n H. specialize (A n H). change (finite (fexp (elem m0 0 n)) /\ B2R (fexp (elem m0 0 n)) = 0) in A. now rewrite Hel in A by auto.
      + right. right. subst s. change (tree_sum (map (fun n => fexp (elem m0 0 n)) (seq 0 N)) dinf) in T. rewrite Hmap in T. split; [exact T|]. intros n H. specialize (B n H). change ((finite (fexp (elem m0 0 n)) -> finite (nth n w dNaN) /\ B2R (nth n w dNaN) = 0) /\ (~ finite (fexp (elem m0 0 n)) -> nth n w (dZ 0) = dNaN)) in B. now rewrite Hel in B by auto.
    - intro H. apply (C80_underflow fexp fsin fcos fsum N m0 w Hs He W). intros. rewrite Hel; auto.
    - intros H n Hn v. pose proof (C80_accuracy fexp fsin fcos fsum N m0 w Hs He HN HB W ltac:(intros; rewrite Hel; auto) n Hn) as A. cbv zeta in A. change (finite (nth n w dNaN) /\ Rabs (B2R (nth n w dNaN) - softmax N (fun m => B2R (elem m0 0 m)) n) <= softmax N (fun m => B2R (elem m0 0 m)) n * ((4 * INR N + 14) * u) + eta) in A.
      replace (softmax N (fun m => B2R (elem m0 0 m)) n) with v in A; [exact A|]. unfold v, softmax. rewrite Hel by auto. f_equal. apply sumn_ext. intros. now rewrite Hel.
  Qed.

  Context {S : Type} (E : Ext double S).
  (** DPFC: the slice at every grid point i >= 1 (in the stochastic mode: except the last one) is obtained from a moved ensemble y through the plan
      of the weights w, whose exponents are the constraint times 0.001 (stochastic mode: the constraint) *)
  Theorem C80_every_step p s o s' : sum_contract fsum -> exp_contract fexp -> construct E p s = (Ok o, s') -> p_reweight p = true ->
    (1 <= p_N p)%nat -> INR (p_N p) <= 1073741824 -> (2 <= List.length (o_grid o))%nat ->
    forall i, (1 <= i)%nat -> (if p_det p then i < List.length (o_grid o) else i < List.length (o_grid o) - 1)%nat ->
      exists y c w cost, mr y = List.length (p_y1 p) /\ mc y = p_N p /\
        (if p_det p then ocall2 (p_U p) y (nth i (o_grid o) (dZ 0)) else ocall1 (p_U p) y) = Ok c /\
        weights_worth fexp (p_N p) (fun n => if p_det p then nmul (elem c 0 n) nmilli else elem c 0 n) w /\
        forall d n, (d < List.length (p_y1 p))%nat -> (n < p_N p)%nat ->
          get3 (o_Z o) d n i = fsum (map (fun m => nmul (get y d m) (nmul (x_emd E w (repeat (ndiv none1 (nofnat (p_N p))) (p_N p)) cost m n) (nofnat (p_N p)))) (seq 0 (p_N p))).
  Proof.
    intros Hs He Hc Hr HN HB Hk i Hi1 Hi2. destruct (construct_consistent E p s o s' Hc) as (_ & (L & _ & HZ & _)). destruct HZ as (_ & _ & Kz & Lz & Fz). rewrite Forall_forall in Fz.
    destruct (Fz (slice (o_Z o) (i - 1))) as (Z1 & Z2 & _). { unfold slice. apply nth_In. destruct (p_det p); lia. }
    assert (G : exists y c, mr y = mr (slice (o_Z o) (i - 1)) /\ mc y = mc (slice (o_Z o) (i - 1)) /\ (if p_det p then ocall2 (p_U p) y (nth i (o_grid o) (dZ 0)) else ocall1 (p_U p) y) = Ok c /\
                  reweighted E (fun n => if p_det p then nmul (elem c 0 n) nmilli else elem c 0 n) y (slice (o_Z o) i)).
    { destruct (p_det p) eqn:Hd.
      - destruct (C06_forward_recurrence E p s o s' Hc Hd ltac:(lia)) as (sg & _ & H). specialize (H i ltac:(lia)). rewrite Hr in H. destruct H as (y & c & _ & My & Cy & _ & HU & HR). exists y, c. auto.
      - destruct (C56_stochastic_recurrence E p s o s' Hc Hd Hk) as (sg & _ & H). specialize (H i ltac:(lia)). rewrite Hr in H. destruct H as (y & c & _ & My & Cy & _ & HU & HR). exists y, c. auto. }
    destruct G as (y & c & My & Cy & HU & HR). unfold reweighted in HR. cbv zeta in HR. destruct HR as (cost & flow & _ & _ & _ & _ & Hf & Hg).
    assert (EN : mc y = p_N p) by lia. rewrite EN in Hf, Hg. exists y, c. eexists. exists cost. split; [lia|]. split; [exact EN|]. split; [exact HU|]. split; [now apply worth|].
    intros d n Hd Hn. unfold get3. rewrite (Hg d n ltac:(lia) Hn), Hf. reflexivity.
  Qed.
  Theorem C80_torch_every_step b p s o s' : sum_contract fsum -> exp_contract fexp -> t_construct E b p s = (Ok o, s') -> p_reweight p = true -> p_y1 p <> [] ->
    (1 <= p_N p)%nat -> INR (p_N p) <= 1073741824 ->
    forall i, (1 <= i < List.length (o_grid o))%nat ->
      exists y c w cost, mr y = List.length (p_y1 p) /\ mc y = p_N p /\
        (if p_det p then ocall2 (p_U p) y (nth i (o_grid o) (dZ 0)) else ocall1 (p_U p) y) = Ok c /\
        weights_worth fexp (p_N p) (fun n => if p_det p then nmul (elem c 0 n) nmilli else elem c 0 n) w /\
        forall d n, (d < List.length (p_y1 p))%nat -> (n < p_N p)%nat ->
          get3 (o_Z o) d n i = fsum (map (fun m => nmul (nmul (nofnat (p_N p)) (get y d m)) (x_otemd E w (repeat (ndiv none1 (nofnat (p_N p))) (p_N p)) cost m n)) (seq 0 (p_N p))).
  Proof.
    intros Hs He Hc Hr Hy HN HB i Hi.
    destruct (t_construct_consistent E b p s o s' Hc Hy) as (_ & (L & _ & HZ & _)). destruct HZ as (_ & _ & Kz & Lz & Fz). rewrite Forall_forall in Fz.
    destruct (Fz (slice (o_Z o) (i - 1))) as (Z1 & Z2 & _). { unfold slice. apply nth_In. destruct (p_det p); lia. }
    assert (G : exists y c, mr y = mr (slice (o_Z o) (i - 1)) /\ mc y = mc (slice (o_Z o) (i - 1)) /\ (if p_det p then ocall2 (p_U p) y (nth i (o_grid o) (dZ 0)) else ocall1 (p_U p) y) = Ok c /\
                  t_reweighted E (fun n => if p_det p then nmul (elem c 0 n) nmilli else elem c 0 n) y (slice (o_Z o) i)).
    { destruct (p_det p) eqn:Hd.
      - destruct (C57_torch_forward_recurrence E b p s o s' Hc Hy Hd) as (sg & _ & H'). specialize (H' i ltac:(lia)). rewrite Hr in H'. destruct H' as (y & c & _ & My & Cy & _ & HU & HR). exists y, c. auto.
      - destruct (C59_torch_stochastic_recurrence E b p s o s' Hc Hy Hd) as (sg & _ & H'). specialize (H' i ltac:(lia)). rewrite Hr in H'. destruct H' as (y & c & _ & My & Cy & _ & HU & HR). exists y, c. auto. }
    destruct G as (y & c & My & Cy & HU & HR). unfold t_reweighted in HR. cbv zeta in HR. destruct HR as (mx & cost & flow & _ & _ & _ & _ & _ & Hf & Hg).
    assert (EN : mc y = p_N p) by lia. rewrite EN in Hf, Hg. exists y, c. eexists. exists cost. split; [lia|]. split; [exact EN|]. split; [exact HU|]. split; [now apply worth|].
    intros d n Hd Hn. unfold get3. rewrite (Hg d n ltac:(lia) Hn), Hf. reflexivity.
  Qed.
End Runs.
