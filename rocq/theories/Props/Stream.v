(** C65: the constructor's result is the one and only solution of its recurrences along one stream of random numbers. *)
From Coq Require Import String List ZArith Lia Bool.
From Verif Require Import Base.Num Base.Py Base.Arr Lib.ArrLemmas Model.Ext Model.Cdist Model.Reweight Model.Score Model.DPFC.
From Verif Require Import Spec.FlowSpec Spec.StreamSpec Lib.FlowLemmas Lib.ScoreLemmas Lib.StepLemmas Lib.RunLemmas Lib.StochLemmas Lib.CoreLemmas.
From Verif Require Import Lib.QueryLemmas Props.Flows.
Import ListNotations.

Section Stream.
  Context {T S : Type} {O : NumOps T} (E : Ext T S).
  Notation mat := (mat T). Notation arr3 := (arr3 T).

  (** ** the step relations are functions of the particles and the generator state *)
  Lemma mat_ext (A B : mat) : wf A -> wf B -> mr A = mr B -> mc A = mc B ->
    (forall i j, i < mr A -> j < mc A -> get A i j = get B i j) -> A = B.
  Proof. intros WA WB R C H. rewrite WA, WB, <- R, <- C. apply mk_ext. exact H. Qed.

  Definition agree (x1 x2 : mat) (d n : nat) : Prop := forall i j, i < d -> j < n -> get x1 i j = get x2 i j.

  Lemma drawn_fun m s bs rows s' rows2 s2 : drawn E m s bs rows s' -> drawn E m s bs rows2 s2 -> rows2 = rows /\ s2 = s'.
  Proof.
    intro H. revert rows2 s2. induction H; intros rows2' s2' H2; inversion H2; subst; [auto|].
    rewrite H in H8. injection H8 as <- <-. apply IHdrawn in H9. destruct H9 as (-> & ->). auto.
  Qed.
  Lemma range_fun (x : mat) d b1 b2 : range_of x d b1 -> range_of x d b2 -> b1 = b2.
  Proof. intros (A & B) (A' & B'). destruct b1, b2; cbn in *. congruence. Qed.
  Lemma common_fun (z b : mat) d r1 r2 : common_range z b d r1 -> common_range z b d r2 -> r1 = r2.
  Proof.
    intros (z1 & b1 & Z1 & B1 & L1 & H1) (z2 & b2 & Z2 & B2 & L2 & H2).
    rewrite (range_fun _ _ _ _ Z1 Z2) in *. rewrite (range_fun _ _ _ _ B1 B2) in *. destruct r1, r2; cbn in *. congruence.
  Qed.
  Lemma bnds_fun (P : nat -> T * T -> Prop) dim (b1 b2 : list (T * T)) : (forall d r1 r2, P d r1 -> P d r2 -> r1 = r2) ->
    List.length b1 = dim -> List.length b2 = dim ->
    (forall d, d < dim -> P d (nth d b1 (nzero, nzero))) -> (forall d, d < dim -> P d (nth d b2 (nzero, nzero))) -> b1 = b2.
  Proof. intros F L1 L2 H1 H2. apply (nth_ext _ _ (nzero, nzero) (nzero, nzero)); [lia|]. intros d Hd. apply (F d); [apply H1|apply H2]; lia. Qed.

  Lemma noisy_fun h g fd t (x x1 x2 : mat) s s1 s2 : noisy_step E h g fd t x x1 s s1 -> noisy_step E h g fd t x x2 s s2 ->
    s1 = s2 /\ agree x1 x2 (mr x) (mc x).
  Proof.
    intros (F1 & W1 & HF1 & HW1 & H1) (F2 & W2 & HF2 & HW2 & H2). rewrite HF1 in HF2. injection HF2 as <-.
    rewrite HW1 in HW2. injection HW2 as <- <-. split; [auto|]. intros i j Hi Hj. now rewrite H1, H2.
  Qed.
  Lemma flow_fun h kern m g fd t (x x1 x2 : mat) s s1 s2 :
    flow_step E h kern m g fd t x x1 s s1 -> flow_step E h kern m g fd t x x2 s s2 -> s1 = s2 /\ agree x1 x2 (mr x) (mc x).
  Proof.
    intros (F1 & b1 & r1 & c1 & HF1 & L1 & B1 & D1 & S1 & H1) (F2 & b2 & r2 & c2 & HF2 & L2 & B2 & D2 & S2 & H2).
    rewrite HF1 in HF2. injection HF2 as <-.
    assert (b2 = b1) as ->. { apply (bnds_fun (range_of x) (mr x)); auto. apply range_fun. }
    destruct (drawn_fun _ _ _ _ _ _ _ D1 D2) as (-> & ->). split; [auto|]. intros i j Hi Hj. rewrite H1, H2 by auto.
    destruct (S1 i Hi) as (Q1 & _), (S2 i Hi) as (Q2 & _). rewrite Q1 in Q2. injection Q2 as ->. reflexivity.
  Qed.
  Lemma plain_fun h kern m g fd i t (x x1 x2 : mat) s s1 s2 :
    plain_step E h kern m g fd i t x x1 s s1 -> plain_step E h kern m g fd i t x x2 s s2 -> s1 = s2 /\ agree x1 x2 (mr x) (mc x).
  Proof. unfold plain_step. destruct (i =? 1); [apply noisy_fun|apply flow_fun]. Qed.
  Lemma reweighted_fun e1 e2 (y x1 x2 : mat) : (forall n, n < mc y -> e1 n = e2 n) ->
    reweighted E e1 y x1 -> reweighted E e2 y x2 -> agree x1 x2 (mr y) (mc y).
  Proof.
    intros He (c1 & f1 & W1 & R1 & C1 & K1 & -> & H1) (c2 & f2 & W2 & R2 & C2 & K2 & -> & H2).
    assert (c2 = c1) as ->.
    { apply mat_ext; try (apply rect_wf; assumption); try lia. rewrite R2, C2. intros i j Hi Hj. now rewrite K1, K2. }
    assert (EE : map (fun n => nexp (e2 n)) (seq 0 (mc y)) = map (fun n => nexp (e1 n)) (seq 0 (mc y))).
    { apply map_seq_ext. intros n Hn. now rewrite He. }
    intros i j Hi Hj. rewrite H1, H2 by auto. now rewrite EE.
  Qed.
  Lemma weighted_fun h kern m g fd U i t (x x1 x2 : mat) s s1 s2 :
    weighted_step E h kern m g fd U i t x x1 s s1 -> weighted_step E h kern m g fd U i t x x2 s s2 -> s1 = s2 /\ agree x1 x2 (mr x) (mc x).
  Proof.
    intros (y1 & u1 & W1 & R1 & C1 & P1 & U1 & H1) (y2 & u2 & W2 & R2 & C2 & P2 & U2 & H2).
    destruct (plain_fun _ _ _ _ _ _ _ _ _ _ _ _ _ P1 P2) as (-> & A). split; [auto|].
    assert (y2 = y1) as ->.
    { apply mat_ext; try (apply rect_wf; assumption); try lia. intros a b Ha Hb. symmetry. apply A; lia. }
    rewrite U1 in U2. injection U2 as <-. rewrite <- R1, <- C1. apply (reweighted_fun _ _ _ _ _ (fun _ _ => eq_refl) H1 H2).
  Qed.
  Lemma score_at_fun kern m (z b : mat) dim n c1 c2 s s1 s2 : score_of_at E kern m z b dim n c1 s s1 -> score_of_at E kern m z b dim n c2 s s2 ->
    s1 = s2 /\ forall d, d < dim -> c1 d = c2 d.
  Proof.
    intros (b1 & r1 & L1 & B1 & D1 & S1) (b2 & r2 & L2 & B2 & D2 & S2).
    assert (b2 = b1) as ->. { apply (bnds_fun (common_range z b) dim); auto. apply common_fun. }
    destruct (drawn_fun _ _ _ _ _ _ _ D1 D2) as (-> & ->). split; [auto|]. intros d Hd.
    destruct (S1 d Hd) as (_ & f1 & Q1 & V1), (S2 d Hd) as (_ & f2 & Q2 & V2). rewrite Q1 in Q2. injection Q2 as <-. congruence.
  Qed.
  Lemma score_self_fun kern m (z b : mat) dim n c1 c2 s s1 s2 : score_of_self E kern m z b dim n c1 s s1 -> score_of_self E kern m z b dim n c2 s s2 ->
    s1 = s2 /\ forall d, d < dim -> c1 d = c2 d.
  Proof.
    intros (b1 & r1 & L1 & B1 & D1 & S1) (b2 & r2 & L2 & B2 & D2 & S2).
    assert (b2 = b1) as ->. { apply (bnds_fun (common_range z b) dim); auto. apply common_fun. }
    destruct (drawn_fun _ _ _ _ _ _ _ D1 D2) as (-> & ->). split; [auto|]. intros d Hd.
    destruct (S1 d Hd) as (_ & Q1), (S2 d Hd) as (_ & Q2). congruence.
  Qed.
  Lemma back_fun noisy h kern m g fd t (z b x1 x2 : mat) s s1 s2 :
    back_step E noisy h kern m g fd t z b x1 s s1 -> back_step E noisy h kern m g fd t z b x2 s s2 -> s1 = s2 /\ agree x1 x2 (mr b) (mc b).
  Proof.
    unfold back_step. destruct noisy.
    - intros (F1 & W1 & c1 & q1 & S1 & HF1 & N1 & H1) (F2 & W2 & c2 & q2 & S2 & HF2 & N2 & H2).
      destruct (score_at_fun _ _ _ _ _ _ _ _ _ _ _ S1 S2) as (-> & Hc). rewrite HF1 in HF2. injection HF2 as <-.
      rewrite N1 in N2. injection N2 as <- <-. split; [auto|]. intros i j Hi Hj. rewrite H1, H2, Hc by auto. reflexivity.
    - intros (F1 & c1 & e1 & q1 & S1 & V1 & HF1 & H1) (F2 & c2 & e2 & q2 & S2 & V2 & HF2 & H2).
      destruct (score_at_fun _ _ _ _ _ _ _ _ _ _ _ S1 S2) as (-> & Hc).
      destruct (score_self_fun _ _ _ _ _ _ _ _ _ _ _ V1 V2) as (-> & He). rewrite HF1 in HF2. injection HF2 as <-.
      split; [auto|]. intros i j Hi Hj. rewrite H1, H2, Hc, He by auto. reflexivity.
  Qed.
  Lemma particle_fun h g f (x x1 x2 : mat) s s1 s2 : particle_step E h g f x x1 s s1 -> particle_step E h g f x x2 s s2 ->
    s1 = s2 /\ agree x1 x2 (mr x) (mc x).
  Proof.
    intros (g1 & A1 & Z1 & H1) (g2 & A2 & Z2 & H2).
    assert (G : forall n, n <= mc x -> g1 n = g2 n).
    { induction n as [|n IH]; [congruence|]. intro Hn. specialize (IH ltac:(lia)).
      destruct (H1 n ltac:(lia)) as (F1 & W1 & _ & N1 & _), (H2 n ltac:(lia)) as (F2 & W2 & _ & N2 & _).
      rewrite IH, N2 in N1. congruence. }
    split. { rewrite <- Z1, <- Z2. apply G. lia. }
    intros d n Hd Hn. destruct (H1 n Hn) as (F1 & W1 & V1 & N1 & G1), (H2 n Hn) as (F2 & W2 & V2 & N2 & G2).
    rewrite G in N1 by lia. rewrite N2 in N1. injection N1 as -> _. rewrite V1 in V2. injection V2 as ->. now rewrite G1, G2.
  Qed.
  Lemma weighted_particle_fun h g f U (x x1 x2 : mat) s s1 s2 :
    weighted_particle_step E h g f U x x1 s s1 -> weighted_particle_step E h g f U x x2 s s2 -> s1 = s2 /\ agree x1 x2 (mr x) (mc x).
  Proof.
    intros (y1 & u1 & W1 & R1 & C1 & P1 & U1 & H1) (y2 & u2 & W2 & R2 & C2 & P2 & U2 & H2).
    destruct (particle_fun _ _ _ _ _ _ _ _ _ P1 P2) as (-> & A). split; [auto|].
    assert (y2 = y1) as ->.
    { apply mat_ext; try (apply rect_wf; assumption); try lia. intros a b Ha Hb. symmetry. apply A; lia. }
    rewrite U1 in U2. injection U2 as <-. rewrite <- R1, <- C1. apply (reweighted_fun _ _ _ _ _ (fun _ _ => eq_refl) H1 H2).
  Qed.

  (** ** chains of steps *)
  Lemma slice_eq (A B : arr3) d n k t u : sh A d n k -> sh B d n k -> t < k -> u < k ->
    (forall i j, i < d -> j < n -> get (slice A t) i j = get (slice B u) i j) -> slice A t = slice B u.
  Proof.
    intros HA HB Ht Hu H. destruct (sh_slice _ _ _ _ _ HA Ht) as (WA & RA & CA), (sh_slice _ _ _ _ _ HB Hu) as (WB & RB & CB).
    apply mat_ext; auto; try lia. rewrite RA, CA. exact H.
  Qed.

  Lemma chain_up (A B : arr3) d n k (R : nat -> mat -> mat -> S -> S -> Prop) sa sb : sh A d n k -> sh B d n k ->
    (forall i x x1 x2 s s1 s2, 1 <= i < k -> R i x x1 s s1 -> R i x x2 s s2 -> s1 = s2 /\ agree x1 x2 (mr x) (mc x)) ->
    slice A 0 = slice B 0 -> sa 0 = sb 0 ->
    (forall i, 1 <= i < k -> R i (slice A (i-1)) (slice A i) (sa (i-1)) (sa i)) ->
    (forall i, 1 <= i < k -> R i (slice B (i-1)) (slice B i) (sb (i-1)) (sb i)) ->
    forall i, i < k -> slice A i = slice B i /\ sa i = sb i.
  Proof.
    intros HA HB HR H0 S0 Ra Rb. induction i as [|i IH]; [auto|]. intro Hi. destruct IH as (Es & Et); [lia|].
    specialize (Ra (Datatypes.S i) ltac:(lia)). specialize (Rb (Datatypes.S i) ltac:(lia)).
    replace (Datatypes.S i - 1) with i in Ra, Rb by lia. rewrite <- Es, <- Et in Rb.
    destruct (HR (Datatypes.S i) _ _ _ _ _ _ ltac:(lia) Ra Rb) as (Q & G). split; [|auto].
    destruct (sh_slice _ _ _ _ i HA ltac:(lia)) as (_ & R' & C'). rewrite R', C' in G.
    apply (slice_eq _ _ d n k); auto.
  Qed.

  Lemma all_at_slice (A B : arr3) d n k t y : sh A d n k -> sh B d n k -> t < k -> all_at A t y -> all_at B t y -> slice A t = slice B t.
  Proof.
    intros HA HB Ht H1 H2. apply (slice_eq _ _ d n k); auto. intros i j Hi Hj.
    pose proof HA as (_ & DA & NA & _). pose proof HB as (_ & DB & NB & _).
    specialize (H1 i j). specialize (H2 i j). unfold get3 in *. rewrite H1, H2 by lia. auto.
  Qed.

  Section Unique.
    Variables (p : params T) (kern : string) (grid : list T).
    Let k := List.length grid.
    Hypothesis (Hk : 2 <= k).

    Lemma forward_unique Z1 Z2 s s1 s2 : forward_history E p kern grid Z1 s s1 -> forward_history E p kern grid Z2 s s2 -> Z1 = Z2 /\ s1 = s2.
    Proof.
      intros (A1 & P1 & g1 & a1 & b1 & H1) (A2 & P2 & g2 & a2 & b2 & H2). apply has_shape_sh in A1, A2. change (List.length grid) with k in A1, A2, b1, b2, H1, H2.
      assert (Q : forall i, i < k -> slice Z1 i = slice Z2 i /\ g1 i = g2 i).
      { apply (chain_up Z1 Z2 _ _ _ (fun i => if p_reweight p
         then weighted_step E nmilli kern (p_M p) (p_g p) (call2 (p_f p)) (ocall2 (p_U p)) i (nth i grid nzero)
         else plain_step E nmilli kern (p_M p) (p_g p) (call2 (p_f p)) i (nth i grid nzero)) g1 g2 A1 A2); auto.
        - intros i x x1 x2 s3 s4 s5 _. destruct (p_reweight p); [apply weighted_fun|apply plain_fun].
        - apply (all_at_slice _ _ _ _ _ 0 _ A1 A2 ltac:(lia) P1 P2).
        - congruence. }
      split. { apply (arr3_ext _ _ _ _ _ A1 A2). intros t Ht. now apply Q. }
      rewrite <- b1, <- b2. apply Q. lia.
    Qed.
    Lemma reference_unique Z1 Z2 s s1 s2 : reference_history E p kern grid Z1 s s1 -> reference_history E p kern grid Z2 s s2 -> Z1 = Z2 /\ s1 = s2.
    Proof.
      intros (A1 & P1 & g1 & a1 & b1 & H1) (A2 & P2 & g2 & a2 & b2 & H2). apply has_shape_sh in A1, A2. change (List.length grid) with k in A1, A2, b1, b2, H1, H2.
      assert (Q : forall i, i < k -> slice Z1 i = slice Z2 i /\ g1 i = g2 i).
      { apply (chain_up Z1 Z2 _ _ _ (fun i => plain_step E nmilli kern (p_M p) (p_g p) (ocall2 (p_f_true p)) i (nth i grid nzero)) g1 g2 A1 A2); auto.
        - intros i x x1 x2 s3 s4 s5 _. apply plain_fun.
        - apply (all_at_slice _ _ _ _ _ 0 _ A1 A2 ltac:(lia) P1 P2).
        - congruence. }
      split. { apply (arr3_ext _ _ _ _ _ A1 A2). intros t Ht. now apply Q. }
      rewrite <- b1, <- b2. apply Q. lia.
    Qed.
    Lemma stochastic_unique Z1 Z2 s s1 s2 : stochastic_history E p grid Z1 s s1 -> stochastic_history E p grid Z2 s s2 -> Z1 = Z2 /\ s1 = s2.
    Proof.
      intros (A1 & P1 & I1 & Y1 & g1 & a1 & b1 & E1 & H1) (A2 & P2 & I2 & Y2 & g2 & a2 & b2 & E2 & H2). apply has_shape_sh in A1, A2. change (List.length grid) with k in A1, A2, b1, b2, H1, H2.
      set (R := if p_reweight p then weighted_particle_step E nmilli (p_g p) (call1 (p_f p)) (ocall1 (p_U p))
         else particle_step E nmilli (p_g p) (call1 (p_f p))) in *.
      assert (RF : forall x x1 x2 s s1 s2, R x x1 s s1 -> R x x2 s s2 -> s1 = s2 /\ agree x1 x2 (mr x) (mc x)).
      { intros x x1 x2 s3 s4 s5. unfold R. destruct (p_reweight p); [apply weighted_particle_fun|apply particle_fun]. }
      assert (Q : forall i, i < k - 1 -> slice Z1 i = slice Z2 i /\ g1 i = g2 i).
      { induction i as [|i IH]; intro Hi.
        - split; [|congruence]. apply (slice_eq _ _ _ _ _ _ _ A1 A2); try lia. intros a b Ha Hb.
          pose proof A1 as (_ & DA & NA & _). pose proof A2 as (_ & DB & NB & _).
          specialize (I1 a b). specialize (I2 a b). unfold get3 in *. rewrite I1, I2 by lia. auto.
        - destruct IH as (Es & Et); [lia|].
          specialize (H1 (Datatypes.S i) ltac:(lia)). specialize (H2 (Datatypes.S i) ltac:(lia)).
          replace (Datatypes.S i - 1) with i in H1, H2 by lia. rewrite !E1 in H1 by lia. rewrite !E2 in H2 by lia. rewrite <- Es, <- Et in H2.
          destruct (RF _ _ _ _ _ _ H1 H2) as (Qs & G). split; [|auto].
          destruct (sh_slice _ _ _ _ i A1 ltac:(lia)) as (_ & R' & C'). rewrite R', C' in G.
          apply (slice_eq _ _ _ _ _ _ _ A1 A2); auto; lia. }
      split.
      - apply (arr3_ext _ _ _ _ _ A1 A2). intros t Ht. destruct (Nat.eq_dec t (k-1)) as [->|]; [|apply Q; lia].
        apply (all_at_slice _ _ _ _ _ _ _ A1 A2 Ht P1 P2).
      - specialize (H1 (k-1) ltac:(lia)). specialize (H2 (k-1) ltac:(lia)). rewrite E1 in H1 by lia. rewrite E2 in H2 by lia.
        destruct (Q (k-1-1) ltac:(lia)) as (Es & Et). rewrite <- Es, <- Et in H2.
        destruct (RF _ _ _ _ _ _ H1 H2) as (Qs & _). congruence.
    Qed.
    Lemma backward_unique Z B1 B2 s s1 s2 : backward_history E p kern grid Z B1 s s1 -> backward_history E p kern grid Z B2 s s2 -> B1 = B2 /\ s1 = s2.
    Proof.
      intros (A1 & P1 & L1 & g1 & a1 & b1 & H1) (A2 & P2 & L2 & g2 & a2 & b2 & H2). apply has_shape_sh in A1, A2. change (List.length grid) with k in A1, A2, b1, b2, H1, H2.
      assert (Q : forall i, i + 1 < k -> slice B1 (k - 1 - i) = slice B2 (k - 1 - i) /\ g1 (k - 1 - i) = g2 (k - 1 - i)).
      { induction i as [|i IH]; intro Hi.
        - rewrite Nat.sub_0_r. split. { apply (all_at_slice _ _ _ _ _ (k-1) _ A1 A2 ltac:(lia) L1 L2). } { exact (eq_trans a1 (eq_sym a2)). }
        - destruct IH as (Es & Et); [lia|]. set (j := k - 1 - Datatypes.S i) in *. replace (k - 1 - i) with (j + 1) in * by (unfold j; lia).
          specialize (H1 j ltac:(unfold j; lia) ltac:(unfold j; lia)). specialize (H2 j ltac:(unfold j; lia) ltac:(unfold j; lia)).
          rewrite <- Es, <- Et in H2. destruct (back_fun _ _ _ _ _ _ _ _ _ _ _ _ _ _ H1 H2) as (Qs & G). split; [|auto].
          destruct (sh_slice _ _ _ _ (j+1) A1 ltac:(unfold j; lia)) as (_ & R' & C'). rewrite R', C' in G.
          apply (slice_eq _ _ _ _ _ _ _ A1 A2); auto; unfold j; lia. }
      split.
      - apply (arr3_ext _ _ _ _ _ A1 A2). intros t Ht. destruct (Nat.eq_dec t 0) as [->|].
        + apply (all_at_slice _ _ _ _ _ _ _ A1 A2 Ht P1 P2).
        + destruct (Q (k-1-t) ltac:(lia)) as (Es & _). replace (k - 1 - (k-1-t)) with t in Es by lia. auto.
      - rewrite <- b1, <- b2. destruct (Q (k-2) ltac:(lia)) as (_ & Et). replace (k-1-(k-2)) with 1 in Et by lia. auto.
    Qed.
  End Unique.

  Lemma all_at_mk (A : arr3) d n k t y : sh A d n k -> t < k -> slice A t = mk d n (fun a _ => nth a y nzero) -> all_at A t y.
  Proof.
    intros HA Ht H i j Hi Hj. pose proof HA as (_ & DA & NA & _). unfold get3. rewrite H, get_mk by lia. reflexivity.
  Qed.

  (** ** C65: one stream of random numbers runs through the forward, the reference and the backward flow *)
  Theorem C65_one_stream p s o s' : construct E p s = (Ok o, s') -> 2 <= List.length (o_grid o) ->
    history E p (o_kern o) (o_grid o) (o_Z o) (o_Ztr o) (o_B o) s s'.
  Proof.
    intros Hc Hk. destruct (construct_ok E p s o s' Hc) as (_ & Ek & Eg & s1 & s2 & HZ & HB). rewrite <- Ek, <- Eg in *.
    exists s1, s2.
    assert (SZ : sh (o_Z o) (List.length (p_y1 p)) (p_N p) (List.length (o_grid o))).
    { destruct (p_det p); destruct HZ as (HZ & _); [apply otto_run in HZ|apply stoch_run in HZ]; try lia; apply HZ. }
    split; [|split].
    - destruct (p_det p).
      + destruct HZ as (HZ & _). apply otto_run in HZ; [|lia]. destruct HZ as (_ & _ & I & sg & g0 & g1 & H).
        split; [now apply sh_has_shape|]. split.
        { apply (all_at_mk _ _ _ _ _ _ SZ); [lia|]. rewrite I. destruct (Nat.eqb_spec (List.length (o_grid o)) 1); [lia|].
          now rewrite andb_false_r. }
        exists sg. split; [auto|]. split; [auto|]. intros i Hi. specialize (H i Hi). unfold otto_step in H. now destruct (p_reweight p).
      + destruct HZ as (HZ & _). apply stoch_run in HZ; [|lia]. destruct HZ as (_ & _ & _ & L & I & Y & sg & g0 & g1 & EY & H).
        split; [now apply sh_has_shape|]. split. { apply (all_at_mk _ _ _ _ (List.length (o_grid o) - 1) _ SZ ltac:(lia) L). } split.
        { intros d n Hd Hn. destruct SZ as (_ & DZ & NZ & _). unfold get3. rewrite I, get_mk by lia. reflexivity. }
        exists Y, sg. split; [auto|]. split; [auto|]. split. { intros t Ht. symmetry. auto. }
        intros i Hi. specialize (H i Hi). unfold stoch_step in H. now destruct (p_reweight p).
    - destruct (p_det p).
      + destruct HZ as (_ & HZ). destruct (p_reweight p && p_brown p).
        * destruct HZ as (Zt & -> & HZ). split; [auto|]. apply otto_true_run in HZ; [|lia]. destruct HZ as (ST & I & sg & g0 & g1 & H).
          split; [now apply sh_has_shape|]. split. { apply (all_at_mk _ _ _ _ 0 _ ST ltac:(lia) I). }
          exists sg. split; [auto|]. split; [auto|]. exact H.
        * destruct HZ as (-> & ->). auto.
      + destruct HZ as (_ & -> & ->). destruct (p_reweight p && p_brown p); [|auto]. split; [auto|].
        split; [apply sh_has_shape, sh_zeros|]. split; [|auto]. intros t Ht d n Hd Hn. unfold get3. rewrite slice_zeros.
        cbn in Hd, Hn. unfold mzeros, mconst. rewrite get_mk by auto. symmetry.
        exact (map_nth (fun _ => nzero) (p_y1 p) nzero d).
    - destruct (bw_run E p _ _ _ _ _ _ SZ HB) as (SB & I & _ & L & sg & g0 & g1 & H).
      split; [now apply sh_has_shape|]. split. { apply (all_at_mk _ _ _ _ _ _ SB); [lia|]. apply I. lia. } split.
      { apply (all_at_mk _ _ _ _ _ _ SB); [lia|]. apply L. lia. }
      exists sg. split; [auto|]. split; [auto|]. exact H.
  Qed.

  (** and the recurrences together with the initial generator state leave no freedom: the constructor's result is
      their only solution *)
  Theorem C65_determined p kern grid Z Ztr B s s' Z2 Ztr2 B2 s2 : 2 <= List.length grid ->
    history E p kern grid Z Ztr B s s' -> history E p kern grid Z2 Ztr2 B2 s s2 ->
    Z2 = Z /\ Ztr2 = Ztr /\ B2 = B /\ s2 = s'.
  Proof.
    intros Hk (a & b & F1 & R1 & B1) (c & d & F2 & R2 & Bb).
    assert (Q : Z2 = Z /\ c = a).
    { destruct (p_det p); [eapply forward_unique|eapply stochastic_unique]; eauto. }
    destruct Q as (-> & ->).
    assert (Q : Ztr2 = Ztr /\ d = b).
    { destruct Ztr as [Zt|], Ztr2 as [Zt2|]; destruct R1 as (e1 & R1), R2 as (e2 & R2); try congruence.
      - destruct (p_det p).
        + destruct (reference_unique p kern grid Hk _ _ _ _ _ R1 R2) as (-> & ->). auto.
        + destruct R1 as (S1 & H1 & ->), R2 as (S2 & H2 & ->). split; [|auto]. f_equal. apply has_shape_sh in S1, S2.
          apply (arr3_ext _ _ _ _ _ S2 S1). intros t Ht. apply (all_at_slice _ _ _ _ _ _ _ S2 S1 Ht (H2 t Ht) (H1 t Ht)).
      - split; congruence. }
    destruct Q as (-> & ->).
    destruct (backward_unique p kern grid Hk _ _ _ _ _ _ B1 Bb) as (-> & ->). auto.
  Qed.

  Corollary C65_only_solution p s o s' Z Ztr B s2 : construct E p s = (Ok o, s') -> 2 <= List.length (o_grid o) ->
    history E p (o_kern o) (o_grid o) Z Ztr B s s2 -> Z = o_Z o /\ Ztr = o_Ztr o /\ B = o_B o /\ s2 = s'.
  Proof. intros Hc Hk H. apply (C65_determined _ _ _ _ _ _ _ _ _ _ _ _ Hk (C65_one_stream p s o s' Hc Hk) H). Qed.
End Stream.

From Verif Require Import Run.Toy.
(** a reweighted bridge and a stochastic run whose whole history is the (unique) solution *)
Example C65_toy : exists o s', construct ToyExt toy_bridge 7%Z = (Ok o, s') /\ List.length (o_grid o) = 5 /\
  history ToyExt toy_bridge (o_kern o) (o_grid o) (o_Z o) (o_Ztr o) (o_B o) 7%Z s'.
Proof.
  destruct (okrun_run _ _ toy_bridge_runs) as (o & s' & H & L). exists o, s'. split; [auto|]. split; [auto|].
  apply C65_one_stream; [auto|lia].
Qed.
Example C65_toy_stochastic : exists o s', construct ToyExt toy_rw_stoch 7%Z = (Ok o, s') /\ List.length (o_grid o) = 5 /\
  history ToyExt toy_rw_stoch (o_kern o) (o_grid o) (o_Z o) (o_Ztr o) (o_B o) 7%Z s'.
Proof.
  destruct (okrun_run _ _ toy_rw_stoch_runs) as (o & s' & H & L). exists o, s'. split; [auto|]. split; [auto|].
  apply C65_one_stream; [auto|lia].
Qed.
