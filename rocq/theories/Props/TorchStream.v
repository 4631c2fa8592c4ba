(** C65: the torch constructor's result (no bridge) is the only solution of its recurrences along one random stream. *)
From Coq Require Import String List ZArith Lia Bool.
From Verif Require Import Base.Num Base.Py Base.Arr Lib.ArrLemmas Model.Ext Model.Cdist Model.Reweight Model.Score Model.DPFC.
From Verif Require Import Spec.FlowSpec Spec.StreamSpec Lib.FlowLemmas Lib.ScoreLemmas Lib.StepLemmas Lib.RunLemmas Lib.StochLemmas Lib.CoreLemmas.
From Verif Require Import Model.ScoreTorch Model.TDPFC Spec.TorchSpec Lib.TorchLemmas Lib.QueryLemmas Props.Flows Props.Stream Props.Torch Run.Toy.
Import ListNotations.

Section TStream.
  Context {T S : Type} {O : NumOps T} (E : Ext T S).
  Notation mat := (mat T). Notation arr3 := (arr3 T).

  Lemma tdrawn_fun m s bs P1 s1 P2 s2 : tdrawn E m s bs P1 s1 -> tdrawn E m s bs P2 s2 -> P1 = P2 /\ s1 = s2.
  Proof. intros (_ & h1 & H1 & ->) (_ & h2 & H2 & ->). rewrite H1 in H2. injection H2 as <- <-. auto. Qed.
  Lemma union_fun (z b : mat) d r1 r2 : union_range z b d r1 -> union_range z b d r2 -> r1 = r2.
  Proof.
    intros (z1 & b1 & Z1 & B1 & L1 & H1) (z2 & b2 & Z2 & B2 & L2 & H2).
    rewrite (range_fun _ _ _ _ Z1 Z2) in *. rewrite (range_fun _ _ _ _ B1 B2) in *. destruct r1, r2; cbn in *. congruence.
  Qed.
  Lemma dens_fun (z b : mat) d r1 r2 : dens_range z b d r1 -> dens_range z b d r2 -> r1 = r2.
  Proof.
    intros (b1 & B1 & H1) (b2 & B2 & H2). rewrite (range_fun _ _ _ _ B1 B2) in *.
    destruct (neqb (fst b2) (snd b2)); [eapply range_fun|eapply union_fun]; eauto.
  Qed.
  Lemma t_flow_fun h m g fd t (x x1 x2 : mat) s s1 s2 :
    t_flow_step E h m g fd t x x1 s s1 -> t_flow_step E h m g fd t x x2 s s2 -> s1 = s2 /\ agree x1 x2 (mr x) (mc x).
  Proof.
    intros (F1 & b1 & r1 & c1 & HF1 & L1 & B1 & D1 & S1 & _ & _ & H1) (F2 & b2 & r2 & c2 & HF2 & L2 & B2 & D2 & S2 & _ & _ & H2).
    rewrite HF1 in HF2. injection HF2 as <-.
    assert (b2 = b1) as ->. { apply (bnds_fun (range_of x) (mr x)); auto. apply range_fun. }
    destruct (tdrawn_fun _ _ _ _ _ _ _ D1 D2) as (-> & ->). split; [auto|]. rewrite S1 in S2. injection S2 as <-.
    intros i j Hi Hj. now rewrite H1, H2.
  Qed.
  Lemma t_plain_fun h m g fd i t (x x1 x2 : mat) s s1 s2 :
    t_plain_step E h m g fd i t x x1 s s1 -> t_plain_step E h m g fd i t x x2 s s2 -> s1 = s2 /\ agree x1 x2 (mr x) (mc x).
  Proof. unfold t_plain_step. destruct (i =? 1); [apply noisy_fun|apply t_flow_fun]. Qed.
  Lemma t_reweighted_fun e (y x1 x2 : mat) : t_reweighted E e y x1 -> t_reweighted E e y x2 -> agree x1 x2 (mr y) (mc y).
  Proof.
    intros (m1 & c1 & f1 & M1 & W1 & R1 & C1 & K1 & -> & H1) (m2 & c2 & f2 & M2 & W2 & R2 & C2 & K2 & -> & H2).
    rewrite M1 in M2. injection M2 as <-.
    assert (c2 = c1) as ->.
    { apply mat_ext; try (apply rect_wf; assumption); try lia. rewrite R2, C2. intros i j Hi Hj. now rewrite K1, K2. }
    intros i j Hi Hj. now rewrite H1, H2.
  Qed.
  Lemma t_weighted_fun h m g fd U i t (x x1 x2 : mat) s s1 s2 :
    t_weighted_step E h m g fd U i t x x1 s s1 -> t_weighted_step E h m g fd U i t x x2 s s2 -> s1 = s2 /\ agree x1 x2 (mr x) (mc x).
  Proof.
    intros (y1 & u1 & W1 & R1 & C1 & P1 & U1 & H1) (y2 & u2 & W2 & R2 & C2 & P2 & U2 & H2).
    destruct (t_plain_fun _ _ _ _ _ _ _ _ _ _ _ _ P1 P2) as (-> & A). split; [auto|].
    assert (y2 = y1) as ->.
    { apply mat_ext; try (apply rect_wf; assumption); try lia. intros a b Ha Hb. symmetry. apply A; lia. }
    rewrite U1 in U2. injection U2 as <-. rewrite <- R1, <- C1. apply (t_reweighted_fun _ _ _ _ H1 H2).
  Qed.
  Lemma t_stoch_weighted_fun h g fd U t (x x1 x2 : mat) s s1 s2 :
    t_stoch_weighted_step E h g fd U t x x1 s s1 -> t_stoch_weighted_step E h g fd U t x x2 s s2 -> s1 = s2 /\ agree x1 x2 (mr x) (mc x).
  Proof.
    intros (y1 & u1 & W1 & R1 & C1 & P1 & U1 & H1) (y2 & u2 & W2 & R2 & C2 & P2 & U2 & H2).
    destruct (noisy_fun _ _ _ _ _ _ _ _ _ _ _ P1 P2) as (-> & A). split; [auto|].
    assert (y2 = y1) as ->.
    { apply mat_ext; try (apply rect_wf; assumption); try lia. intros a b Ha Hb. symmetry. apply A; lia. }
    rewrite U1 in U2. injection U2 as <-. rewrite <- R1, <- C1. apply (t_reweighted_fun _ _ _ _ H1 H2).
  Qed.
  Lemma t_score_at_fun kern m (z b G1 G2 : mat) s s1 s2 : t_score_of_at E kern m z b G1 s s1 -> t_score_of_at E kern m z b G2 s s2 -> s1 = s2 /\ G1 = G2.
  Proof.
    intros (b1 & r1 & f1 & L1 & B1 & D1 & S1 & V1 & _) (b2 & r2 & f2 & L2 & B2 & D2 & S2 & V2 & _).
    assert (b2 = b1) as ->. { apply (bnds_fun (dens_range z b) (mr b)); auto. apply dens_fun. }
    destruct (tdrawn_fun _ _ _ _ _ _ _ D1 D2) as (-> & ->). rewrite S1 in S2. injection S2 as <-. split; congruence.
  Qed.
  Lemma t_score_self_fun kern m (z b G1 G2 : mat) s s1 s2 : t_score_of_self E kern m z b G1 s s1 -> t_score_of_self E kern m z b G2 s s2 -> s1 = s2 /\ G1 = G2.
  Proof.
    intros (b1 & r1 & L1 & B1 & D1 & S1 & _) (b2 & r2 & L2 & B2 & D2 & S2 & _).
    assert (b2 = b1) as ->. { apply (bnds_fun (union_range z b) (mr b)); auto. apply union_fun. }
    destruct (tdrawn_fun _ _ _ _ _ _ _ D1 D2) as (-> & ->). split; congruence.
  Qed.
  Lemma t_back_fun noisy h kern m g fd t (z b x1 x2 : mat) s s1 s2 :
    t_back_step E noisy h kern m g fd t z b x1 s s1 -> t_back_step E noisy h kern m g fd t z b x2 s s2 -> s1 = s2 /\ agree x1 x2 (mr b) (mc b).
  Proof.
    unfold t_back_step. destruct noisy.
    - intros (F1 & W1 & c1 & q1 & S1 & HF1 & N1 & H1) (F2 & W2 & c2 & q2 & S2 & HF2 & N2 & H2).
      destruct (t_score_at_fun _ _ _ _ _ _ _ _ _ S1 S2) as (-> & ->). rewrite HF1 in HF2. injection HF2 as <-.
      rewrite N1 in N2. injection N2 as <- <-. split; [auto|]. intros i j Hi Hj. now rewrite H1, H2.
    - intros (F1 & c1 & e1 & q1 & S1 & V1 & HF1 & H1) (F2 & c2 & e2 & q2 & S2 & V2 & HF2 & H2).
      destruct (t_score_at_fun _ _ _ _ _ _ _ _ _ S1 S2) as (-> & ->).
      destruct (t_score_self_fun _ _ _ _ _ _ _ _ _ V1 V2) as (-> & ->). rewrite HF1 in HF2. injection HF2 as <-.
      split; [auto|]. intros i j Hi Hj. now rewrite H1, H2.
  Qed.

  Section Unique.
    Variables (p : params T) (kern : string) (grid : list T).
    Let k := List.length grid.
    Hypothesis (Hk : 2 <= k).

    Lemma t_forward_unique Z1 Z2 s s1 s2 : t_forward_history E p grid Z1 s s1 -> t_forward_history E p grid Z2 s s2 -> Z1 = Z2 /\ s1 = s2.
    Proof.
      intros (A1 & P1 & g1 & a1 & b1 & H1) (A2 & P2 & g2 & a2 & b2 & H2). apply has_shape_sh in A1, A2.
      change (List.length grid) with k in A1, A2, b1, b2, H1, H2.
      assert (Q : forall i, i < k -> slice Z1 i = slice Z2 i /\ g1 i = g2 i).
      { apply (chain_up Z1 Z2 _ _ _ (fun i => if p_reweight p
         then t_weighted_step E nmilli (p_M p) (p_g p) (call2 (p_f p)) (ocall2 (p_U p)) i (nth i grid nzero)
         else t_plain_step E nmilli (p_M p) (p_g p) (call2 (p_f p)) i (nth i grid nzero)) g1 g2 A1 A2); auto.
        - intros i x x1 x2 s3 s4 s5 _. destruct (p_reweight p); [apply t_weighted_fun|apply t_plain_fun].
        - apply (all_at_slice _ _ _ _ _ 0 _ A1 A2 ltac:(lia) P1 P2).
        - congruence. }
      split. { apply (arr3_ext _ _ _ _ _ A1 A2). intros t Ht. now apply Q. }
      rewrite <- b1, <- b2. apply Q. lia.
    Qed.
    Lemma t_stochastic_unique Z1 Z2 s s1 s2 : t_stochastic_history E p grid Z1 s s1 -> t_stochastic_history E p grid Z2 s s2 -> Z1 = Z2 /\ s1 = s2.
    Proof.
      intros (A1 & P1 & g1 & a1 & b1 & H1) (A2 & P2 & g2 & a2 & b2 & H2). apply has_shape_sh in A1, A2.
      change (List.length grid) with k in A1, A2, b1, b2, H1, H2.
      assert (Q : forall i, i < k -> slice Z1 i = slice Z2 i /\ g1 i = g2 i).
      { apply (chain_up Z1 Z2 _ _ _ (fun i => if p_reweight p then t_stoch_weighted_step E nmilli (p_g p) (call2 (p_f p)) (ocall1 (p_U p)) (nth i grid nzero)
         else noisy_step E nmilli (p_g p) (call2 (p_f p)) (nsub (nth i grid nzero) nmilli)) g1 g2 A1 A2); auto.
        - intros i x x1 x2 s3 s4 s5 _. destruct (p_reweight p); [apply t_stoch_weighted_fun|apply noisy_fun].
        - apply (slice_eq _ _ _ _ _ _ _ A1 A2); try lia. intros a b Ha Hb.
          pose proof A1 as (_ & DA & NA & _). pose proof A2 as (_ & DB & NB & _).
          specialize (P1 a b). specialize (P2 a b). unfold get3 in *. rewrite P1, P2 by lia. auto.
        - congruence. }
      split. { apply (arr3_ext _ _ _ _ _ A1 A2). intros t Ht. now apply Q. }
      rewrite <- b1, <- b2. apply Q. lia.
    Qed.
    Lemma t_backward_unique Z B1 B2 s s1 s2 : t_backward_history E p kern grid Z B1 s s1 -> t_backward_history E p kern grid Z B2 s s2 -> B1 = B2 /\ s1 = s2.
    Proof.
      intros (A1 & P1 & L1 & g1 & a1 & b1 & H1) (A2 & P2 & L2 & g2 & a2 & b2 & H2). apply has_shape_sh in A1, A2.
      change (List.length grid) with k in A1, A2, b1, b2, H1, H2.
      assert (Q : forall i, i + 1 < k -> slice B1 (k - 1 - i) = slice B2 (k - 1 - i) /\ g1 (k - 1 - i) = g2 (k - 1 - i)).
      { induction i as [|i IH]; intro Hi.
        - rewrite Nat.sub_0_r. split. { apply (all_at_slice _ _ _ _ _ (k-1) _ A1 A2 ltac:(lia) L1 L2). } { exact (eq_trans a1 (eq_sym a2)). }
        - destruct IH as (Es & Et); [lia|]. set (j := k - 1 - Datatypes.S i) in *. replace (k - 1 - i) with (j + 1) in * by (unfold j; lia).
          specialize (H1 j ltac:(unfold j; lia) ltac:(unfold j; lia)). specialize (H2 j ltac:(unfold j; lia) ltac:(unfold j; lia)).
          rewrite <- Es, <- Et in H2. destruct (t_back_fun _ _ _ _ _ _ _ _ _ _ _ _ _ _ H1 H2) as (Qs & G). split; [|auto].
          destruct (sh_slice _ _ _ _ (j+1) A1 ltac:(unfold j; lia)) as (_ & R' & C'). rewrite R', C' in G.
          apply (slice_eq _ _ _ _ _ _ _ A1 A2); auto; unfold j; lia. }
      split.
      - apply (arr3_ext _ _ _ _ _ A1 A2). intros t Ht. destruct (Nat.eq_dec t 0) as [->|].
        + apply (all_at_slice _ _ _ _ _ _ _ A1 A2 Ht P1 P2).
        + destruct (Q (k-1-t) ltac:(lia)) as (Es & _). replace (k - 1 - (k-1-t)) with t in Es by lia. auto.
      - rewrite <- b1, <- b2. destruct (Q (k-2) ltac:(lia)) as (_ & Et). replace (k-1-(k-2)) with 1 in Et by lia. auto.
    Qed.
  End Unique.

  Theorem C65_torch_one_stream b p s o s' : t_construct E b p s = (Ok o, s') -> 2 <= List.length (o_grid o) ->
    p_y1 p <> [] -> p_reweight p && p_brown p = false ->
    t_history E p (o_kern o) (o_grid o) (o_Z o) (o_B o) s s' /\ o_Ztr o = None.
  Proof.
    intros Hc Hk Hy Hb.
    destruct (t_construct_ok E b p s o s' Hc) as (_ & _ & Ek & Eg & s1 & s2 & HZ & HBB). rewrite Hb in HZ.
    assert (SZ : sh (o_Z o) (List.length (p_y1 p)) (p_N p) (List.length (o_grid o))).
    { destruct (p_det p); destruct HZ as (HZ & _); [apply t_otto_run in HZ|apply t_stoch_run in HZ]; try lia; apply HZ. }
    rewrite <- Ek in *.
    assert (E12 : o_Ztr o = None /\ s2 = s1) by (destruct (p_det p); tauto). destruct E12 as (ET & ->).
    split; [|auto]. exists s1.
    assert (D1 : 1 <= List.length (p_y1 p)). { destruct (p_y1 p); [congruence|cbn; lia]. }
    split.
    - destruct (p_det p).
      + destruct HZ as (HZ & _). apply t_otto_run in HZ; [|lia]. destruct HZ as (_ & _ & I & sg & g0 & g1 & H).
        split; [now apply sh_has_shape|]. split.
        { apply (all_at_mk _ _ _ _ _ _ SZ); [lia|]. rewrite I. destruct (Nat.eqb_spec (List.length (o_grid o)) 1); [lia|].
          now rewrite andb_false_r. }
        exists sg. split; [auto|]. split; [auto|]. intros i Hi. specialize (H i Hi). unfold t_otto_step in H. now destruct (p_reweight p).
      + destruct HZ as (HZ & _). apply t_stoch_run in HZ; [|lia]. destruct HZ as (_ & _ & I & sg & g0 & g1 & H).
        split; [now apply sh_has_shape|]. split.
        { intros d n Hd Hn. destruct SZ as (_ & DZ & NZ & _). unfold get3. rewrite I, get_mk by lia. reflexivity. }
        exists sg. split; [auto|]. split; [auto|].
        intros i Hi. specialize (H i Hi). unfold t_stoch_step in H. now destruct (p_reweight p).
    - destruct (t_bw_run E p _ _ _ _ _ _ SZ D1 HBB) as (SB & I & _ & L & _ & sg & g0 & g1 & H).
      split; [now apply sh_has_shape|]. split. { apply (all_at_mk _ _ _ _ _ _ SB); [lia|]. apply I. lia. } split.
      { apply (all_at_mk _ _ _ _ _ _ SB); [lia|]. apply L. lia. }
      exists sg. split; [auto|]. split; [auto|]. exact H.
  Qed.

  Theorem C65_torch_determined p kern grid Z B s s' Z2 B2 s2 : 2 <= List.length grid ->
    t_history E p kern grid Z B s s' -> t_history E p kern grid Z2 B2 s s2 -> Z2 = Z /\ B2 = B /\ s2 = s'.
  Proof.
    intros Hk (a & F1 & B1) (c & F2 & Bb).
    assert (Q : Z2 = Z /\ c = a).
    { destruct (p_det p); [eapply t_forward_unique|eapply t_stochastic_unique]; eauto. }
    destruct Q as (-> & ->). destruct (t_backward_unique p kern grid Hk _ _ _ _ _ _ B1 Bb) as (-> & ->). auto.
  Qed.
End TStream.

Example C65_torch_toy : exists o s', t_construct ToyExt IsTensor toy_rw 7%Z = (Ok o, s') /\ List.length (o_grid o) = 5 /\
  t_history ToyExt toy_rw (o_kern o) (o_grid o) (o_Z o) (o_B o) 7%Z s'.
Proof.
  destruct (t_okrun_run _ _ t_toy_rw_runs) as (o & s' & H & L). exists o, s'. split; [auto|]. split; [auto|].
  apply (C65_torch_one_stream ToyExt IsTensor); [auto|lia|discriminate|reflexivity].
Qed.
