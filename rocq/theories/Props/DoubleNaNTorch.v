(** C83, continued: NaN in the runs of torched_DPFC in double precision. *)
From Coq Require Import String List ZArith Reals Bool Lia Lra.
From Flocq Require Import Core BinarySingleNaN.
From Verif Require Import Base.Num Base.Py Base.Arr Lib.ArrLemmas Model.Ext Model.Score Model.ScoreTorch Model.DPFC Model.TDPFC Run.Double Spec.DoubleSpec Spec.FlowSpec Spec.TorchSpec Spec.QuerySpec.
From Verif Require Import Lib.QueryLemmas Lib.ScoreLemmas Lib.StepLemmas Lib.FlowLemmas Lib.StochLemmas Lib.TorchLemmas Lib.DoubleLemmas Props.Flows Props.Torch Props.Queries Props.TorchQueries Props.DoubleQueries Lib.NaNLemmas Lib.TNaNLemmas Props.DoubleNaN Props.DoubleNaNW Lib.FlowLemmas Run.DoubleExp.
Import ListNotations.
Local Open Scope nat_scope.

Section C83T.
  Context (fexp fsin fcos : double -> double) (fsum : list double -> double).
  #[local] Hint Extern 0 (NumOps double) => exact (NOps fexp fsin fcos fsum) : typeclass_instances.
  Context (Hs : sum_contract fsum) (He : fexp dNaN = dNaN).
  Notation mat := (mat double).
  Context {S : Type} (E : Ext double S).

  Lemma tls_nan (z : mat) d : d < mr z -> has_nan z d -> nth d (tlengthscales z) nzero = dNaN.
  Proof. intros Hd Hn. unfold tlengthscales. rewrite nth_map_seq by auto. rewrite (tstd_nan fexp fsin fcos fsum Hs) by now apply (row_has_nan fexp fsin fcos fsum). apply mul_nan_r. Qed.
  Lemma tls_len (z : mat) : List.length (tlengthscales z) = mr z.
  Proof. unfold tlengthscales. now rewrite map_length, seq_length. Qed.
  Lemma tdrawn_dims m s bnds P s' : tdrawn E m s bnds P s' -> mr P = m /\ mc P = List.length bnds.
  Proof. intros (_ & h & _ & ->). auto. Qed.

  (** one step of the reversed flow *)
  Lemma t_score_at_nan kern m z b G s s' n d : 1 <= m -> t_score_of_at E kern m z b G s s' -> mr z = mr b -> 1 <= mc b ->
    2 <= mr b /\ (d < mr b -> n < mc b -> get b d n = dNaN -> forall d', d' < mr b -> get G n d' = dNaN).
  Proof.
    intros Hm (bnds & P & fn & Lb & _ & Hd & Hf & Hv & RG & CG) Hz HN. destruct (tdrawn_dims _ _ _ _ _ Hd) as (RP & CP).
    assert (HL : 2 <= mr b). { destruct (tfun_nan fexp fsin fcos fsum Hs E _ _ _ _ _ _ _ _ 0 Hf Hv ltac:(cbn; lia) ltac:(lia)) as (Q & _). rewrite tls_len in Q. lia. }
    split; [exact HL|]. intros Hd1 Hn Hnan d' Hd'. destruct (tfun_nan fexp fsin fcos fsum Hs E _ _ _ _ _ _ _ _ n Hf Hv ltac:(cbn; lia) ltac:(lia)) as (_ & Q).
    apply Q; [|lia]. intros k Hk. apply (rbf_nan_point fexp fsin fcos fsum Hs He _ _ _ _ n d Hk); [cbn; lia|rewrite tls_len; cbn; lia|cbn; lia|cbn; lia|]. unfold mT. rewrite get_mk by auto. exact Hnan.
  Qed.
  Lemma t_noisy_nan kern m g fd t z b b' s s' n d : 1 <= m -> t_back_noisy_step E nmilli kern m g fd t z b b' s s' -> mr z = mr b ->
    d < mr b -> n < mc b -> get b d n = dNaN -> forall d', d' < mr b -> get b' d' n = dNaN.
  Proof.
    intros Hm (F & W & G & s1 & Hsc & _ & _ & Hg) Hz Hd Hn Hnan d' Hd'. rewrite Hg by auto. destruct (t_score_at_nan _ _ _ _ _ _ _ n d Hm Hsc Hz ltac:(lia)) as (_ & Q).
    rewrite (Q Hd Hn Hnan d' Hd'). cbn [nadd nmul NOps DoubleOps]. rewrite mul_nan_r, add_nan_r. reflexivity.
  Qed.
  Lemma t_flow_nan kern m g fd t z b b' s s' n d : 1 <= m -> t_back_flow_step E nmilli kern m g fd t z b b' s s' -> mr z = mr b ->
    d < mr b -> n < mc b -> get b d n = dNaN -> forall d' n', d' < mr b -> n' < mc b -> get b' d' n' = dNaN.
  Proof.
    intros Hm (F & Gz & Gb & s1 & Hsc & (bnds & P & Lb & _ & Hdr & Hv & RG & CG) & _ & Hg) Hz Hd Hn Hnan d' n' Hd' Hn'. rewrite Hg by auto.
    destruct (t_score_at_nan _ _ _ _ _ _ _ n d Hm Hsc Hz ltac:(lia)) as (HL & _). destruct (tdrawn_dims _ _ _ _ _ Hdr) as (RP & CP).
    assert (Q : get Gb n' d' = dNaN).
    { apply (tself_nan fexp fsin fcos fsum Hs E _ _ _ _ _ _ n' Hv); [cbn; lia|lia|rewrite tls_len; lia| |lia]. intros k Hk.
      destruct (rbf_nan_scale fexp fsin fcos fsum Hs He _ _ _ _ d Hk) as (R1 & C1 & N1); [rewrite tls_len; lia|rewrite tls_len; lia|apply tls_nan; [exact Hd|exists n; auto]|]. split; [exact R1|]. split; [exact C1|]. apply N1. cbn. lia. }
    rewrite Q. cbn [nadd nsub nmul NOps DoubleOps]. rewrite mul_nan_r, add_nan_r. change (Bmult mode_NE dNaN ?z) with dNaN. apply sub_nan_r.
  Qed.

  (** the control *)
  Lemma t_est_nan kern z Sp gx G d : t_estimated E kern z Sp gx G -> 1 <= mr Sp -> d < mr z -> has_nan z d -> forall i d', i < mr gx -> d' < mc G -> get G i d' = dNaN.
  Proof.
    intros (fn & Hf & Hv) HM Hd Hn i d' Hi Hd'. destruct (tfun_nan fexp fsin fcos fsum Hs E _ _ _ _ _ _ _ _ i Hf Hv Hi HM) as (HL & Q). apply Q; [|exact Hd']. intros k Hk.
    destruct (rbf_nan_scale fexp fsin fcos fsum Hs He _ _ _ _ d Hk HL) as (R1 & C1 & N1); [rewrite tls_len; lia|now apply tls_nan|]. auto.
  Qed.
  Lemma t_gauss_nan (z : mat) d x : has_nan z d -> t_gauss_score z d x = dNaN.
  Proof.
    intro H. unfold t_gauss_score. rewrite (tstd_nan fexp fsin fcos fsum Hs) by now apply (row_has_nan fexp fsin fcos fsum). change (nsq (dNaN : double)) with dNaN. apply div_nan_r.
  Qed.
  Theorem C83_torch_control o dim N k A gx ti j s v s' : consistent o dim N k -> forward_of o A -> has_shape A dim N k -> 1 <= p_M (o_par o) -> selects k ti j ->
    t_calculate_u E o gx ti s = (Ok v, s') ->
    forall d, d < dim -> has_nan (slice (o_B o) j) d \/ has_nan (slice A j) d -> forall i, i < mr gx -> get v d i = dNaN.
  Proof.
    intros Hcon HF HA HM Hsel H d Hd Hn i Hi. pose proof Hcon as (_ & _ & _ & HB & _). apply has_shape_sh in HA, HB. destruct (sh_slice _ _ _ _ j HB ltac:(apply Hsel)) as (_ & Rb & _). destruct (sh_slice _ _ _ _ j HA ltac:(apply Hsel)) as (_ & Ra & _).
    destruct ((ti <=? 5) || (Z.of_nat k - 5 <=? ti))%Z eqn:Q.
    - rewrite (t_calculate_u_eq E o dim N k Hcon A HF gx ti j s Hsel) in H. cbv zeta in H. rewrite Q in H. destruct (hull_bnds dim _ _) as [bnds|]; [|discriminate]. injection H as H _.
      apply rfold_tor, rows_fold_ok in H. destruct H as (_ & _ & _ & Hm & Hv & _). destruct (Hv d Hd) as (x & X1 & _ & _ & X2). rewrite X2 by auto.
      destruct (tu_edge_row_ok gx (slice (o_B o) j) (slice A j) d ltac:(lia)) as (x' & Y1 & _ & _ & Y2). assert (x' = x) as -> by congruence. rewrite Y2 by auto. cbn [nsub NOps DoubleOps].
      destruct Hn as [Hn|Hn]; rewrite (t_gauss_nan _ d _ Hn); [reflexivity|apply sub_nan_r].
    - apply orb_false_iff in Q. assert (Hj : Z.to_nat ti = j) by (unfold selects in Hsel; lia).
      destruct (C61_torch_interior_control E o dim N k Hcon A HF gx ti s v s' ltac:(lia) ltac:(lia) H) as (_ & _ & _ & bnds & Sx & sb & sz & _ & _ & Hdr & Eb & Ez & Rsb & Csb & Rsz & Csz & G). rewrite Hj in Eb, Ez.
      destruct (tdrawn_dims _ _ _ _ _ Hdr) as (RS & _). rewrite G by auto. cbn [nsub NOps DoubleOps]. destruct Hn as [Hn|Hn].
      + rewrite (t_est_nan _ _ _ _ _ d Eb) by (auto; lia). reflexivity.
      + rewrite (t_est_nan _ _ _ _ _ d Ez) by (auto; lia). apply sub_nan_r.
  Qed.

  (** Uniform(low, high) raises unless low < high *)
  Lemma lt_number (a b : double) : nltb a b = true -> number a /\ number b.
  Proof. cbn [nltb NOps DoubleOps]. intro H. destruct a as [| [|] | |], b as [| [|] | |]; try discriminate; split; reflexivity. Qed.
  Lemma range_spread (z : mat) d r : 1 <= mc z -> range_of z d r -> nltb (fst r) (snd r) = true -> ~ has_nan z d /\ exists n n', n < mc z /\ n' < mc z /\ nltb (get z d n) (get z d n') = true.
  Proof.
    intros HN Hr Hl. destruct (range_bounds fexp fsin fcos fsum z d r HN Hr) as [(_ & A & _)|(A & _ & _ & _ & (n & Hn & Qn) & (n' & Hn' & Qn') & _)].
    - apply lt_number in Hl. rewrite A in Hl. destruct Hl. discriminate.
    - split; [exact A|]. exists n, n'. change (get z d n = fst r) in Qn. change (get z d n' = snd r) in Qn'. rewrite Qn, Qn'. auto.
  Qed.
  Lemma union_num (z b : mat) d r : 1 <= mc z -> union_range z b d r -> number (fst r) -> ~ has_nan z d.
  Proof.
    intros HN (rz & rb & R1 & _ & Q & _) N Hn. destruct (range_bounds fexp fsin fcos fsum z d rz HN R1) as [(_ & A & _)|(A & _)]; [|exact (A Hn)]. rewrite Q, A in N.
    replace (pymin (dNaN : double) (fst rb)) with dNaN in N; [discriminate|]. symmetry. exact (pymin_nan_l fexp fsin fcos fsum (fst rb)).
  Qed.

  Section Obj.
    Context (b : ykind) (p : params double) (s : S) (o : obj double) (s' : S) (Hc : t_construct E b p s = (Ok o, s')) (Hy : p_y1 p <> []).
    Let dim := List.length (p_y1 p).
    Let k := List.length (o_grid o).
    Lemma t_slice_dims j : j < k -> (mr (slice (o_B o) j) = dim /\ mc (slice (o_B o) j) = p_N p) /\ mr (slice (o_Z o) j) = dim /\ mc (slice (o_Z o) j) = p_N p.
    Proof.
      intro Hj. destruct (t_construct_consistent E b p s o s' Hc Hy) as (_ & (_ & _ & HZ & HB & _)). apply has_shape_sh in HZ, HB.
      destruct (sh_slice _ _ _ _ j HZ Hj) as (_ & A & B). destruct (sh_slice _ _ _ _ j HB Hj) as (_ & C & D). auto.
    Qed.
    Lemma not_nan (z : mat) d n : ~ has_nan z d -> n < mc z -> number (get z d n).
    Proof. intros H Hn. destruct (get z d n) eqn:Q; try reflexivity. exfalso. apply H. exists n. auto. Qed.

    (** deterministic mode: at every inner grid point the forward particles contain no NaN and do not all coincide in any coordinate *)
    Theorem C83_torch_forward : p_det p = true -> 1 <= p_N p -> forall t, 1 <= t -> t + 1 < k -> forall d, d < dim ->
      (forall n, n < p_N p -> number (get3 (o_Z o) d n t)) /\
      exists n n', n < p_N p /\ n' < p_N p /\ nltb (get3 (o_Z o) d n t) (get3 (o_Z o) d n' t) = true.
    Proof.
      intros Hdet HN t H1 H2 d Hd. destruct (t_slice_dims t ltac:(lia)) as (_ & R & C). unfold get3.
      destruct (C57_torch_forward_recurrence E b p s o s' Hc Hy Hdet) as (sg & _ & H). specialize (H (t + 1) ltac:(fold k; lia)). replace (t + 1 - 1) with t in H by lia.
      assert (PS : exists y s1 s2 tt, t_plain_step E nmilli (p_M p) (p_g p) (call2 (p_f p)) (t + 1) tt (slice (o_Z o) t) y s1 s2).
      { destruct (p_reweight p); [destruct H as (y & u & _ & _ & _ & H & _)|]; eauto 10. }
      destruct PS as (y & s1 & s2 & tt & PS). unfold t_plain_step in PS. destruct (Nat.eqb_spec (t + 1) 1) as [|Q0]; [lia|]. destruct PS as (F & bnds & P & G & _ & Lb & Hr & (Hl & _) & _).
      destruct (range_spread (slice (o_Z o) t) d _ ltac:(lia) (Hr d ltac:(lia)) (Hl d ltac:(lia))) as (A & n & n' & B1 & B2 & B3). split.
      - intros m Hm. apply not_nan; [exact A|lia].
      - exists n, n'. rewrite C in B1, B2. auto.
    Qed.
    (** both modes: no NaN from the third grid point on *)
    Theorem C83_torch_forward_no_nan : 1 <= p_N p -> forall t, 2 <= t -> t < k -> forall d n, d < dim -> n < p_N p -> number (get3 (o_Z o) d n t).
    Proof.
      intros HN t H1 H2 d n Hd Hn. destruct (t_slice_dims t ltac:(lia)) as ((RB & CB) & R & C). unfold get3.
      destruct (C58_torch_backward_recurrence E b p s o s' Hc Hy) as (sg & _ & H). specialize (H (t - 1) ltac:(lia) ltac:(fold k; lia)). replace (t - 1 + 1) with t in H by lia.
      assert (PS : exists G s1 s2, t_score_of_at E (o_kern o) (p_M p) (slice (o_Z o) t) (slice (o_B o) t) G s1 s2).
      { destruct ((_ =? _) || negb (p_det p)); [destruct H as (F & W & G & s1 & H & _)|destruct H as (F & Gz & Gb & s1 & H & _)]; eauto. }
      destruct PS as (G & s1 & s2 & bnds & P & fn & L & Hb & (Hl & _) & _). specialize (Hb d ltac:(lia)). specialize (Hl d ltac:(lia)). apply not_nan; [|lia]. destruct Hb as (rb & _ & Hb). destruct (neqb (fst rb) (snd rb)).
      - exact (proj1 (range_spread (slice (o_Z o) t) d _ ltac:(lia) Hb Hl)).
      - exact (union_num (slice (o_Z o) t) (slice (o_B o) t) d _ ltac:(lia) Hb (proj1 (lt_number _ _ Hl))).
    Qed.

    Theorem C83_torch_contagion : 1 <= p_M p -> forall t d n, 1 <= t -> t + 1 < k -> d < dim -> n < p_N p -> get3 (o_B o) d n (t + 1) = dNaN ->
      (forall d', d' < dim -> get3 (o_B o) d' n t = dNaN) /\
      (p_det p = true -> t + 2 < k -> forall d' n', d' < dim -> n' < p_N p -> get3 (o_B o) d' n' t = dNaN).
    Proof.
      intros HM t d n H1 H2 Hd Hn Hnan. destruct (C58_torch_backward_recurrence E b p s o s' Hc Hy) as (sg & _ & H). specialize (H t H1 H2). fold k in H.
      destruct (t_slice_dims (t + 1) H2) as ((R1 & C1) & R2 & C2). unfold get3 in *. split.
      - intros d' Hd'. destruct ((t =? k - 2) || negb (p_det p)).
        + apply (t_noisy_nan _ _ _ _ _ _ _ _ _ _ n d HM H); auto; lia.
        + apply (t_flow_nan _ _ _ _ _ _ _ _ _ _ n d HM H); auto; lia.
      - intros Hdet H3 d' n' Hd' Hn'. rewrite Hdet in H. destruct (Nat.eqb_spec t (k - 2)); [lia|]. cbn [orb negb] in H.
        apply (t_flow_nan _ _ _ _ _ _ _ _ _ _ n d HM H); auto; lia.
    Qed.
    Corollary C83_torch_certificate : 1 <= p_M p -> forall t d n, 1 <= t -> t < k -> d < dim -> n < p_N p -> number (get3 (o_B o) d n t) ->
      forall t', t < t' -> t' < k -> (forall d', d' < dim -> number (get3 (o_B o) d' n t')) /\
        (p_det p = true -> t' + 1 < k -> forall d' n', d' < dim -> n' < p_N p -> number (get3 (o_B o) d' n' t')).
    Proof.
      intros HM t d n H1 H2 Hd Hn Hnum.
      assert (NN : forall x : double, number x \/ x = dNaN) by (intros [ | | |]; auto; now left).
      assert (A : forall j, t + j < k -> number (get3 (o_B o) d n (t + j)) /\ (0 < j -> forall d', d' < dim -> number (get3 (o_B o) d' n (t + j)))).
      { induction j as [|j IH]; intro Hj. { rewrite Nat.add_0_r. split; [exact Hnum|lia]. }
        destruct (IH ltac:(lia)) as (I & _). assert (G : forall d', d' < dim -> number (get3 (o_B o) d' n (t + Datatypes.S j))).
        { intros d' Hd'. destruct (NN (get3 (o_B o) d' n (t + Datatypes.S j))) as [Q|Q]; [exact Q|exfalso]. replace (t + Datatypes.S j) with (t + j + 1) in * by lia.
          destruct (C83_torch_contagion HM (t + j) d' n ltac:(lia) Hj Hd' Hn Q) as (Q' & _). rewrite (Q' d Hd) in I. discriminate. }
        split; [now apply G|auto]. }
      intros t' H3 H4. replace t' with (t + (t' - t)) by lia. split; [apply A; lia|]. intros Hdet H5 d' n' Hd' Hn'.
      destruct (NN (get3 (o_B o) d' n' (t + (t' - t)))) as [Q|Q]; [exact Q|exfalso]. destruct (A (t' - t - 1) ltac:(lia)) as (I & _). replace (t + (t' - t)) with (t + (t' - t - 1) + 1) in Q by lia.
      destruct (C83_torch_contagion HM (t + (t' - t - 1)) d' n' ltac:(lia) ltac:(lia) Hd' Hn' Q) as (_ & Q'). rewrite (Q' Hdet ltac:(lia) d n Hd Hn) in I. discriminate.
    Qed.

    (** one NaN drift value at the last grid point *)
    Theorem C83_torch_terminal_drift : p_det p = true -> 1 <= p_M p -> forall F d n, call2 (p_f p) (slice (o_B o) (k - 1)) (nth (k - 1) (o_grid o) nzero) = Ok F ->
      d < dim -> n < p_N p -> elem F d n = dNaN ->
      forall t, 1 <= t -> t + 2 < k -> (forall d' n', d' < dim -> n' < p_N p -> get3 (o_B o) d' n' t = dNaN) /\
        forall gx ti sq v sq', selects k ti t -> t_calculate_u E o gx ti sq = (Ok v, sq') -> forall d' i, d' < dim -> i < mr gx -> get v d' i = dNaN.
    Proof.
      intros Hdet HM F d n HF Hd Hn Hnan.
      assert (G : forall j, j + 3 < k -> forall d' n', d' < dim -> n' < p_N p -> get3 (o_B o) d' n' (k - 3 - j) = dNaN).
      { induction j as [|j IH]; intros Hj d' n' Hd' Hn'.
        - destruct (C58_torch_backward_recurrence E b p s o s' Hc Hy) as (sg & _ & H). fold k in H. specialize (H (k - 2) ltac:(lia) ltac:(lia)). rewrite Nat.eqb_refl in H. cbn [orb] in H. replace (k - 2 + 1) with (k - 1) in H by lia.
          destruct (t_slice_dims (k - 1) ltac:(lia)) as ((R1 & C1) & _). destruct H as (F' & W & score & s1 & _ & HF' & _ & Hg). assert (F' = F) as -> by congruence.
          assert (Q : get3 (o_B o) d n (k - 3 + 1) = dNaN). { replace (k - 3 + 1) with (k - 2) by lia. unfold get3. rewrite Hg by lia. rewrite Hnan. cbn [nadd nsub nmul NOps DoubleOps]. change (Bmult mode_NE dNaN ?z) with dNaN. rewrite sub_nan_r. reflexivity. }
          destruct (C83_torch_contagion HM (k - 3) d n ltac:(lia) ltac:(lia) Hd Hn Q) as (_ & Q'). rewrite Nat.sub_0_r. apply Q'; auto; lia.
        - destruct (C83_torch_contagion HM (k - 3 - Datatypes.S j) d n ltac:(lia) ltac:(lia) Hd Hn) as (_ & Q'); [replace (k - 3 - Datatypes.S j + 1) with (k - 3 - j) by lia; apply IH; auto; lia|]. apply Q'; auto; lia. }
      intros t H1 H2. assert (G' : forall d' n', d' < dim -> n' < p_N p -> get3 (o_B o) d' n' t = dNaN). { intros d' n' Hd' Hn'. replace t with (k - 3 - (k - 3 - t)) by lia. apply G; auto; lia. }
      split; [exact G'|]. intros gx ti sq v sq' Hsel HC d' i Hd' Hi. destruct (t_construct_consistent E b p s o s' Hc Hy) as (P & Hcon). fold dim k in Hcon. pose proof Hcon as (L & K & HZ & HBs & HT).
      assert (HA : exists A, forward_of o A /\ has_shape A dim (p_N p) k).
      { unfold forward_of. destruct (p_reweight (o_par o) && p_brown (o_par o))%bool eqn:Q; [destruct (HT eq_refl) as (Zt & Q1 & Q2)|]; eauto. }
      destruct HA as (A & HFw & SA). apply (C83_torch_control o dim (p_N p) k A gx ti t sq v sq' Hcon HFw SA ltac:(now rewrite P) Hsel HC d' Hd'); [left|exact Hi]. destruct (t_slice_dims t ltac:(lia)) as ((_ & CB) & _).
      exists n. split; [lia|]. apply (G' d' n Hd' Hn).
    Qed.
  End Obj.
End C83T.

Lemma t_construct_steps {T S : Type} {O : NumOps T} (E : Ext T S) p s grid Z1 s1 B s2 : t_timegrid (p_t1 p) (p_t2 p) = Ok grid -> p_det p = true -> (p_reweight p && p_brown p)%bool = false ->
  t_forward_sampling_Otto E p grid (zeros3 (List.length (p_y1 p)) (p_N p) (List.length grid)) s = (Ok Z1, s1) ->
  t_backward_simulation E p (kern_used (p_kern p)) grid Z1 (zeros3 (List.length (p_y1 p)) (p_N p) (List.length grid)) s1 = (Ok B, s2) ->
  t_construct E IsTensor p s = (Ok {| o_par := p; o_kern := kern_used (p_kern p); o_grid := grid; o_Z := Z1; o_B := B; o_Ztr := None |}, s2).
Proof. intros G D R H1 H2. unfold t_construct, bind, lift. cbn [size_dim0]. rewrite G, D, R, H1. cbn [fst snd ret]. rewrite H2. reflexivity. Qed.

(** An executed run (the theorems ask of the exponential only that it maps NaN to NaN; a computable one stands in for it):
    y1 = (0,1), y2 = (1,2), four particles, five grid points, drift -x or the Brownian-bridge drift (y2-x)/(T-t). *)
Section Run.
  Let fid := fun x : double => x.
  #[local] Instance XOps : NumOps double := DoubleOps ratexp fid fid sum_right.
  Definition TStrictExt : Ext double nat := {|
    x_normal := x_normal StrictExt; x_uniform := x_uniform StrictExt;
    x_tuniform := fun s lo hi m => (fun i d => if Nat.even (i + d) then nth d lo nzero else nth d hi nzero, Datatypes.S s);
    x_inv := x_inv StrictExt; x_emd := x_emd StrictExt; x_otemd := x_otemd StrictExt |}.
  Definition t_problem (pinned : bool) : params double := {|
    p_t1 := p_t1 strict_problem; p_t2 := p_t2 strict_problem; p_y1 := [dZ 0; dZ 1]; p_y2 := [dZ 1; dZ 2];
    p_f := {| call1 := fun _ => Err TypeError; call2 := fun x t => Ok (mk (mr x) (mc x) (fun d n =>
       if pinned then ndiv (nsub (nth d [dZ 1; dZ 2] nzero) (get x d n)) (nsub (nlit 4 1000) t) else nopp (get x d n))) |};
    p_g := p_g strict_problem; p_N := 4; p_M := 2;
    p_reweight := false; p_U := None; p_dens_est := "nonparametric"; p_reject := true; p_kern := "RBF"; p_f_true := None; p_brown := false; p_det := true |}.
  Definition tgrid5 : list double := map (fun i => nadd (dZ 0) (nmul (nofnat i) (dt (T := double)))) (seq 0 5).
  Lemma trun5_ok pinned : (match bind (t_forward_sampling_Otto TStrictExt (t_problem pinned) tgrid5 (zeros3 (List.length (p_y1 (t_problem pinned))) (p_N (t_problem pinned)) (List.length tgrid5)))
    (fun Z1 => t_backward_simulation TStrictExt (t_problem pinned) (kern_used (p_kern (t_problem pinned))) tgrid5 Z1 (zeros3 (List.length (p_y1 (t_problem pinned))) (p_N (t_problem pinned)) (List.length tgrid5))) 0
    with (Ok _, _) => true | _ => false end) = true.
  Proof. destruct pinned; vm_compute; reflexivity. Qed.
  Lemma tgrid5_eq pinned : t_timegrid (p_t1 (t_problem pinned)) (p_t2 (t_problem pinned)) = Ok tgrid5.
  Proof.
    assert (L : List.length (timegrid (p_t1 strict_problem) (p_t2 strict_problem)) = 5) by exact (f_equal (@List.length double) grid5_eq).
    unfold timegrid, np_arange in L. rewrite map_length, seq_length in L.
    change (t_timegrid (p_t1 (t_problem pinned)) (p_t2 (t_problem pinned))) with (t_timegrid (p_t1 strict_problem) (p_t2 strict_problem)).
    unfold t_timegrid, t_arange. rewrite L.
    assert (Q : nleb (p_t1 strict_problem) (nadd (p_t2 strict_problem) (ndiv dt ntwo)) = true) by (vm_compute; reflexivity). rewrite Q. reflexivity.
  Qed.
  Lemma trun pinned : exists o s', t_construct TStrictExt IsTensor (t_problem pinned) 0 = (Ok o, s') /\ o_grid o = tgrid5.
  Proof.
    destruct (bind_ok_inv _ _ _ (trun5_ok pinned)) as (Z1 & s1 & B & s2 & F & G).
    eexists. exists s2. split; [exact (t_construct_steps TStrictExt (t_problem pinned) 0 tgrid5 Z1 s1 B s2 (tgrid5_eq pinned) eq_refl eq_refl F G)|reflexivity].
  Qed.
  Example C83_torch_example : exists o s', t_construct TStrictExt IsTensor (t_problem false) 0 = (Ok o, s') /\ List.length (o_grid o) = 5 /\
    (forall t d, 1 <= t < 4 -> d < 2 -> exists n n', n < 4 /\ n' < 4 /\ nltb (get3 (o_Z o) d n t) (get3 (o_Z o) d n' t) = true) /\
    (forall t d n, 1 <= t < 5 -> d < 2 -> n < 4 -> number (get3 (o_Z o) d n t)).
  Proof.
    destruct (trun false) as (o & s' & R & GE). exists o, s'. split; [exact R|]. assert (L : List.length (o_grid o) = 5) by (rewrite GE; reflexivity). split; [exact L|]. assert (Hy : p_y1 (t_problem false) <> []) by discriminate. split.
    - intros t d Ht Hd. apply (C83_torch_forward ratexp fid fid sum_right TStrictExt IsTensor (t_problem false) 0 o s' R Hy eq_refl); try (rewrite L; lia); try (cbn; lia).
    - intros t d n Ht Hd Hn. destruct (Nat.eq_dec t 1) as [->|].
      + apply (C83_torch_forward ratexp fid fid sum_right TStrictExt IsTensor (t_problem false) 0 o s' R Hy eq_refl); try (rewrite L; lia); try (cbn; lia).
      + apply (C83_torch_forward_no_nan ratexp fid fid sum_right TStrictExt IsTensor (t_problem false) 0 o s' R Hy); try (rewrite L; lia); try (cbn; lia).
  Qed.
  Lemma tlast : ndiv (nsub (dZ 1) (dZ 1)) (nsub (nlit 4 1000) (nth 4 tgrid5 nzero)) = dNaN.
  Proof. vm_compute. reflexivity. Qed.
  Example C83_torch_example_drift : exists o s', t_construct TStrictExt IsTensor (t_problem true) 0 = (Ok o, s') /\ List.length (o_grid o) = 5 /\
    forall t, 1 <= t < 3 -> (forall d n, d < 2 -> n < 4 -> get3 (o_B o) d n t = dNaN) /\
      forall gx sq v sq', t_calculate_u TStrictExt o gx (Z.of_nat t) sq = (Ok v, sq') -> forall d i, d < 2 -> i < mr gx -> get v d i = dNaN.
  Proof.
    destruct (trun true) as (o & s' & R & GE). exists o, s'. split; [exact R|]. assert (L : List.length (o_grid o) = 5) by (rewrite GE; reflexivity). split; [exact L|]. intros t Ht. assert (Hy : p_y1 (t_problem true) <> []) by discriminate.
    destruct (C49_torch_backward_boundaries _ _ _ _ _ _ R Hy ltac:(rewrite L; lia)) as (_ & PB). rewrite L in PB.
    destruct (t_construct_consistent _ _ _ _ _ _ R Hy) as (_ & (_ & _ & _ & HB & _)). pose proof HB as (DB & NB & _). apply has_shape_sh in HB. destruct (sh_slice _ _ _ _ 4 HB ltac:(rewrite L; lia)) as (_ & RB & CB).
    change (mr (slice (o_B o) 4) = 2) in RB. change (mc (slice (o_B o) 4) = 4) in CB.
    pose proof (C83_torch_terminal_drift ratexp fid fid sum_right sum_right_ok eq_refl TStrictExt IsTensor (t_problem true) 0 o s' R Hy eq_refl ltac:(cbn; lia)) as TD. rewrite L in TD. change (5 - 1) with 4 in TD.
    specialize (TD _ 0 0 eq_refl ltac:(cbn; lia) ltac:(cbn; lia)). destruct TD with (t := t) as (A & B); try lia.
    - match goal with |- context [nth 4 (o_grid o) ?z] => change (nth 4 (o_grid o) z) with (nth 4 (o_grid o) nzero) end. rewrite GE.
      match goal with |- elem (mk (mr ?b) _ _) _ _ = _ => assert (RB' : mr b = 2) by exact RB; assert (CB' : mc b = 4) by exact CB; assert (Q : get b 0 0 = dZ 1) by (apply (PB 0 0); [rewrite DB; cbn; lia|rewrite NB; cbn; lia]); rewrite RB', CB' end.
      unfold elem. cbn [mr mc mk Nat.eqb]. rewrite get_mk by lia. cbv iota. rewrite Q. exact tlast.
    - split; [exact A|]. intros gx sq v sq' HC. apply (B gx (Z.of_nat t) sq v sq'); [|exact HC]. unfold selects. lia.
  Qed.
End Run.
