(** C02-C08, C10-C12, C14-C17, C19: structure of the constructed flows, for every number system.
    [dim] is the length of y1, [k] the number of grid points. *)
From Coq Require Import String List ZArith Lia Bool.
From Verif Require Import Base.Num Base.Py Base.Arr Lib.ArrLemmas Model.Ext Model.Cdist Model.Reweight Model.Score Model.DPFC.
From Verif Require Import Spec.FlowSpec Lib.FlowLemmas Lib.ScoreLemmas Lib.StepLemmas Lib.RunLemmas Lib.StochLemmas Lib.CoreLemmas.
From Verif Require Import Run.Toy.
Import ListNotations.

Section Flows.
  Context {T S : Type} {O : NumOps T} (E : Ext T S).
  Notation mat := (mat T). Notation arr3 := (arr3 T).

  Lemma wf_rows (A : mat) : wf A -> List.length (md A) = mr A /\ Forall (fun r => List.length r = mc A) (md A).
  Proof.
    intro W. unfold wf in W. remember (get A) as f. remember (mr A) as r. remember (mc A) as c. rewrite W. cbn.
    split. { now rewrite map_length, seq_length. }
    apply Forall_forall. intros x Hx. apply in_map_iff in Hx. destruct Hx as (i & <- & _). now rewrite map_length, seq_length.
  Qed.
  Lemma sh_has_shape (A : arr3) d n k : sh A d n k -> has_shape A d n k.
  Proof.
    intros HA. pose proof HA as ((L & W) & D & N & K). unfold has_shape. rewrite K in L.
    split; [auto|]. split; [auto|]. split; [auto|]. split; [auto|].
    apply Forall_forall. intros m Hm. apply (In_nth _ _ (mzeros (a_d A) (a_n A))) in Hm. destruct Hm as (t & Ht & <-).
    destruct (sh_slice _ _ _ _ t HA ltac:(lia)) as (Wm & R & C). unfold slice in *.
    destruct (wf_rows _ Wm) as (L1 & L2). rewrite R in L1. rewrite C in L2. auto.
  Qed.
  Lemma all_at_mk (A : arr3) d n k t y : sh A d n k -> slice A t = mk d n (fun a _ => nth a y nzero) -> all_at A t y.
  Proof.
    intros (_ & D & N & _) H a b Ha Hb. unfold get3. rewrite H. rewrite get_mk by lia. reflexivity.
  Qed.

  Section Obj.
    Context (p : params T) (s : S) (o : obj T) (s' : S) (Hc : construct E p s = (Ok o, s')).
    Let dim := List.length (p_y1 p).
    Let k := List.length (o_grid o).

    Lemma grid_eq : o_grid o = timegrid (p_t1 p) (p_t2 p).
    Proof. apply (construct_ok E p s o s' Hc). Qed.

    Lemma Z_sh : sh (o_Z o) dim (p_N p) k.
    Proof.
      destruct (construct_ok E p s o s' Hc) as (_ & _ & G & s1 & s2 & HZ & _). unfold k. rewrite G.
      set (grid := timegrid (p_t1 p) (p_t2 p)) in *. destruct (Nat.eq_dec (List.length grid) 0) as [K0|K0].
      - destruct grid as [|]; [|discriminate]. destruct (p_det p); destruct HZ as (HZ & _).
        + unfold forward_sampling_Otto in HZ. cbn in HZ. invok. rewrite Q. apply sh_zeros.
        + unfold forward_sampling in HZ. cbn [enumerate combine seq List.length mfold] in HZ. invok.
          apply pin_ok with (n := p_N p) (k := 0) in HZ; [|apply sh_zeros]. apply HZ.
      - destruct (p_det p); destruct HZ as (HZ & _).
        + apply otto_run in HZ; [|lia]. apply HZ.
        + apply stoch_run in HZ; [|lia]. apply HZ.
    Qed.

    Lemma B_run : exists s2, sh (o_B o) dim (p_N p) k /\
      (0 < k -> slice (o_B o) 0 = mk dim (p_N p) (fun a _ => nth a (p_y1 p) nzero)) /\ (0 < dim -> 0 < k) /\
      (2 <= k -> slice (o_B o) (k-1) = mk dim (p_N p) (fun a _ => nth a (p_y2 p) nzero) /\ dim <= List.length (p_y2 p)) /\
      exists sg, sg (k - 1) = s2 /\ sg 1 = s' /\
      forall j, 1 <= j -> j + 1 < k ->
        back_step E ((j =? k - 2) || negb (p_det p)) nmilli (o_kern o) (p_M p) (p_g p) (call2 (p_f p))
          (nth (j+1) (o_grid o) nzero)
          (slice (o_Z o) (j+1)) (slice (o_B o) (j+1)) (slice (o_B o) j) (sg (j+1)) (sg j).
    Proof.
      pose proof Z_sh as HZ. destruct (construct_ok E p s o s' Hc) as (_ & K & G & s1 & s2 & _ & HB).
      unfold k in *. rewrite G in *. rewrite K. exists s2. exact (bw_run E p _ _ _ _ _ _ HZ HB).
    Qed.

    (** ** C05 *)
    Theorem C05_shape : has_shape (o_Z o) dim (p_N p) k /\ has_shape (o_B o) dim (p_N p) k /\
      (forall Zt, o_Ztr o = Some Zt -> has_shape Zt dim (p_N p) k).
    Proof.
      split; [apply sh_has_shape, Z_sh|]. split. { destruct B_run as (s2 & H & _). now apply sh_has_shape. }
      intros Zt Ht. apply sh_has_shape.
      destruct (construct_ok E p s o s' Hc) as (_ & _ & G & s1 & s2 & HZ & _). unfold k. rewrite G.
      destruct (p_det p).
      - destruct HZ as (_ & HZ). destruct (p_reweight p && p_brown p).
        + destruct HZ as (Zt' & Ht' & HT). assert (Zt' = Zt) by congruence. subst Zt'.
          destruct (Nat.eq_dec (List.length (timegrid (p_t1 p) (p_t2 p))) 0) as [K0|K0].
          * destruct (timegrid (p_t1 p) (p_t2 p)); [|discriminate]. unfold forward_sampling_Otto_true in HT. cbn in HT.
            invok. apply sh_zeros.
          * apply otto_true_run in HT; [|lia]. apply HT.
        + destruct HZ as (HZ & _). congruence.
      - destruct HZ as (_ & _ & HT). destruct (p_reweight p && p_brown p); [|congruence].
        assert (Zt = zeros3 (List.length (p_y1 p)) (p_N p) (List.length (timegrid (p_t1 p) (p_t2 p)))) as -> by congruence.
        apply sh_zeros.
    Qed.

    (** ** C03 *)
    Theorem C03_forward_starts_at_y1 : p_det p = true -> 2 <= k -> all_at (o_Z o) 0 (p_y1 p).
    Proof.
      intros Hd Hk. pose proof Z_sh as HZs.
      destruct (construct_ok E p s o s' Hc) as (_ & _ & G & s1 & s2 & HZ & _). rewrite Hd in HZ. destruct HZ as (HZ & _).
      unfold k in *. rewrite G in *. apply otto_run in HZ; [|lia]. destruct HZ as (_ & _ & H0 & _).
      apply (all_at_mk _ _ _ _ _ _ HZs). rewrite H0. apply mk_ext. intros.
      destruct (Nat.eqb_spec (List.length (timegrid (p_t1 p) (p_t2 p))) 1); [lia|]. now rewrite andb_false_r.
    Qed.

    (** ** C04 *)
    Theorem C04_time_reversed_boundaries : 2 <= k -> all_at (o_B o) 0 (p_y1 p) /\ all_at (o_B o) (k - 1) (p_y2 p).
    Proof.
      intro Hk. destruct B_run as (s2 & HB & H0 & _ & H1 & _). split.
      - apply (all_at_mk _ _ _ _ _ _ HB). apply H0. lia.
      - apply (all_at_mk _ _ _ _ _ _ HB). apply H1. auto.
    Qed.

    (** ** C02, second half: one grid point *)
    Theorem C02_single_grid_point : k = 1 ->
      all_at (o_B o) 0 (p_y1 p) /\
      (p_det p = true -> all_at (o_Z o) 0 (if p_brown p then p_y2 p else p_y1 p)) /\
      (p_det p = false -> all_at (o_Z o) 0 (p_y2 p)).
    Proof.
      intro Hk. split. { destruct B_run as (s2 & HB & H0 & _). apply (all_at_mk _ _ _ _ _ _ HB). apply H0. lia. }
      pose proof Z_sh as HZs. destruct (construct_ok E p s o s' Hc) as (_ & _ & G & s1 & s2 & HZ & _).
      unfold k in *. rewrite G in *. split; intro Hd; rewrite Hd in HZ; destruct HZ as (HZ & _).
      - apply otto_run in HZ; [|lia]. destruct HZ as (_ & _ & H0 & _). apply (all_at_mk _ _ _ _ _ _ HZs).
        rewrite H0. apply mk_ext. intros. rewrite Hk. cbn. rewrite andb_true_r. now destruct (p_brown p).
      - apply stoch_run in HZ; [|lia]. destruct HZ as (_ & _ & _ & H0 & _). rewrite Hk in H0.
        apply (all_at_mk _ _ _ _ _ _ HZs). exact H0.
    Qed.

    (** ** C06 *)
    Theorem C06_forward_recurrence : p_det p = true -> 1 <= k ->
      exists sg : nat -> S, sg 0 = s /\
      forall i, 1 <= i < k ->
        (if p_reweight p
         then weighted_step E nmilli (o_kern o) (p_M p) (p_g p) (call2 (p_f p)) (ocall2 (p_U p))
         else plain_step E nmilli (o_kern o) (p_M p) (p_g p) (call2 (p_f p)))
          i (nth i (o_grid o) nzero) (slice (o_Z o) (i-1)) (slice (o_Z o) i) (sg (i-1)) (sg i).
    Proof.
      intros Hd Hk. destruct (construct_ok E p s o s' Hc) as (_ & K & G & s1 & s2 & HZ & _). rewrite Hd in HZ.
      destruct HZ as (HZ & _). unfold k in *. rewrite G in *. rewrite K. apply otto_run in HZ; [|lia].
      destruct HZ as (_ & _ & _ & sg & S0 & _ & H). exists sg. split; [auto|]. intros i Hi. specialize (H i Hi).
      unfold otto_step in H. now destruct (p_reweight p).
    Qed.

    (** ** C07 *)
    Theorem C07_backward_recurrence :
      exists sg : nat -> S, sg 1 = s' /\
      forall j, 1 <= j -> j + 1 < k ->
        (if (j =? k - 2) || negb (p_det p)
         then back_noisy_step E nmilli (o_kern o) (p_M p) (p_g p) (call2 (p_f p)) (nth (j+1) (o_grid o) nzero)
         else back_flow_step E nmilli (o_kern o) (p_M p) (p_g p) (call2 (p_f p)) (nth (j+1) (o_grid o) nzero))
          (slice (o_Z o) (j+1)) (slice (o_B o) (j+1)) (slice (o_B o) j) (sg (j+1)) (sg j).
    Proof.
      destruct B_run as (s2 & _ & _ & _ & _ & sg & _ & S1 & H). exists sg. split; [auto|].
      intros j H1 H2. specialize (H j H1 H2). unfold back_step in H. now destruct ((j =? k - 2) || negb (p_det p)).
    Qed.

    (** ** C08 *)
    Theorem C08_bridge_flow : p_det p = true -> p_reweight p = true -> p_brown p = true -> 1 <= k ->
      exists Zt (sg : nat -> S), o_Ztr o = Some Zt /\ all_at Zt 0 (p_y1 p) /\
      forall i, 1 <= i < k ->
        plain_step E nmilli (o_kern o) (p_M p) (p_g p) (ocall2 (p_f_true p)) i (nth i (o_grid o) nzero)
          (slice Zt (i-1)) (slice Zt i) (sg (i-1)) (sg i).
    Proof.
      intros Hd Hr Hb Hk. destruct (construct_ok E p s o s' Hc) as (_ & K & G & s1 & s2 & HZ & _). rewrite Hd, Hr, Hb in HZ.
      destruct HZ as (_ & Zt & Ht & HZ). unfold k in *. rewrite G in *. rewrite K.
      apply otto_true_run in HZ; [|lia]. destruct HZ as (Sh & H0 & sg & _ & _ & H). exists Zt, sg. split; [auto|].
      split; [apply (all_at_mk _ _ _ _ _ _ Sh H0)|]. auto.
    Qed.

    (** ** C14, first half *)
    Theorem C14_stochastic_start : p_det p = false -> 2 <= k ->
      2 <= dim /\ forall d n, d < dim -> n < p_N p ->
        get3 (o_Z o) d n 0 = if d <? 2 then nth d (p_y1 p) nzero else nzero.
    Proof.
      intros Hd Hk. destruct (construct_ok E p s o s' Hc) as (_ & _ & G & s1 & s2 & HZ & _). rewrite Hd in HZ.
      destruct HZ as (HZ & _). unfold k in *. rewrite G in *. apply stoch_run in HZ; [|lia].
      destruct HZ as (_ & Hdim & _ & _ & H0 & _). split; [auto|]. intros d n Hdd Hn. unfold get3. rewrite H0 by auto.
      now rewrite get_mk.
    Qed.

    (** hence "Z starts at y1" fails in stochastic mode as soon as y1 has a nonzero third coordinate *)
    Theorem C14_start_refuted : p_det p = false -> 2 <= k -> 3 <= dim -> 1 <= p_N p -> nth 2 (p_y1 p) nzero <> nzero ->
      ~ all_at (o_Z o) 0 (p_y1 p).
    Proof.
      intros Hd Hk H3 HN Hy H. destruct (C14_stochastic_start Hd Hk) as (_ & H0). destruct Z_sh as (_ & D & N & _).
      specialize (H 2 0 ltac:(lia) ltac:(lia)). rewrite H0 in H by lia. cbn in H. congruence.
    Qed.

    (** stochastic mode: recurrence (the last slice is overwritten by the target) *)
    Theorem C56_stochastic_recurrence : p_det p = false -> 2 <= k ->
      exists sg : nat -> S, sg 0 = s /\ forall i, 1 <= i < k - 1 ->
        (if p_reweight p then weighted_particle_step E nmilli (p_g p) (call1 (p_f p)) (ocall1 (p_U p))
         else particle_step E nmilli (p_g p) (call1 (p_f p)))
          (slice (o_Z o) (i-1)) (slice (o_Z o) i) (sg (i-1)) (sg i).
    Proof.
      intros Hd Hk. destruct (construct_ok E p s o s' Hc) as (_ & _ & G & s1 & s2 & HZ & _). rewrite Hd in HZ.
      destruct HZ as (HZ & _). unfold k in *. rewrite G in *. apply stoch_run in HZ; [|lia].
      destruct HZ as (_ & _ & _ & _ & _ & Z1 & sg & S0 & _ & Hun & H). exists sg. split; [auto|].
      intros i Hi. rewrite !Hun by lia. apply H. lia.
    Qed.

    (** ** C16, structural half *)
    Theorem C16_stochastic_end_pinned : p_det p = false -> 1 <= k -> all_at (o_Z o) (k - 1) (p_y2 p).
    Proof.
      intros Hd Hk. pose proof Z_sh as HZs. destruct (construct_ok E p s o s' Hc) as (_ & _ & G & s1 & s2 & HZ & _). rewrite Hd in HZ.
      destruct HZ as (HZ & _). unfold k in *. rewrite G in *. apply stoch_run in HZ; [|lia].
      apply (all_at_mk _ _ _ _ _ _ HZs). apply HZ.
    Qed.

    (** ** C17 *)
    Theorem C17_stochastic_bridge_flow_is_zero : p_det p = false -> p_reweight p = true -> p_brown p = true ->
      exists Zt, o_Ztr o = Some Zt /\ forall t d n, d < dim -> n < p_N p -> get3 Zt d n t = nzero.
    Proof.
      intros Hd Hr Hb. destruct (construct_ok E p s o s' Hc) as (_ & _ & G & s1 & s2 & HZ & _). rewrite Hd, Hr, Hb in HZ.
      destruct HZ as (_ & _ & HZ). eexists. split; [exact HZ|]. intros. unfold get3. rewrite slice_zeros.
      unfold mzeros, mconst. rewrite get_mk by auto. reflexivity.
    Qed.

    (** ** C19: shape of the diffusion *)
    Theorem C19_diffusion_shape : p_det p = true -> 2 <= k ->
      (mr (p_g p) = dim \/ mr (p_g p) = 1) /\ (mc (p_g p) = p_N p \/ mc (p_g p) = 1).
    Proof.
      intros Hd Hk. destruct (construct_ok E p s o s' Hc) as (_ & K & G & s1 & s2 & HZ & _). rewrite Hd in HZ.
      destruct HZ as (HZ & _). unfold k in *. rewrite G in *. clear G K.
      destruct (timegrid (p_t1 p) (p_t2 p)) as [|t0 [|t1 grid]]; [simpl in Hk; lia..|].
      unfold forward_sampling_Otto in HZ. rewrite (enumerate_cons _ _ nzero) in HZ. cbn [mfold List.length seq map] in HZ.
      apply bind_ok in HZ. destruct HZ as (Z0 & sa & H0 & HZ). apply bind_ok in HZ. destruct HZ as (Z1 & sb & H1 & _).
      assert (HZ0 : sh Z0 dim (p_N p) (List.length (t0 :: t1 :: grid))).
      { unfold otto_body in H0. cbn [Nat.eqb] in H0. rewrite andb_false_r in H0. apply bind_ok in H0.
        destruct H0 as (? & ? & H2 & H3). apply lift_ok in H2. apply ret_ok in H3. destruct H2 as (H2 & ->).
        destruct H3 as (-> & ->).
        apply (otto_init_ok _ _ _ _ _ _ _ _ (sh_zeros _ _ _)) in H2; [apply H2|cbn; lia]. }
      rewrite (otto_body_core E _ _ _ _ _ _ _ HZ0) in H1 by (cbn; lia).
      apply bind_ok in H1. destruct H1 as (m & sc & H1 & _). unfold otto_core in H1. cbn [Nat.eqb] in H1.
      apply bind_ok in H1. destruct H1 as (y & sd & Hy & H1). apply bind_ok in H1. destruct H1 as (m1 & se & Hm & _).
      apply lift_ok in Hm. destruct Hm as (Hm & _). apply assign_shape_ok in Hm.
      destruct Hm as (_ & _ & _ & Fr & Fc & _). assert (F : fits y dim (p_N p)) by (split; auto).
      unfold em_step in Hy. invok. destruct (bc2_fit _ _ _ _ _ _ Hy F) as (_ & F2 & _).
      destruct (bc2_fit _ _ _ _ _ _ E3 F2) as (F3 & _). exact F3.
    Qed.

    Theorem C19_matrix_diffusion_fails : p_det p = true -> 2 <= k ->
      2 <= dim -> p_N p <> dim -> mr (p_g p) = dim -> mc (p_g p) = dim -> False.
    Proof. intros Hd Hk H2 Hn Hr Hcol. pose proof (C19_diffusion_shape Hd Hk). lia. Qed.
  End Obj.

  (** ** C02, first half: no grid point *)
  Theorem C02_empty_grid_fails p s : timegrid (p_t1 p) (p_t2 p) = [] -> p_y1 p <> [] ->
    fst (construct E p s) = Err IndexError.
  Proof.
    intros G Hy. unfold construct. rewrite G. cbn [List.length].
    destruct (p_y1 p) as [|v y1] eqn:Y1; [congruence|].
    assert (Hpin : forall yy t, pin (Datatypes.S (List.length y1)) yy t (zeros3 (Datatypes.S (List.length y1)) (p_N p) 0) = Err IndexError).
    { intros yy t. unfold pin. cbn [seq rfold]. destruct yy as [|w yy].
      - reflexivity.
      - rewrite (pyget_nat _ 0 nzero) by (cbn; lia). cbn [rbind nth]. unfold setrow3, zeros3. cbn [a_d a_k].
        assert (pyidx 0 t = None) as ->. { destruct (pyidx 0 t) eqn:Q; auto. apply pyidx_some in Q. lia. }
        destruct (pyidx (Datatypes.S (List.length y1)) (Z.of_nat 0)); reflexivity. }
    destruct (p_det p).
    - unfold forward_sampling_Otto, forward_sampling_Otto_true, backward_simulation, enumerate, init. cbn [List.length seq combine mfold removelast].
      destruct (p_reweight p && p_brown p); unfold bind, ret, lift; cbn [fst snd];
        rewrite Y1; cbn [List.length]; rewrite Hpin; reflexivity.
    - unfold forward_sampling, enumerate. cbn [List.length seq combine mfold]. rewrite Y1.
      unfold bind, ret, lift. cbn [List.length]. rewrite Hpin. reflexivity.
  Qed.

  (** ** C14, second half *)
  Theorem C14_one_dimensional_fails p s : p_det p = false -> List.length (p_y1 p) < 2 ->
    timegrid (p_t1 p) (p_t2 p) <> [] -> fst (construct E p s) = Err IndexError.
  Proof.
    intros Hd Hl Hg. unfold construct. rewrite Hd. unfold forward_sampling.
    destruct (timegrid (p_t1 p) (p_t2 p)) as [|t0 g]; [congruence|].
    rewrite (enumerate_cons _ _ nzero). cbn [mfold].
    assert (H : forall A s, sh A (List.length (p_y1 p)) (p_N p) (Datatypes.S (List.length g)) ->
               fst (stoch_body E p A (0, t0) s) = Err IndexError).
    { intros A s0 HA. unfold stoch_body. cbn [Nat.eqb]. unfold lift. cbn [fst].
      destruct (p_y1 p) as [|v [|v1 y]] eqn:Y; [reflexivity| |cbn in Hl; lia].
      cbn [pyget pyidx]. rewrite (pyget_nat _ 0 nzero) by (cbn; lia). cbn [rbind nth].
      destruct (setrow3 A 0 0 v) as [A1|e] eqn:Q.
      - cbn [rbind]. reflexivity.
      - unfold setrow3 in Q. destruct HA as (_ & D & N & K). rewrite D, K in Q. cbn [List.length] in Q.
        rewrite !pyidx_0 in Q by lia. discriminate. }
    specialize (H (zeros3 (List.length (p_y1 p)) (p_N p) (List.length (t0 :: g))) s (sh_zeros _ _ _)).
    unfold bind at 1 2 3 4. destruct (stoch_body E p _ (0, t0) s) as [[A|e] s1]; cbn in H; [discriminate|].
    injection H as ->. reflexivity.
  Qed.
End Flows.

(** ** Concrete runs meeting the hypotheses above: five grid points, two (or three) dimensions, four particles *)
Definition okrun (p : params Z) : nat := match construct ToyExt p 7%Z with (Ok o, _) => List.length (o_grid o) | _ => 0 end.
Lemma okrun_run p n : okrun p = Datatypes.S n -> exists o s', construct ToyExt p 7%Z = (Ok o, s') /\ List.length (o_grid o) = Datatypes.S n.
Proof. unfold okrun. destruct (construct ToyExt p 7%Z) as [[o|e] s']; [eauto|discriminate]. Qed.

Definition toy_rw_stoch := toy 4000 P0 P1 true true false f12 U1.
Definition toy3_stoch := toy 4000 [0; 0; 100]%Z [500; 900; 300]%Z false false false f12 U1.
Definition toy_one := toy 0 P0 P1 false true true f2 U2.

Example toy_det_runs : okrun toy_det = 5.  Proof. vm_compute. reflexivity. Qed.
Example toy_rw_runs : okrun toy_rw = 5.  Proof. vm_compute. reflexivity. Qed.
Example toy_bridge_runs : okrun toy_bridge = 5.  Proof. vm_compute. reflexivity. Qed.
Example toy_stoch_runs : okrun toy_stoch = 5.  Proof. vm_compute. reflexivity. Qed.
Example toy_rw_stoch_runs : okrun toy_rw_stoch = 5.  Proof. vm_compute. reflexivity. Qed.
Example toy3_stoch_runs : okrun toy3_stoch = 5.  Proof. vm_compute. reflexivity. Qed.
Example toy_one_runs : okrun toy_one = 1.  Proof. vm_compute. reflexivity. Qed.

Example C02_toy : exists o s', construct ToyExt toy_one 7%Z = (Ok o, s') /\ all_at (o_B o) 0 P0 /\ all_at (o_Z o) 0 P1.
Proof.
  destruct (okrun_run _ _ toy_one_runs) as (o & s' & H & L). exists o, s'.
  destruct (C02_single_grid_point _ _ _ _ _ H L) as (H1 & H2 & _). split; [auto|]. split; [auto|]. now apply H2.
Qed.
Example C03_C04_toy : exists o s', construct ToyExt toy_bridge 7%Z = (Ok o, s') /\ List.length (o_grid o) = 5 /\
  all_at (o_Z o) 0 P0 /\ all_at (o_B o) 0 P0 /\ all_at (o_B o) 4 P1 /\ (exists Zt, o_Ztr o = Some Zt /\ all_at Zt 0 P0).
Proof.
  destruct (okrun_run _ _ toy_bridge_runs) as (o & s' & H & L). exists o, s'. split; [auto|]. split; [auto|].
  assert (L2 : 2 <= List.length (o_grid o)) by lia.
  split; [apply (C03_forward_starts_at_y1 _ _ _ _ _ H eq_refl L2)|].
  destruct (C04_time_reversed_boundaries _ _ _ _ _ H L2) as (A & B). split; [exact A|]. split; [rewrite L in B; exact B|].
  destruct (C08_bridge_flow _ _ _ _ _ H eq_refl eq_refl eq_refl ltac:(lia)) as (Zt & sg & Q & R & _). eauto.
Qed.
Example C14_toy : exists o s', construct ToyExt toy3_stoch 7%Z = (Ok o, s') /\ ~ all_at (o_Z o) 0 (p_y1 toy3_stoch).
Proof.
  destruct (okrun_run _ _ toy3_stoch_runs) as (o & s' & H & L). exists o, s'. split; [auto|].
  apply (C14_start_refuted _ _ _ _ _ H); cbn; try lia; try reflexivity.
Qed.
Example C16_C17_toy : exists o s', construct ToyExt toy_rw_stoch 7%Z = (Ok o, s') /\ all_at (o_Z o) 4 P1 /\
  exists Zt, o_Ztr o = Some Zt /\ get3 Zt 1 2 3 = 0%Z.
Proof.
  destruct (okrun_run _ _ toy_rw_stoch_runs) as (o & s' & H & L). exists o, s'. split; [auto|]. split.
  - pose proof (C16_stochastic_end_pinned _ _ _ _ _ H eq_refl ltac:(lia)) as Q. rewrite L in Q. exact Q.
  - destruct (C17_stochastic_bridge_flow_is_zero _ _ _ _ _ H eq_refl eq_refl eq_refl) as (Zt & Q & R). exists Zt.
    split; [auto|]. apply R; cbn; lia.
Qed.
