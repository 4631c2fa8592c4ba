(** C50, C53, C54, C60, C62: torched_DPFC over the exact reals. *)
From Coq Require Import String List ZArith Lia Bool Reals Lra.
From Verif Require Import Base.Num Base.Py Base.Arr Lib.ArrLemmas Model.Ext Model.Cdist Model.Reweight Model.Score Model.ScoreTorch Model.DPFC Model.TDPFC.
From Verif Require Import Spec.FlowSpec Spec.TorchSpec Spec.QuerySpec Spec.RealSpec Spec.RangeSpec Spec.Contracts Spec.ReweightSpec.
From Verif Require Import Lib.FlowLemmas Lib.ScoreLemmas Lib.StepLemmas Lib.RunLemmas Lib.StochLemmas Lib.CoreLemmas Lib.TotalLemmas Lib.QueryLemmas Lib.TorchLemmas.
From Verif Require Import Lib.RBase Lib.RSum Lib.ReweightLemmas.
From Verif Require Import Props.Flows Props.Grid Props.Queries Props.Reweighting Props.Torch Props.TorchQueries.
Import ListNotations.
Local Open Scope R_scope.

(** *** variances *)
Lemma ssd_row (z : mat R) d : ssd (row z d) = sumn (mc z) (fun n => (get z d n - nmean (row z d)) ^ 2).
Proof.
  unfold ssd. set (m := nmean (row z d)). unfold row. rewrite map_map, nsum_seq. apply sumn_ext. intros n _. unfold nsq. cbn. ring.
Qed.
Lemma ssd_pos (z : mat R) d : spread z d -> 0 < ssd (row z d).
Proof.
  intros (m & n & Hm & Hn & Hne). rewrite ssd_row. set (a := nmean (row z d)).
  assert (H0 : 0 <= sumn (mc z) (fun n => (get z d n - a) ^ 2)) by (apply sumn_ge0; intros; apply pow2_ge_0).
  destruct H0 as [H0|H0]; [auto|]. exfalso. apply Hne. symmetry in H0.
  assert (Q : forall k, (k < mc z)%nat -> get z d k = a).
  { intros k Hk. pose proof (sumn_0_inv _ _ (fun k _ => pow2_ge_0 (get z d k - a)) H0 k Hk) as Q. cbn beta in Q.
    rewrite <- Rsqr_pow2 in Q. apply Rsqr_0_uniq in Q. lra. }
  rewrite !Q by auto. reflexivity.
Qed.
Lemma gauss_ratio (z : mat R) d x : (2 <= mc z)%nat -> spread z d ->
  t_gauss_score z d x = (INR (mc z) - 1) / INR (mc z) * gauss_score z d x.
Proof.
  intros HN Hs. apply ssd_pos in Hs. unfold t_gauss_score, gauss_score, tstd, nstd, nsq. rewrite !nofnat_R.
  assert (L : List.length (row z d) = mc z) by (unfold row; now rewrite map_length, seq_length). rewrite L.
  set (q := ssd (row z d)) in *. cbn [nmul ndiv nopp nsub nsqrt none1 ROps].
  assert (HI : 1 < INR (mc z)). { change 1 with (INR 1). apply lt_INR. lia. }
  assert (P1 : 0 < q / INR (mc z)) by (apply Rdiv_lt_0_compat; lra).
  assert (P2 : 0 < q / (INR (mc z) - 1)) by (apply Rdiv_lt_0_compat; lra).
  rewrite (sqrt_sqrt (q / INR (mc z))), (sqrt_sqrt (q / (INR (mc z) - 1))) by (left; assumption). field. repeat split; lra.
Qed.

Section TorchR.
  Context {S : Type} (E : Ext R S).

  (** ** C53: on the same flows the torch control is (N-1)/N times the numpy control in the Gaussian window *)
  Theorem C53_torch_numpy_ratio (o : obj R) dim N k A gx ti j s : consistent o dim N k -> forward_of o A ->
    (2 <= N)%nat -> selects k ti j -> edge k ti -> (dim <= mc gx)%nat ->
    exists u v, calculate_u E o gx ti s = (Ok u, s) /\ t_calculate_u E o gx ti s = (Ok v, s) /\
      mr v = mr u /\ mc v = mc u /\
      forall d i, (d < dim)%nat -> (i < mr gx)%nat -> spread (slice (o_B o) j) d -> spread (slice A j) d ->
        get v d i = (INR N - 1) / INR N * get u d i.
  Proof.
    intros Hc HF HN Hs He Hm.
    destruct (C21_gaussian_window E o dim N k Hc A HF gx ti j s) as (u & U1 & U2 & U3 & U4 & _); auto; try lia.
    destruct (C61_torch_gaussian_window E o dim N k Hc A HF gx ti j s) as (v & V1 & V2 & V3 & V4 & _); auto; try lia.
    exists u, v. split; [auto|]. split; [auto|]. split; [congruence|]. split; [congruence|].
    intros d i Hd Hi SB SA. rewrite U4, V4 by auto.
    assert (HA : sh A dim N k).
    { destruct Hc as (_ & _ & HZ & _ & HT). unfold forward_of in HF. destruct (p_reweight (o_par o) && p_brown (o_par o)); [|rewrite HF; now apply has_shape_sh].
      destruct (HT eq_refl) as (Zt & Q & HZt). rewrite HF in Q. injection Q as <-. now apply has_shape_sh in HZt. }
    assert (HB : sh (o_B o) dim N k). { destruct Hc as (_ & _ & _ & HB & _). now apply has_shape_sh in HB. }
    destruct Hs as (Hj & _). destruct (sh_slice _ _ _ _ j HA Hj) as (_ & _ & CA). destruct (sh_slice _ _ _ _ j HB Hj) as (_ & _ & CB).
    rewrite !gauss_ratio by (auto; lia). rewrite CA, CB. cbn. ring.
  Qed.

  (** ** C60: the time grid of torched_DPFC *)
  Lemma t_timegrid_eq (t1 t2 : R) : t1 <= t2 + 1/2000 -> t_timegrid t1 t2 = Ok (timegrid t1 t2).
  Proof.
    intro H. unfold t_timegrid, t_arange. replace (nadd t2 (ndiv dt ntwo)) with (t2 + 1/2000) by (unfold dt, ntwo, nmilli; cbn; lra).
    destruct (nleb t1 (t2 + 1/2000)) eqn:Q; [|apply nleb_R in H; congruence]. f_equal. rewrite timegrid_eq. unfold npts.
    replace (ndiv (nsub (t2 + 1/2000) t1) dt) with ((t2 + 1/2000 - t1) * 1000) by (unfold dt, nmilli; cbn; lra).
    apply map_ext_in. intros i _. rewrite nofnat_R. unfold dt, nmilli. cbn. lra.
  Qed.
  Theorem C60_torch_timegrid b p s o s' : t_construct E b p s = (Ok o, s') -> p_t1 p <= p_t2 p ->
    regular_grid (1/1000) (p_t1 p) (p_t2 p) (o_grid o) /\
    (forall i j, (i < j < List.length (o_grid o))%nat -> nth i (o_grid o) 0 < nth j (o_grid o) 0) /\
    (forall n, p_t2 p = p_t1 p + INR n * (1/1000) ->
       List.length (o_grid o) = (n + 1)%nat /\ nth 0 (o_grid o) 0 = p_t1 p /\ nth n (o_grid o) 0 = p_t2 p).
  Proof.
    intros Hc Ht. destruct (t_construct_ok E b p s o s' Hc) as (_ & _ & _ & G & _).
    rewrite t_timegrid_eq in G by lra. injection G as <-. split; [|split].
    - unfold regular_grid. rewrite length_grid.
      destruct (npts_find (p_t1 p) (p_t2 p) ltac:(lra)) as (n & Hn). rewrite (npts_spec _ _ n Hn).
      split; [lia|]. split.
      + intros i Hi. apply nth_grid. rewrite (npts_spec _ _ n Hn). lia.
      + rewrite nth_grid by (rewrite (npts_spec _ _ n Hn); lia). replace (n + 1 - 1)%nat with n by lia. apply Rabs_le. lra.
    - intros i j (Hij & Hj). rewrite length_grid in Hj. rewrite !nth_grid by lia. apply lt_INR in Hij. lra.
    - intros n Hn. rewrite length_grid. assert (Q : npts (p_t1 p) (p_t2 p) = (n + 1)%nat) by (apply npts_spec; lra).
      split; [auto|]. rewrite !nth_grid by lia. cbn [INR]. split; [lra|]. rewrite Hn. reflexivity.
  Qed.
  (** reversed intervals: RuntimeError (numpy: IndexError, C02) when t2 is more than half a step before t1 *)
  Theorem C60_torch_reversed_interval p s : p_t2 p + 1/2000 < p_t1 p -> t_construct E IsTensor p s = (Err RuntimeError, s).
  Proof.
    intro H. unfold t_construct, size_dim0. unfold bind at 1, lift at 1. unfold bind at 1, lift at 1. unfold t_timegrid, t_arange.
    replace (nadd (p_t2 p) (ndiv dt ntwo)) with (p_t2 p + 1/2000) by (unfold dt, ntwo, nmilli; cbn; lra).
    destruct (nleb (p_t1 p) (p_t2 p + 1/2000)) eqn:Q; [apply nleb_R in Q; lra|reflexivity].
  Qed.
  (** the grid of the torch class is the grid of the numpy class *)
  Theorem C60_same_grid b p s o s' (s0 : S) o0 s0' : t_construct E b p s = (Ok o, s') -> construct E p s0 = (Ok o0, s0') -> o_grid o = o_grid o0.
  Proof.
    intros Hc H0. destruct (t_construct_ok E b p s o s' Hc) as (_ & _ & _ & G & _). rewrite (grid_eq E p s0 o0 s0' H0).
    destruct (Rle_dec (p_t1 p) (p_t2 p + 1/2000)) as [H|H].
    - rewrite t_timegrid_eq in G by auto. congruence.
    - unfold t_timegrid, t_arange in G. replace (nadd (p_t2 p) (ndiv dt ntwo)) with (p_t2 p + 1/2000) in G by (unfold dt, ntwo, nmilli; cbn; lra).
      destruct (nleb (p_t1 p) (p_t2 p + 1/2000)) eqn:Q; [apply nleb_R in Q; lra|discriminate].
  Qed.

  (** ** C54: every slice a deterministic step started from takes at least two values in every coordinate *)
  Theorem C54_every_coordinate_spread b p s o s' : t_construct E b p s = (Ok o, s') -> p_y1 p <> [] -> p_det p = true ->
    forall i d, (1 <= i)%nat -> (i + 1 < List.length (o_grid o))%nat -> (d < List.length (p_y1 p))%nat -> spread (slice (o_Z o) i) d.
  Proof.
    intros Hc Hy Hd i d H1 H2 Hdd. destruct (C54_boxes_have_width E b p s o s' Hc Hy Hd i d H1 H2 Hdd) as (lo & hi & L & H & Q).
    apply nltb_R in Q. apply rlo_R in L. apply rhi_R in H. destruct L as ((m & Hm & Lm) & _), H as ((n & Hn & Ln) & _).
    exists m, n. split; [auto|]. split; [auto|]. lra.
  Qed.
  (** at least two particles are needed *)
  Theorem C54_one_particle_raises b p s grid : t_timegrid (p_t1 p) (p_t2 p) = Ok grid -> (3 <= List.length grid)%nat ->
    p_det p = true -> p_y1 p <> [] -> (p_N p <= 1)%nat -> exists e, fst (t_construct E b p s) = Err e.
  Proof.
    intros G Hk Hd Hy HN. destruct (t_construct E b p s) as [[o|e] s'] eqn:Hc; [|exists e; reflexivity]. exfalso.
    destruct (t_construct_ok E b p s o s' Hc) as (_ & _ & _ & G' & _). rewrite G in G'. injection G' as Gr.
    assert (Hp : (0 < List.length (p_y1 p))%nat) by (destruct (p_y1 p); [congruence|cbn; lia]).
    destruct (C54_every_coordinate_spread b p s o s' Hc Hy Hd 1 0 ltac:(lia) ltac:(rewrite <- Gr; lia) Hp) as (m & n & Hm & Hn & Hne).
    pose proof (C49_torch_shape E b p s o s' Hc Hy) as (HZ & _). apply has_shape_sh in HZ.
    destruct (sh_slice _ _ _ _ 1 HZ ltac:(rewrite <- Gr; lia)) as (_ & _ & C). rewrite C in *. assert (m = n) by lia. congruence.
  Qed.
  (** a coordinate without noise (its row of g is zero) in which the drift does not separate particles at the same place:
      the constructor raises, whatever the other coordinates do *)
  Theorem C54_noise_free_coordinate_raises b p s grid d : t_timegrid (p_t1 p) (p_t2 p) = Ok grid -> (3 <= List.length grid)%nat ->
    p_det p = true -> p_reweight p = false -> (d < List.length (p_y1 p))%nat ->
    (forall n, (n < p_N p)%nat -> elem (p_g p) d n = 0) ->
    (forall x t F m n, (m < mc x)%nat -> (n < mc x)%nat -> (forall c, (c < mr x)%nat -> get x c m = get x c n) -> call2 (p_f p) x t = Ok F -> elem F d m = elem F d n) ->
    exists e, fst (t_construct E b p s) = Err e.
  Proof.
    intros G Hk Hd Hr Hdd Hg Hf. destruct (t_construct E b p s) as [[o|e] s'] eqn:Hc; [|exists e; reflexivity]. exfalso.
    destruct (t_construct_ok E b p s o s' Hc) as (_ & _ & _ & G' & _). rewrite G in G'. injection G' as Gr.
    assert (Hy : p_y1 p <> []) by (intro Q; rewrite Q in Hdd; cbn in Hdd; lia).
    assert (K3 : (3 <= List.length (o_grid o))%nat) by (rewrite <- Gr; lia).
    destruct (C54_every_coordinate_spread b p s o s' Hc Hy Hd 1 d ltac:(lia) ltac:(lia) Hdd) as (m & n & Hm & Hn & Hne).
    pose proof (C49_torch_shape E b p s o s' Hc Hy) as (HZ & _). pose proof HZ as HZ'. apply has_shape_sh in HZ.
    destruct (sh_slice _ _ _ _ 1 HZ ltac:(lia)) as (_ & R1 & C1). rewrite C1 in Hm, Hn.
    destruct (sh_slice _ _ _ _ 0 HZ ltac:(lia)) as (_ & R0 & C0).
    destruct (C57_torch_forward_recurrence E b p s o s' Hc Hy Hd) as (sg & _ & H). specialize (H 1%nat ltac:(lia)). rewrite Hr in H.
    unfold t_plain_step in H. cbn [Nat.eqb Nat.sub] in H. destruct H as (F & W & HF & _ & HW). rewrite R0, C0 in HW.
    pose proof (C49_torch_forward_start E b p s o s' Hc Hd ltac:(lia)) as H0.
    assert (Q : forall c k, (c < List.length (p_y1 p))%nat -> (k < p_N p)%nat -> get (slice (o_Z o) 0) c k = nth c (p_y1 p) 0).
    { intros c k0 Hcc Hk0. destruct HZ' as (D & NN & _). apply H0; congruence. }
    apply Hne. rewrite !HW by auto. rewrite !Hg by auto. rewrite !Q by auto.
    rewrite (Hf _ _ F m n ltac:(rewrite C0; exact Hm) ltac:(rewrite C0; exact Hn) ltac:(rewrite R0; intros c Hcc; now rewrite !Q by auto) HF). cbn. ring.
  Qed.

  (** ** C50 over the reals: bridge mode needs exactly as many particles as dimensions *)
  Theorem C50_bridge_square b p s o s' : t_construct E b p s = (Ok o, s') -> p_y1 p <> [] ->
    p_det p = true -> p_reweight p = true -> p_brown p = true -> (3 <= List.length (o_grid o))%nat ->
    p_N p = List.length (p_y1 p) /\ (p_M p = List.length (p_y1 p) \/ p_M p = 1%nat).
  Proof.
    intros Hc Hy Hd Hr Hb Hk. destruct (C50_bridge_needs E b p s o s' Hc Hy Hd Hr Hb Hk) as (_ & [H|H] & HM); [auto|]. exfalso.
    destruct (t_construct_ok E b p s o s' Hc) as (_ & _ & _ & G & _).
    destruct (C54_one_particle_raises b p s (o_grid o) G Hk Hd Hy H) as (e & He). rewrite Hc in He. discriminate.
  Qed.

  (** ** C62: reweighting in the torch class *)
  Lemma t_cost_ok (y cost : mat R) mx : (exists d, (d < mr y)%nat /\ spread y d) ->
    lmax (flat_map (fun i => map (fun j => nsum (map (fun d => nsq (nsub (get y d i) (get y d j))) (seq 0 (mr y)))) (seq 0 (mc y))) (seq 0 (mc y))) = Ok mx ->
    (forall i j, (i < mc y)%nat -> (j < mc y)%nat -> get cost i j = ndiv (nsum (map (fun d => nsq (nsub (get y d i) (get y d j))) (seq 0 (mr y)))) mx) ->
    0 < mx /\ forall i j, (i < mc y)%nat -> (j < mc y)%nat -> get cost i j = sq_distance y i j / mx.
  Proof.
    intros (d & Hd & m & n & Hm & Hn & Hne) Hmx Hc.
    assert (Q : forall i j, nsum (map (fun d => nsq (nsub (get y d i) (get y d j))) (seq 0 (mr y))) = sq_distance y i j).
    { intros i j. rewrite nsum_seq. unfold sq_distance. apply sumn_ext. intros. unfold nsq. cbn. ring. }
    split; [|intros i j Hi Hj; rewrite Hc, Q by auto; reflexivity].
    apply lmax_R in Hmx. destruct Hmx as (_ & Hmx). eapply Rlt_le_trans; [|apply (Hmx (sq_distance y m n))].
    - unfold sq_distance. assert (H0 : 0 <= sumn (mr y) (fun d => (get y d m - get y d n) ^ 2)) by (apply sumn_ge0; intros; apply pow2_ge_0).
      destruct H0 as [H0|H0]; [auto|]. exfalso. symmetry in H0.
      pose proof (sumn_0_inv _ _ (fun k _ => pow2_ge_0 (get y k m - get y k n)) H0 d Hd) as Z. cbn beta in Z.
      rewrite <- Rsqr_pow2 in Z. apply Rsqr_0_uniq in Z. lra.
    - apply in_flat_map. exists m. split; [apply in_seq; lia|]. apply in_map_iff. exists n. split; [apply Q|apply in_seq; lia].
  Qed.
  Lemma sq_distance_ge0 y i j : 0 <= sq_distance y i j.
  Proof. apply sumn_ge0. intros. apply pow2_ge_0. Qed.

  Lemma t_reweighted_plan e y x' : emd_plans (x_otemd E) -> (1 <= mc y)%nat -> (exists d, (d < mr y)%nat /\ spread y d) -> t_reweighted E e y x' ->
    exists P, plan (mc y) (softmax (mc y) e) (fun _ => / INR (mc y)) P /\ moved y x' P.
  Proof.
    intros HE HN Hs (mx & cost & flow & Hmx & _ & Hr & Hc & Hcost & -> & Hx). cbv zeta in *. rewrite (weights_R _ _ HN) in Hx.
    destruct (t_cost_ok y cost mx Hs Hmx Hcost) as (Hp & Hd). destruct (call_pre (mc y) e HN) as (L1 & L2 & P1 & P2 & P3).
    eexists. split; [|].
    - eapply plan_ext; [| |apply (HE (mc y) _ _ cost L1 L2 Hr Hc P1 P2 P3)].
      + intros i Hi. now apply hist_map.
      + intros i Hi. now apply uniform_at.
      + intros i j Hi Hj. rewrite Hd by auto. apply Rmult_le_pos; [apply sq_distance_ge0|left; now apply Rinv_0_lt_compat].
    - intros d n Hdd Hn. rewrite Hx by auto. rewrite nsum_seq. apply sumn_ext. intros m _. rewrite nofnat_R. unfold uniform_hist. rewrite nofnat_R. cbn. ring.
  Qed.
  Lemma t_reweighted_optimal e y x' : otemd_contract E -> (1 <= mc y)%nat -> (exists d, (d < mr y)%nat /\ spread y d) -> t_reweighted E e y x' ->
    exists P, optimal (mc y) (softmax (mc y) e) (fun _ => / INR (mc y)) (sq_distance y) P /\ moved y x' P.
  Proof.
    intros HE HN Hs (mx & cost & flow & Hmx & _ & Hr & Hc & Hcost & -> & Hx). cbv zeta in *. rewrite (weights_R _ _ HN) in Hx.
    destruct (t_cost_ok y cost mx Hs Hmx Hcost) as (Hp & Hd). destruct (call_pre (mc y) e HN) as (L1 & L2 & P1 & P2 & P3).
    eexists. split; [|].
    - assert (Opt : optimal (mc y) (softmax (mc y) e) (fun _ => / INR (mc y)) (fun i j => sq_distance y i j / mx)
         (x_otemd E (map (softmax (mc y) e) (seq 0 (mc y))) (uniform_hist (mc y)) cost)).
      { eapply optimal_ext; [| |exact Hd|apply (HE (mc y) _ _ cost L1 L2 Hr Hc P1 P2 P3)].
        + intros i Hi. now apply hist_map.
        + intros i Hi. now apply uniform_at.
        + intros i j Hi Hj. rewrite Hd by auto. apply Rmult_le_pos; [apply sq_distance_ge0|left; now apply Rinv_0_lt_compat]. }
      destruct Opt as (O1 & O2). split; [exact O1|]. intros Q HQ. specialize (O2 Q HQ).
      assert (Sc : forall P, plan_cost (mc y) (fun i j => sq_distance y i j / mx) P = plan_cost (mc y) (sq_distance y) P * / mx).
      { intro P. unfold plan_cost. rewrite <- sumn_scal_r. apply sumn_ext. intros i _. rewrite <- sumn_scal_r. apply sumn_ext. intros j _. unfold Rdiv. ring. }
      rewrite !Sc in O2. apply Rmult_le_reg_r in O2; [exact O2|]. now apply Rinv_0_lt_compat.
    - intros d n Hdd Hn. rewrite Hx by auto. rewrite nsum_seq. apply sumn_ext. intros m _. rewrite nofnat_R. unfold uniform_hist. rewrite nofnat_R. cbn. ring.
  Qed.
  Lemma t_reweighted_from_ok e y z : emd_plans (x_otemd E) -> (1 <= mc y)%nat -> (exists d, (d < mr y)%nat /\ spread y d) -> mc z = mc y ->
    t_reweighted E e y z -> reweighted_from e y z.
  Proof.
    intros HE HN Hs Hz H. destruct (t_reweighted_plan e y z HE HN Hs H) as (P & HP & Hm).
    pose proof (moved_convex y z _ P HN HP Hm) as Hc. split; [auto|]. split.
    - intros d n Hd Hn. specialize (Hc n Hn). split.
      + apply (convex_lower y (fun d => get z d n) d HN Hd Hc).
      + apply (convex_upper y (fun d => get z d n) d HN Hd Hc).
    - now apply (moved_average y z _ P).
  Qed.

  (** every slice of a reweighted torch run is obtained from the particles y of the unreweighted step by convex combination,
      preserving the weighted mean, unless all particles of y coincide (then the cost matrix is 0/0) *)
  Theorem C62_torch_reweighting b p s o s' : emd_plans (x_otemd E) -> t_construct E b p s = (Ok o, s') -> p_y1 p <> [] ->
    p_det p = true -> p_reweight p = true -> (1 <= p_N p)%nat ->
    forall i, (1 <= i < List.length (o_grid o))%nat ->
    exists y u sa sb, mr y = List.length (p_y1 p) /\ mc y = p_N p /\
      t_plain_step E nmilli (p_M p) (p_g p) (call2 (p_f p)) i (nth i (o_grid o) 0) (slice (o_Z o) (i-1)) y sa sb /\
      ocall2 (p_U p) y (nth i (o_grid o) 0) = Ok u /\
      ((exists d, (d < List.length (p_y1 p))%nat /\ spread y d) -> reweighted_from (fun n => elem u 0 n * / 1000) y (slice (o_Z o) i)).
  Proof.
    intros HE Hc Hy Hd Hr HN i Hi. destruct (C57_torch_forward_recurrence E b p s o s' Hc Hy Hd) as (sg & _ & H).
    rewrite Hr in H. destruct (H i Hi) as (y & u & _ & Ry & Cy & Hst & HU & Hw).
    pose proof (C49_torch_shape E b p s o s' Hc Hy) as (HZ & _). apply has_shape_sh in HZ.
    destruct (sh_slice _ _ _ _ (i-1) HZ ltac:(lia)) as (_ & R0 & C0). destruct (sh_slice _ _ _ _ i HZ ltac:(lia)) as (_ & R1 & C1).
    exists y, u, (sg (i-1)%nat), (sg i). split; [lia|]. split; [lia|]. split; [exact Hst|]. split; [exact HU|]. intro Hs.
    apply t_reweighted_from_ok; [auto|lia|destruct Hs as (d & ? & ?); exists d; split; [lia|auto]|lia|].
    replace (fun n => elem u 0 n * / 1000) with (fun n => nmul (elem u 0 n) nmilli); [exact Hw|].
    apply FunctionalExtensionality.functional_extensionality. intro n. unfold nmilli. cbn. unfold Rdiv. now rewrite Rmult_1_l.
  Qed.
  Theorem C62_torch_reweighting_stochastic b p s o s' : emd_plans (x_otemd E) -> t_construct E b p s = (Ok o, s') -> p_y1 p <> [] ->
    p_det p = false -> p_reweight p = true -> (1 <= p_N p)%nat ->
    forall i, (1 <= i < List.length (o_grid o))%nat ->
    exists y u sa sb, mr y = List.length (p_y1 p) /\ mc y = p_N p /\
      noisy_step E nmilli (p_g p) (call2 (p_f p)) (nth i (o_grid o) 0 - nmilli) (slice (o_Z o) (i-1)) y sa sb /\
      ocall1 (p_U p) y = Ok u /\
      ((exists d, (d < List.length (p_y1 p))%nat /\ spread y d) -> reweighted_from (fun n => elem u 0 n) y (slice (o_Z o) i)).
  Proof.
    intros HE Hc Hy Hd Hr HN i Hi. destruct (C59_torch_stochastic_recurrence E b p s o s' Hc Hy Hd) as (sg & _ & H).
    rewrite Hr in H. destruct (H i Hi) as (y & u & _ & Ry & Cy & Hst & HU & Hw).
    pose proof (C49_torch_shape E b p s o s' Hc Hy) as (HZ & _). apply has_shape_sh in HZ.
    destruct (sh_slice _ _ _ _ (i-1) HZ ltac:(lia)) as (_ & R0 & C0). destruct (sh_slice _ _ _ _ i HZ ltac:(lia)) as (_ & R1 & C1).
    exists y, u, (sg (i-1)%nat), (sg i). split; [lia|]. split; [lia|]. split; [exact Hst|]. split; [exact HU|]. intro Hs.
    apply t_reweighted_from_ok; [auto|lia|destruct Hs as (d & ? & ?); exists d; split; [lia|auto]|lia|]. exact Hw.
  Qed.
  (** the move is an optimal transport for the squared distances (the numpy class: for the distances) *)
  Theorem C62_squared_distance_transport e y x' : otemd_contract E -> (1 <= mc y)%nat -> (exists d, (d < mr y)%nat /\ spread y d) ->
    t_reweighted E e y x' -> exists P, optimal (mc y) (softmax (mc y) e) (fun _ => / INR (mc y)) (sq_distance y) P /\
      forall d n, (d < mr y)%nat -> (n < mc y)%nat -> get x' d n = sumn (mc y) (fun m => get y d m * (P m n * INR (mc y))).
  Proof. exact (t_reweighted_optimal e y x'). Qed.
  Theorem C62_equal_weights_move_nothing e y x' : otemd_contract E -> (1 <= mc y)%nat -> (exists d, (d < mr y)%nat /\ spread y d) ->
    (forall m n, (m < mc y)%nat -> (n < mc y)%nat -> e m = e n) -> t_reweighted E e y x' ->
    forall d n, (d < mr y)%nat -> (n < mc y)%nat -> get x' d n = get y d n.
  Proof.
    intros HE HN Hs He H. destruct (t_reweighted_optimal e y x' HE HN Hs H) as (P & HP & Hm).
    apply (moved_identity y x' P (sq_distance y)); auto.
    - intros. apply sq_distance_ge0.
    - intros i Hi. unfold sq_distance. apply sumn_0. intros; ring.
    - intros i j Hi Hj H0 d Hd. pose proof (sumn_0_inv _ _ (fun k _ => pow2_ge_0 (get y k i - get y k j)) H0 d Hd) as Z. cbn beta in Z.
      rewrite <- Rsqr_pow2 in Z. apply Rsqr_0_uniq in Z. lra.
    - eapply optimal_ext; [| | |exact HP]; auto. intros i Hi. apply (softmax_const _ e (e 0%nat)); auto.
  Qed.
End TorchR.
