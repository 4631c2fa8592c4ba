(** The stochastic forward loop (no modelling content). *)
From Coq Require Import String List ZArith Lia Bool.
From Verif Require Import Base.Num Base.Py Base.Arr Lib.ArrLemmas Model.Ext Model.Cdist Model.Reweight Model.Score Model.DPFC.
From Verif Require Import Spec.FlowSpec Lib.FlowLemmas Lib.ScoreLemmas Lib.StepLemmas Lib.RunLemmas.
Import ListNotations.

Section Stoch.
  Context {T S : Type} {O : NumOps T} (E : Ext T S).
  Notation mat := (mat T). Notation arr3 := (arr3 T).

  Lemma setcol3_ok (A A' : arr3) d n k i t src : sh A d n k -> setcol3 A (Z.of_nat i) (Z.of_nat t) src = Ok A' ->
    i < n /\ t < k /\ sh A' d n k /\ fits src 1 d /\
    (forall a b, a < d -> b < n -> get (slice A' t) a b = if b =? i then bget src 0 a else get (slice A t) a b) /\
    (forall t', t' <> t -> slice A' t' = slice A t').
  Proof.
    intros HA H. pose proof HA as (W & D & N & K). unfold setcol3 in H. rewrite D, N, K in H.
    destruct (Nat.lt_ge_cases i n) as [Hi|Hi]; [|rewrite (pyidx_nat_none n) in H by auto; discriminate].
    destruct (Nat.lt_ge_cases t k) as [Ht|Ht];
      [|rewrite (pyidx_nat n), (pyidx_nat_none k) in H by auto; discriminate].
    rewrite !pyidx_nat in H by auto. invok. apply assign_shape_ok in E0. destruct E0 as (_ & _ & _ & Fr & Fc & G).
    set (m := mk d n _). 
    assert (Heq : Arr3 d n k (upd (a_s A) t m) = setslice A t m) by (unfold setslice; now rewrite D, N, K).
    rewrite Heq. split; [auto|]. split; [auto|]. split. { apply sh_set; auto. apply wf_mk. }
    split; [split; tauto|]. split.
    - intros a' b Ha Hb. rewrite slice_set_same by (auto; lia). unfold m. rewrite get_mk by auto.
      destruct (b =? i); [apply G; lia|reflexivity].
    - intros. apply slice_set_other. auto.
  Qed.

  Lemma stoch_particle_ok p (Zf Z' : arr3) ti i s s' dim N k :
    dim = List.length (p_y1 p) -> sh Zf dim N k -> 1 <= ti ->
    stoch_particle E p ti Zf i s = (Ok Z', s') ->
    i < N /\ ti < k /\ sh Z' dim N k /\ (forall t, t <> ti -> slice Z' t = slice Zf t) /\
    (forall a b, a < dim -> b < N -> b <> i -> get (slice Z' ti) a b = get (slice Zf ti) a b) /\
    exists F W, call1 (p_f p) (vec (col (slice Zf (ti-1)) i)) = Ok F /\ x_normal E s (nsqrt dt) 1 dim = (W, s') /\
      forall d, d < dim -> get (slice Z' ti) d i =
         nadd (nadd (get (slice Zf (ti-1)) d i) (nmul dt (elem F 0 d))) (nmul (elem (p_g p) 0 d) (W 0 d)).
  Proof.
    intros Hdim HZ Ht H. unfold stoch_particle in H. rewrite <- Hdim in H. 
    apply bind_ok in H. destruct H as (x & s1 & Hx & H). apply lift_ok in Hx. destruct Hx as (Hx & ->).
    replace (Z.of_nat ti - 1)%Z with (Z.of_nat (ti-1)) in Hx by lia.
    apply getsl_ok in Hx. destruct Hx as (j & Pj & -> & Jk). destruct (pyidx_some _ _ _ Pj) as (_ & [Q|Q]); [|lia].
    assert (j = ti - 1) by lia. subst j. clear Q Pj. 
    replace (a_k Zf) with k in Jk by (symmetry; apply HZ).
    destruct (sh_slice _ _ _ _ (ti-1) HZ Jk) as (W & R & C).
    invok. apply normal_ok in E2. destruct E2 as (Wn & HW & ->).
    destruct (setcol3_ok _ _ _ _ _ _ _ _ HZ H) as (Hi & Htk & HZ' & F & Hg & Hun).
    split; [auto|]. split; [auto|]. split; [auto|]. split; [auto|]. split.
    { intros a' b Ha Hb Hne. rewrite Hg by auto. apply Nat.eqb_neq in Hne. now rewrite Hne. }
    exists a, Wn. split; [auto|]. split; [auto|]. intros d Hd.
    rewrite Hg, Nat.eqb_refl by auto.
    unfold smul in *.
    destruct (bc2_fit _ _ _ _ _ _ E4 F) as (F1 & F2 & G).
    destruct (bc2_fit _ _ _ _ _ _ E1 F1) as (F3 & F4 & G1).
    destruct (bc2_fit _ _ _ _ _ _ E3 F2) as (F5 & F6 & G2).
    destruct (mmap1_fit _ _ _ _ F4) as (F7 & G3).
    rewrite G, G1, G2, G3 by lia. rewrite bget_mk by lia.
    unfold vec at 1. rewrite bget_mk by (rewrite ?col_length; lia). rewrite nth_col by lia. reflexivity.
  Qed.

  Definition stoch_step (p : params T) : mat -> mat -> S -> S -> Prop :=
    if p_reweight p then weighted_particle_step E dt (p_g p) (call1 (p_f p)) (ocall1 (p_U p))
    else particle_step E dt (p_g p) (call1 (p_f p)).

  Lemma stoch_particles p (Zf Z1 : arr3) ti s s' dim N k :
    dim = List.length (p_y1 p) -> N = p_N p -> sh Zf dim N k -> 1 <= ti < k ->
    mfold (stoch_particle E p ti) (seq 0 N) Zf s = (Ok Z1, s') ->
    sh Z1 dim N k /\ (forall t, t <> ti -> slice Z1 t = slice Zf t) /\
    particle_step E dt (p_g p) (call1 (p_f p)) (slice Zf (ti-1)) (slice Z1 ti) s s'.
  Proof.
    intros Hdim HN HZ Ht H. rewrite <- (map_id (seq 0 N)) in H.
    apply (mfold_seq_inv _ _ (fun i B sb => sh B dim N k /\ (forall t, t <> ti -> slice B t = slice Zf t) /\
      exists sg : nat -> S, sg 0 = s /\ sg i = sb /\ forall n, n < i -> exists F W,
        call1 (p_f p) (vec (col (slice Zf (ti-1)) n)) = Ok F /\ x_normal E (sg n) (nsqrt dt) 1 dim = (W, sg (Datatypes.S n)) /\
        forall d, d < dim ->
          get (slice B ti) d n = nadd (nadd (get (slice Zf (ti-1)) d n) (nmul dt (elem F 0 d))) (nmul (elem (p_g p) 0 d) (W 0 d)))) in H.
    - destruct H as (H1 & H2 & sg & H3 & H4 & H5). split; [auto|]. split; [auto|]. exists sg.
      destruct (sh_slice _ _ _ _ (ti-1) HZ ltac:(lia)) as (_ & R & C). rewrite R, C. auto.
    - split; [auto|]. split; [auto|]. exists (fun _ => s). split; [auto|]. split; [auto|]. intros; lia.
    - intros i B sb B' sb' Hi (HB & Hun & sg & S0 & Si & Hst) Hbd.
      destruct (stoch_particle_ok _ _ _ _ _ _ _ _ _ _ Hdim HB (proj1 Ht) Hbd) as (_ & _ & HB' & Hun' & Hoth & F & W & HF & HW & Hv).
      split; [auto|]. split. { intros t Hne. rewrite Hun' by auto. auto. }
      exists (fun x => if x <=? i then sg x else sb'). split; [exact S0|]. split.
      { destruct (Nat.leb_spec (Datatypes.S i) i); [lia|reflexivity]. }
      intros n Hn. destruct (Nat.leb_spec n i); [|lia]. rewrite Hun in HF, Hv by lia.
      destruct (Nat.eq_dec n i) as [->|Hne].
      + destruct (Nat.leb_spec (Datatypes.S i) i); [lia|]. exists F, W. rewrite Si. auto.
      + destruct (Nat.leb_spec (Datatypes.S n) i); [|lia].
        destruct (Hst n ltac:(lia)) as (F0 & W0 & A1 & A2 & A3). exists F0, W0. split; [auto|]. split; [auto|].
        intros d Hd. rewrite Hoth by lia. auto.
  Qed.

  Lemma stoch_step_ok p (Zf Z' : arr3) tt ti s s' dim N k :
    dim = List.length (p_y1 p) -> N = p_N p -> sh Zf dim N k -> 1 <= ti < k ->
    stoch_body E p Zf (ti, tt) s = (Ok Z', s') ->
    sh Z' dim N k /\ stoch_step p (slice Zf (ti-1)) (slice Z' ti) s s' /\
    (forall t, t <> ti -> slice Z' t = slice Zf t).
  Proof.
    intros Hdim HN HZ Ht H. unfold stoch_body in H. rewrite <- HN in H.
    destruct (Nat.eqb_spec ti 0); [lia|].
    apply bind_ok in H. destruct H as (Z1 & s1 & H1 & H).
    destruct (stoch_particles _ _ _ _ _ _ _ _ _ Hdim HN HZ Ht H1) as (HZ1 & Hun & Hst).
    unfold stoch_step. destruct (p_reweight p).
    - apply lift_ok in H. destruct H as (H & ->). invok.
      rewrite getsl_nat in E0 by (destruct HZ1 as (_ & _ & _ & ->); lia). injection E0 as <-.
      destruct (sh_slice _ _ _ _ ti HZ1 ltac:(lia)) as (W1 & R1 & C1).
      destruct (sh_slice _ _ _ _ (ti-1) HZ ltac:(lia)) as (W0 & R0 & C0).
      apply reweight_slice_ok in E2; auto. destruct E2 as (F & Wy & Ry & Cy & Hrw).
      apply (assign_fit _ _ _ _ _ _ _ HZ1) in H. destruct H as (_ & HZ' & _ & _ & Hg & Hf).
      split; [auto|]. split.
      + exists (slice Z1 ti), a0. split; [now apply wf_rect|]. split; [congruence|]. split; [congruence|]. split; [auto|]. split; [auto|].
        destruct Hrw as (cost & flow & K0 & K1 & K2 & K3 & K4 & K5). rewrite C1 in K1, K2, K3, K4, K5.
        exists cost, flow. rewrite C1. split; [auto|]. split; [auto|]. split; [auto|]. split; [auto|]. split; [auto|].
        intros d n0 Hd Hn0. rewrite <- K5 by auto. rewrite Hg by lia. apply bget_in; lia.
      + intros t Hne. rewrite Hf by auto. auto.
    - apply ret_ok in H. destruct H as (-> & ->). auto.
  Qed.

  Lemma stoch_run p (grid : list T) s Z s' : let dim := List.length (p_y1 p) in let k := List.length grid in
    forward_sampling E p grid (zeros3 dim (p_N p) k) s = (Ok Z, s') -> 0 < k ->
    sh Z dim (p_N p) k /\ 2 <= dim /\ dim <= List.length (p_y2 p) /\
    slice Z (k-1) = mk dim (p_N p) (fun a _ => nth a (p_y2 p) nzero) /\
    (2 <= k -> slice Z 0 = mk dim (p_N p) (fun a _ => if a <? 2 then nth a (p_y1 p) nzero else nzero)) /\
    exists Z1 sg, sg 0 = s /\ sg (k - 1) = s' /\ (forall t, t < k - 1 -> slice Z t = slice Z1 t) /\
      forall i, 1 <= i < k -> stoch_step p (slice Z1 (i-1)) (slice Z1 i) (sg (i-1)) (sg i).
  Proof.
    intros dim k H Hk. unfold forward_sampling in H. subst k. destruct grid as [|t0 grid]; [simpl in Hk; lia|].
    apply bind_ok in H. destruct H as (Z1 & s1 & H & HP). apply lift_ok in HP. destruct HP as (HP & ->).
    rewrite (enumerate_cons _ _ nzero) in H. cbn [mfold] in H.
    apply bind_ok in H. destruct H as (Z0 & s0 & H0 & H).
    set (k := List.length (t0 :: grid)) in *. assert (Ek : List.length grid = k - 1) by (unfold k; simpl; lia).
    pose proof (sh_zeros (T:=T) dim (p_N p) k) as HA.
    unfold stoch_body in H0 at 1. cbn [Nat.eqb] in H0. apply lift_ok in H0. destruct H0 as (H0 & ->).
    invok. apply (pyget_nat_ok _ 0 _ nzero) in E0. destruct E0 as (L0 & ->).
    apply (pyget_nat_ok _ 1 _ nzero) in E2. destruct E2 as (L1 & ->).
    pose proof HA as (WA & DA & NA & KA).
    apply (setrow3_ok _ 0) in E1; auto. destruct E1 as (j & Pj & Jk & Id & WB & ->).
    rewrite KA, pyidx_0 in Pj by auto. injection Pj as <-.
    apply (setrow3_ok _ 1) in H0; auto. destruct H0 as (j & Pj & Jk' & Id' & WB' & HZ0).
    cbn [a_k setslice] in Pj. rewrite KA, pyidx_0 in Pj by auto. injection Pj as <-.
    cbn [a_k setslice] in Jk, Jk', Id'. rewrite KA in Jk. cbn in Id'.
    assert (SZ0 : sh Z0 dim (p_N p) k) by (split; [auto|]; rewrite HZ0; cbn; auto).
    assert (I : slice Z0 0 = mk dim (p_N p) (fun a _ => if a <? 2 then nth a (p_y1 p) nzero else nzero)).
    { rewrite HZ0. rewrite slice_set_same by (auto; cbn; lia). rewrite slice_set_same by (auto; cbn; lia).
      rewrite slice_zeros. unfold rowset. cbn [mr mc mk mzeros mconst]. apply mk_ext. intros a b Ha Hb.
      rewrite get_mk by auto. destruct a as [|[|a]]; cbn [Nat.eqb Nat.ltb Nat.leb]; auto. unfold mzeros, mconst; now rewrite get_mk by auto. }
    rewrite Ek in H.
    apply (flow_fold _ _ (fun i => Datatypes.S i) (fun i => i) (fun i => stoch_step p) dim (p_N p) k) in H; auto.
    - destruct H as (HZ & Hun & sg & Hs0 & Hs1 & Hst).
      apply (pin_ok _ _ _ _ _ _ _ HZ) in HP. destruct HP as (HZf & Ly2 & _ & Ip & Hunp).
      split; [auto|]. split; [unfold dim; lia|]. split; [auto|]. split. { apply Ip. apply pyidx_m1. auto. }
      assert (Hne : forall t, t < k - 1 -> slice Z t = slice Z1 t).
      { intros t Ht. apply Hunp. rewrite pyidx_m1 by auto. intro Q. injection Q as Q. lia. }
      split. { intro. rewrite Hne by lia. rewrite Hun by (intros; lia). auto. }
      exists Z1, sg. split; [auto|]. split; [auto|]. split; [auto|].
      intros i Hi. specialize (Hst (i-1) ltac:(lia)).
      replace (Datatypes.S (i-1)) with i in Hst by lia. exact Hst.
    - intros; lia.
    - intros i B sb B' sb' Hi HB Hbd. apply (stoch_step_ok _ _ _ _ _ _ _ dim (p_N p) k) in Hbd; auto; try lia.
      replace (Datatypes.S i - 1) with i in Hbd by lia. exact Hbd.
  Qed.

  (** the constructor, unfolded *)
  Lemma construct_ok p s o s' : construct E p s = (Ok o, s') ->
    let dim := List.length (p_y1 p) in let grid := timegrid (p_t1 p) (p_t2 p) in let kern := kern_used (p_kern p) in
    let zeros := zeros3 dim (p_N p) (List.length grid) in
    o_par o = p /\ o_kern o = kern /\ o_grid o = grid /\
    exists s1 s2,
      (if p_det p then
         forward_sampling_Otto E p kern grid zeros s = (Ok (o_Z o), s1) /\
         (if p_reweight p && p_brown p then
            exists Zt, o_Ztr o = Some Zt /\ forward_sampling_Otto_true E p kern grid zeros s1 = (Ok Zt, s2)
          else o_Ztr o = None /\ s2 = s1)
       else forward_sampling E p grid zeros s = (Ok (o_Z o), s1) /\ s2 = s1 /\
            o_Ztr o = (if p_reweight p && p_brown p then Some zeros else None)) /\
      backward_simulation E p kern grid (o_Z o) zeros s2 = (Ok (o_B o), s').
  Proof.
    intros H. cbv zeta. unfold construct in H. apply bind_ok in H. destruct H as ([Z1 Zt] & s2 & HZ & H).
    apply bind_ok in H. destruct H as (B & s3 & HB & H). apply ret_ok in H. destruct H as (-> & ->).
    cbn [o_par o_kern o_grid o_Z o_B o_Ztr fst snd] in *. split; [auto|]. split; [auto|]. split; [auto|].
    destruct (p_det p).
    - apply bind_ok in HZ. destruct HZ as (Z2 & s1 & HZ & HT). exists s1, s2. destruct (p_reweight p && p_brown p).
      + apply bind_ok in HT. destruct HT as (Zt' & s4 & HT & HR). apply ret_ok in HR. destruct HR as (HR & ->).
        injection HR as -> ->. split; [|exact HB]. split; [auto|]. eauto.
      + apply ret_ok in HT. destruct HT as (HT & ->). injection HT as -> ->. split; [|exact HB]. auto.
    - apply bind_ok in HZ. destruct HZ as (Z2 & s1 & HZ & HT). apply ret_ok in HT. destruct HT as (HT & ->).
      injection HT as -> ->. exists s1, s1. split; [|exact HB]. auto.
  Qed.
End Stoch.
