(** C62 (the counterparts of C33, C35, C36, C37) for whole runs of torched_DPFC, over the exact reals. *)
From Coq Require Import String List ZArith Lia Bool Reals Lra.
From Verif Require Import Base.Num Base.Py Base.Arr Lib.ArrLemmas Model.Ext Model.Cdist Model.Reweight Model.Score Model.ScoreTorch Model.DPFC Model.TDPFC.
From Verif Require Import Spec.FlowSpec Spec.RunSpec Spec.TorchSpec Spec.RealSpec Spec.RangeSpec Spec.Contracts Spec.ReweightSpec.
From Verif Require Import Lib.FlowLemmas Lib.ScoreLemmas Lib.StepLemmas Lib.RunLemmas Lib.StochLemmas Lib.CoreLemmas Lib.TotalLemmas Lib.TorchLemmas.
From Verif Require Import Lib.RBase Lib.RSum Lib.ReweightLemmas.
From Verif Require Import Props.Flows Props.Runs Props.Reweighting Props.Torch Props.TorchR.
Import ListNotations.
Local Open Scope R_scope.

Section Ext3.
  Context {T S : Type} {O : NumOps T} (E : Ext T S).

  Lemma tor_fit (A : arr3 T) z m B : setsl A z m = Ok B -> tsetsl A z m = Ok B.
  Proof. intro H. unfold tsetsl. now rewrite H. Qed.

  (** what reweighting makes of the ensemble x *)
  Definition trw (p : params T) (x : mat T) (t : T) : res (mat T) :=
    if p_reweight p then let! u := ocall2 (p_U p) x t in t_reweight_slice E (p_N p) (muls u dt) x else Ok x.
  Definition trw1 (p : params T) (x : mat T) : res (mat T) :=
    if p_reweight p then let! u := ocall1 (p_U p) x in t_reweight_slice E (p_N p) u x else Ok x.

  Lemma t_otto_rw p (A : arr3 T) i t s k : sh A (List.length (p_y1 p)) (p_N p) k -> (0 < i < k)%nat ->
    t_otto_body E p A (i, t) s =
      bind (t_otto_body E (with_reweight p false) A (i, t))
           (fun Z1 => lift (let! y := trw p (slice Z1 i) t in tsetsl Z1 (Z.of_nat i) y)) s.
  Proof.
    intros HA (Hp & Hi). unfold t_otto_body. cbn [with_reweight p_reweight p_y1 p_y2 p_brown p_g p_f p_N p_M p_U andb].
    destruct (Nat.eqb_spec i 0); [lia|]. destruct (Nat.ltb_spec 0 i); [|lia]. rewrite andb_true_r.
    rewrite !bind_assoc. apply bind_ext; [reflexivity|]. intros x s1 Hx. rewrite !bind_assoc.
    apply bind_ext; [reflexivity|]. intros y s2 Hy. rewrite !bind_lift. unfold tsetsl at 1 3. rewrite (setsl_eq _ _ _ _ _ _ HA) by auto.
    destruct (assign_shape _ _ y) as [m|e] eqn:Hm; cbn [rmap tor]; [|destruct e; reflexivity]. rewrite bind_ret.
    apply assign_shaped in Hm. destruct Hm as (W & R & C).
    assert (HZ : sh (setslice A i m) (List.length (p_y1 p)) (p_N p) k) by (apply sh_set; auto).
    unfold trw. destruct (p_reweight p).
    - rewrite getsl_nat by (destruct HZ as (_ & _ & _ & ->); lia). cbn [rbind]. unfold lift. f_equal.
      destruct (ocall2 (p_U p) _ t); reflexivity.
    - cbn [rbind]. rewrite (tor_fit _ _ _ _ (setsl_self _ _ _ _ _ HZ Hi)). reflexivity.
  Qed.
  Lemma t_stoch_rw p (A : arr3 T) i t s k : sh A (List.length (p_y1 p)) (p_N p) k -> (0 < i < k)%nat ->
    t_stoch_body E p A (i, t) s =
      bind (t_stoch_body E (with_reweight p false) A (i, t))
           (fun Z1 => lift (let! y := trw1 p (slice Z1 i) in tsetsl Z1 (Z.of_nat i) y)) s.
  Proof.
    intros HA (Hp & Hi). unfold t_stoch_body. cbn [with_reweight p_reweight p_y1 p_y2 p_brown p_g p_f p_N p_M p_U andb].
    destruct (Nat.eqb_spec i 0); [lia|].
    rewrite !bind_assoc. apply bind_ext; [reflexivity|]. intros x s1 Hx. rewrite !bind_assoc.
    apply bind_ext; [reflexivity|]. intros y s2 Hy. rewrite !bind_lift. unfold tsetsl at 1 3. rewrite (setsl_eq _ _ _ _ _ _ HA) by auto.
    destruct (assign_shape _ _ y) as [m|e] eqn:Hm; cbn [rmap tor]; [|destruct e; reflexivity]. match goal with |- ?l = bind (bind (lift (Ok ?Y)) _) ?k s2 => change (l = k Y s2) end. cbv beta.
    apply assign_shaped in Hm. destruct Hm as (W & R & C).
    assert (HZ : sh (setslice A i m) (List.length (p_y1 p)) (p_N p) k) by (apply sh_set; auto).
    unfold trw1. destruct (p_reweight p).
    - rewrite getsl_nat by (destruct HZ as (_ & _ & _ & ->); lia). cbn [rbind]. unfold lift. f_equal.
      destruct (ocall1 (p_U p) _); reflexivity.
    - cbn [rbind]. rewrite (tor_fit _ _ _ _ (setsl_self _ _ _ _ _ HZ Hi)). reflexivity.
  Qed.
  (** the first grid index is treated without regard to reweighting *)
  Lemma t_otto_0 p b U (A : arr3 T) t s : t_otto_body E (with_rw_U p b U) A (0%nat, t) s = t_otto_body E p A (0%nat, t) s.
  Proof. unfold t_otto_body. cbn [Nat.eqb Nat.ltb Nat.leb]. rewrite !andb_false_r. reflexivity. Qed.
  Lemma t_otto_0_sh p (A A' : arr3 T) t s s' k : (0 < k)%nat -> sh A (List.length (p_y1 p)) (p_N p) k ->
    t_otto_body E p A (0%nat, t) s = (Ok A', s') -> sh A' (List.length (p_y1 p)) (p_N p) k.
  Proof.
    intros Hk HA H. unfold t_otto_body in H. cbn [Nat.eqb Nat.ltb Nat.leb] in H. rewrite andb_false_r in H. apply bind_ok in H.
    destruct H as (? & ? & H2 & H3). apply lift_ok in H2. apply ret_ok in H3. destruct H2 as (H2 & ->). destruct H3 as (-> & ->).
    apply (otto_init_ok _ _ _ _ _ _ _ _ HA Hk) in H2. apply H2.
  Qed.
  Lemma t_stoch_0_sh p (A A' : arr3 T) t s s' k : (0 < k)%nat -> sh A (List.length (p_y1 p)) (p_N p) k ->
    t_stoch_body E p A (0%nat, t) s = (Ok A', s') -> sh A' (List.length (p_y1 p)) (p_N p) k.
  Proof.
    intros Hk HA H. unfold t_stoch_body in H. cbn [Nat.eqb] in H. apply lift_ok in H. destruct H as (H & _).
    apply rbind_ok in H. destruct H as (v0 & _ & H). apply rbind_ok in H. destruct H as (A1 & H1 & H).
    apply rbind_ok in H. destruct H as (v1 & _ & H). pose proof HA as (WA & DA & NA & KA).
    apply (setrow3_ok _ 0) in H1; auto. destruct H1 as (j & _ & _ & _ & W1 & ->).
    apply (setrow3_ok _ 1) in H; auto. destruct H as (j' & _ & _ & _ & W2 & ->). split; [auto|]. cbn. auto.
  Qed.
  Lemma t_otto_body_sh p grid (A A' : arr3 T) it s s' k : sh A (List.length (p_y1 p)) (p_N p) k -> (fst it < k)%nat ->
    snd it = nth (fst it) grid nzero ->
    t_otto_body E p A it s = (Ok A', s') -> sh A' (List.length (p_y1 p)) (p_N p) k.
  Proof.
    intros HA Hi Ht H. destruct it as [i t]. cbn [fst snd] in *. destruct (Nat.eq_dec i 0) as [->|Hne].
    - eapply (t_otto_0_sh p); eauto.
    - rewrite Ht in H. destruct (t_otto_step_ok E p grid A A' i s s' _ _ k eq_refl eq_refl HA Hi ltac:(lia) H) as (HS & _). exact HS.
  Qed.
  Lemma t_stoch_body_sh p (A A' : arr3 T) it s s' k : sh A (List.length (p_y1 p)) (p_N p) k -> (fst it < k)%nat ->
    t_stoch_body E p A it s = (Ok A', s') -> sh A' (List.length (p_y1 p)) (p_N p) k.
  Proof.
    intros HA Hi H. destruct it as [i t]. cbn [fst] in *. destruct (Nat.eq_dec i 0) as [->|Hne].
    - eapply (t_stoch_0_sh p); eauto.
    - destruct (t_stoch_step_ok E p A A' i t s s' _ _ k eq_refl eq_refl HA Hi ltac:(lia) H) as (HS & _). exact HS.
  Qed.
  Lemma in_enumerate_nth (grid : list T) it : In it (enumerate grid) -> snd it = nth (fst it) grid nzero.
  Proof.
    unfold enumerate. intro H. apply (In_nth _ _ (0%nat, nzero)) in H. destruct H as (j & Hj & <-).
    rewrite combine_length, seq_length, Nat.min_id in Hj. rewrite combine_nth by apply seq_length. cbn.
    now rewrite seq_nth by auto.
  Qed.

  (** forward passes that only differ in reweight and U agree if these act alike on every ensemble *)
  Lemma t_otto_same p b1 U1 b2 U2 grid s :
    let p1 := with_rw_U p b1 U1 in let p2 := with_rw_U p b2 U2 in
    let dim := List.length (p_y1 p) in
    (forall x t, shaped x dim (p_N p) -> trw p1 x t = trw p2 x t) ->
    t_forward_sampling_Otto E p1 grid (zeros3 dim (p_N p) (List.length grid)) s =
    t_forward_sampling_Otto E p2 grid (zeros3 dim (p_N p) (List.length grid)) s.
  Proof.
    intros p1 p2 dim H. unfold t_forward_sampling_Otto.
    apply (mfold_ext_inv _ _ (fun A => sh A dim (p_N p) (List.length grid))).
    - apply sh_zeros.
    - intros A it sx HA Hin. pose proof (in_enumerate_nth _ _ Hin) as Hnt. destruct it as [i t]. apply in_enumerate in Hin. cbn [fst snd] in *.
      destruct (Nat.eq_dec i 0) as [->|].
      + unfold p1, p2. now rewrite !t_otto_0.
      + rewrite (t_otto_rw p1 A i t sx (List.length grid) HA) by lia. rewrite (t_otto_rw p2 A i t sx (List.length grid) HA) by lia.
        apply bind_ext; [reflexivity|]. intros Z1 s1 HZ. apply t_otto_body_sh with (grid := grid) (k := List.length grid) in HZ; auto.
        rewrite H; [reflexivity|]. apply (sh_slice _ _ _ _ i HZ Hin).
    - intros A it sx A' s' HA Hin HH. pose proof (in_enumerate_nth _ _ Hin) as Hnt. apply in_enumerate in Hin.
      eapply (t_otto_body_sh p1); eauto.
  Qed.
  Lemma t_stoch_same p b1 U1 b2 U2 grid s :
    let p1 := with_rw_U p b1 U1 in let p2 := with_rw_U p b2 U2 in
    let dim := List.length (p_y1 p) in
    (forall x, shaped x dim (p_N p) -> trw1 p1 x = trw1 p2 x) ->
    t_forward_sampling E p1 grid (zeros3 dim (p_N p) (List.length grid)) s =
    t_forward_sampling E p2 grid (zeros3 dim (p_N p) (List.length grid)) s.
  Proof.
    intros p1 p2 dim H. unfold t_forward_sampling.
    apply (mfold_ext_inv _ _ (fun A => sh A dim (p_N p) (List.length grid))).
    - apply sh_zeros.
    - intros A [i t] sx HA Hin. apply in_enumerate in Hin. cbn [fst] in *. destruct (Nat.eq_dec i 0) as [->|]; [reflexivity|].
      rewrite (t_stoch_rw p1 A i t sx (List.length grid) HA) by lia. rewrite (t_stoch_rw p2 A i t sx (List.length grid) HA) by lia.
      apply bind_ext; [reflexivity|]. intros Z1 s1 HZ. apply t_stoch_body_sh with (k := List.length grid) in HZ; auto.
      rewrite H; [reflexivity|]. apply (sh_slice _ _ _ _ i HZ Hin).
    - intros A it sx A' s' HA Hin HH. apply in_enumerate in Hin.
      eapply (t_stoch_body_sh p1); eauto.
  Qed.
  Lemma same_bind {A} (m1 m2 : M S A) k1 k2 s : m1 s = m2 s -> (forall a s, same_outcome (T := T) (k1 a s) (k2 a s)) ->
    same_outcome (bind m1 k1 s) (bind m2 k2 s).
  Proof. intros H1 H2. unfold bind. rewrite H1. destruct (m2 s) as [[a|e] s1]; [auto|]. unfold same_outcome. cbn. auto. Qed.
  Lemma t_run_same_gen b p b1 U1 b2 U2 s :
    let p1 := with_rw_U p b1 U1 in let p2 := with_rw_U p b2 U2 in
    b1 && p_brown p = b2 && p_brown p ->
    (forall grid, t_timegrid (p_t1 p) (p_t2 p) = Ok grid -> let zeros := zeros3 (List.length (p_y1 p)) (p_N p) (List.length grid) in
       if p_det p then t_forward_sampling_Otto E p1 grid zeros s = t_forward_sampling_Otto E p2 grid zeros s
       else t_forward_sampling E p1 grid zeros s = t_forward_sampling E p2 grid zeros s) ->
    same_outcome (t_construct E b p1 s) (t_construct E b p2 s).
  Proof.
    intros p1 p2 Hb H. unfold t_construct, size_dim0. destruct b; [|now split].
    cbn [with_rw_U with_U with_reweight p1 p2 p_y1 p_t1 p_t2 p_N p_kern p_det p_reweight p_brown]. rewrite Hb.
    assert (BL : forall A B (a : A) (q : A -> M S B) s, bind (lift (Ok a)) q s = q a s) by reflexivity.
    rewrite !BL.
    destruct (t_timegrid (p_t1 p) (p_t2 p)) as [grid|e]; [|now split]. rewrite !BL. specialize (H grid eq_refl). cbv zeta in H.
    apply same_bind.
    - destruct (p_det p).
      + apply bind_ext; [exact H|]. intros Z1 s1 _. reflexivity.
      + apply bind_ext; [exact H|]. intros Z1 s1 _. reflexivity.
    - intros ZZ s1. apply same_bind; [reflexivity|]. intros B s2. unfold same_outcome. cbn. auto 10.
  Qed.
  Lemma t_run_same b p b1 U1 b2 U2 s :
    let p1 := with_rw_U p b1 U1 in let p2 := with_rw_U p b2 U2 in
    b1 && p_brown p = b2 && p_brown p ->
    (if p_det p then forall x t, shaped x (List.length (p_y1 p)) (p_N p) -> trw p1 x t = trw p2 x t
     else forall x, shaped x (List.length (p_y1 p)) (p_N p) -> trw1 p1 x = trw1 p2 x) ->
    same_outcome (t_construct E b p1 s) (t_construct E b p2 s).
  Proof.
    intros p1 p2 Hb H. apply t_run_same_gen; [exact Hb|]. intros grid _. destruct (p_det p).
    - now apply t_otto_same.
    - now apply t_stoch_same.
  Qed.

  (** if reweighting leaves the ensembles of an unreweighted pass where they are, the reweighted pass is the same *)
  Lemma t_otto_frame p (A A' : arr3 T) i t s s' k : sh A (List.length (p_y1 p)) (p_N p) k -> (0 < i < k)%nat ->
    t_otto_body E p A (i, t) s = (Ok A', s') -> sh A' (List.length (p_y1 p)) (p_N p) k /\ forall j, j <> i -> slice A' j = slice A j.
  Proof.
    intros HA (Hp & Hi) H. assert (Q : t = nth i (repeat t (i + 1)) nzero) by (rewrite (nth_indep _ nzero t) by (rewrite repeat_length; lia); now rewrite nth_repeat).
    rewrite Q in H. destruct (t_otto_step_ok E p _ A A' i s s' _ _ k eq_refl eq_refl HA Hi Hp H) as (H1 & _ & H2). auto.
  Qed.
  Lemma t_otto_suffix p U k ts : forall n (A Z : arr3 T) s s', sh A (List.length (p_y1 p)) (p_N p) k -> (n + List.length ts = k)%nat ->
    mfold (t_otto_body E (with_rw_U p false U)) (combine (seq n (List.length ts)) ts) A s = (Ok Z, s') ->
    (forall i t, (1 <= i < k)%nat -> shaped (slice Z i) (List.length (p_y1 p)) (p_N p) -> trw (with_rw_U p true U) (slice Z i) t = Ok (slice Z i)) ->
    mfold (t_otto_body E (with_rw_U p true U)) (combine (seq n (List.length ts)) ts) A s = (Ok Z, s') /\
    sh Z (List.length (p_y1 p)) (p_N p) k /\ forall j, (1 <= j)%nat -> (j < n)%nat -> slice Z j = slice A j.
  Proof.
    induction ts as [|t ts IH]; intros n A Z s s' HA Hn H HT; cbn [List.length] in *.
    { cbn in H |- *. injection H as <- <-. auto. }
    cbn [seq combine mfold] in H |- *. apply bind_ok in H. destruct H as (A1 & s1 & H1 & H).
    assert (HA1 : sh A1 (List.length (p_y1 p)) (p_N p) k /\ forall j, (1 <= j)%nat -> (j < n)%nat -> slice A1 j = slice A j).
    { destruct (Nat.eq_dec n 0) as [->|Hne].
      - split; [|intros; lia]. rewrite t_otto_0 in H1. eapply (t_otto_0_sh p); eauto. lia.
      - destruct (t_otto_frame (with_rw_U p false U) A A1 n t s s1 k HA ltac:(lia) H1) as (Q1 & Q2). split; [exact Q1|].
        intros j _ Hj. apply Q2. lia. }
    destruct HA1 as (HA1 & HF). destruct (IH (Datatypes.S n) A1 Z s1 s' HA1 ltac:(lia) H HT) as (G1 & G2 & G3).
    split; [|split; [exact G2|]].
    - unfold bind at 1. destruct (Nat.eq_dec n 0) as [->|Hne].
      + rewrite t_otto_0. rewrite t_otto_0 in H1. rewrite H1. exact G1.
      + rewrite (t_otto_rw (with_rw_U p true U) A n t s k HA) by lia. unfold bind at 1.
        change (with_reweight (with_rw_U p true U) false) with (with_rw_U p false U). rewrite H1.
        rewrite <- (G3 n) by lia. rewrite HT; [|lia|apply (sh_slice _ _ _ _ n G2); lia].
        cbn [rbind]. rewrite (G3 n) by lia. rewrite (tor_fit _ _ _ _ (setsl_self A1 _ _ _ n HA1 ltac:(lia))). exact G1.
    - intros j Hj1 Hj. rewrite G3 by lia. apply HF; lia.
  Qed.
  Lemma t_stoch_suffix p U k ts : forall n (A Z : arr3 T) s s', sh A (List.length (p_y1 p)) (p_N p) k -> (n + List.length ts = k)%nat ->
    mfold (t_stoch_body E (with_rw_U p false U)) (combine (seq n (List.length ts)) ts) A s = (Ok Z, s') ->
    (forall i, (1 <= i < k)%nat -> shaped (slice Z i) (List.length (p_y1 p)) (p_N p) -> trw1 (with_rw_U p true U) (slice Z i) = Ok (slice Z i)) ->
    mfold (t_stoch_body E (with_rw_U p true U)) (combine (seq n (List.length ts)) ts) A s = (Ok Z, s') /\
    sh Z (List.length (p_y1 p)) (p_N p) k /\ forall j, (1 <= j)%nat -> (j < n)%nat -> slice Z j = slice A j.
  Proof.
    induction ts as [|t ts IH]; intros n A Z s s' HA Hn H HT; cbn [List.length] in *.
    { cbn in H |- *. injection H as <- <-. auto. }
    cbn [seq combine mfold] in H |- *. apply bind_ok in H. destruct H as (A1 & s1 & H1 & H).
    assert (HA1 : sh A1 (List.length (p_y1 p)) (p_N p) k /\ forall j, (1 <= j)%nat -> (j < n)%nat -> slice A1 j = slice A j).
    { destruct (Nat.eq_dec n 0) as [->|Hne].
      - split; [|intros; lia]. eapply (t_stoch_0_sh (with_rw_U p false U)); eauto. lia.
      - destruct (t_stoch_step_ok E (with_rw_U p false U) A A1 n t s s1 _ _ k eq_refl eq_refl HA ltac:(lia) ltac:(lia) H1) as (Q1 & _ & Q2).
        split; [exact Q1|]. intros j _ Hj. apply Q2. lia. }
    destruct HA1 as (HA1 & HF). destruct (IH (Datatypes.S n) A1 Z s1 s' HA1 ltac:(lia) H HT) as (G1 & G2 & G3).
    split; [|split; [exact G2|]].
    - unfold bind at 1. destruct (Nat.eq_dec n 0) as [->|Hne].
      + change (t_stoch_body E (with_rw_U p true U) A (0%nat, t) s) with (t_stoch_body E (with_rw_U p false U) A (0%nat, t) s). rewrite H1. exact G1.
      + rewrite (t_stoch_rw (with_rw_U p true U) A n t s k HA) by lia. unfold bind at 1.
        change (with_reweight (with_rw_U p true U) false) with (with_rw_U p false U). rewrite H1.
        rewrite <- (G3 n) by lia. rewrite HT; [|lia|apply (sh_slice _ _ _ _ n G2); lia].
        cbn [rbind]. rewrite (G3 n) by lia. rewrite (tor_fit _ _ _ _ (setsl_self A1 _ _ _ n HA1 ltac:(lia))). exact G1.
    - intros j Hj1 Hj. rewrite G3 by lia. apply HF; lia.
  Qed.
End Ext3.

Section Rw.
  Context {S : Type} (E : Ext R S).

  (** ** C33 for torched_DPFC: adding a number to the path constraint changes nothing in the outcome *)
  Theorem C62_shift_of_U_changes_nothing b p s (U U' : callable R) (c : mat R -> R -> R) (c1 : mat R -> R) :
    (forall x t, call2 U' x t = rmap (mmap1 (fun v => v + c x t)) (call2 U x t)) ->
    (forall x, call1 U' x = rmap (mmap1 (fun v => v + c1 x)) (call1 U x)) ->
    same_outcome (t_construct E b (with_U p (Some U')) s) (t_construct E b (with_U p (Some U)) s).
  Proof.
    intros H2 H1. 
    assert (Hp : forall V, with_U p V = with_rw_U p (p_reweight p) V) by (destruct p; reflexivity). rewrite !Hp.
    apply t_run_same; [reflexivity|]. destruct (p_det p).
    - intros x t _. unfold trw. cbn [with_rw_U with_U with_reweight p_reweight p_N p_U ocall2]. destruct (p_reweight p); [|reflexivity].
      rewrite H2. destruct (call2 U x t) as [u|er]; [|reflexivity]. cbn [rmap rbind]. unfold t_reweight_slice.
      rewrite (C33_weights_shift_invariant (p_N p) (muls u dt) (muls (mmap1 (fun v => v + c x t) u) dt) (c x t * dt)); try reflexivity.
      intros i j Hi Hj. unfold muls in *. cbn [mmap1 mk mr mc] in Hi, Hj. rewrite !get_mmap1 by (auto; cbn; auto). cbn. ring.
    - intros x _. unfold trw1. cbn [with_rw_U with_U with_reweight p_reweight p_N p_U ocall1]. destruct (p_reweight p); [|reflexivity].
      rewrite H1. destruct (call1 U x) as [u|er]; [|reflexivity]. cbn [rmap rbind]. unfold t_reweight_slice.
      rewrite (C33_weights_shift_invariant (p_N p) u (mmap1 (fun v => v + c1 x) u) (c1 x)); try reflexivity.
      intros i j Hi Hj. now rewrite get_mmap1.
  Qed.

  (** ** C36 for torched_DPFC: a constraint that gives every particle the same value changes nothing, as long as the particles do
      not all coincide (the cost matrix is divided by its maximum).  In deterministic mode only the last slice is in question *)
  Lemma t_const_identity (N : nat) (e x : mat R) c : otemd_contract E -> (1 <= N)%nat -> wf x -> mc x = N -> (exists d, (d < mr x)%nat /\ spread x d) ->
    mr e = 1%nat -> (mc e = N \/ mc e = 1%nat) -> (forall n, (n < N)%nat -> elem e 0 n = c) -> t_reweight_slice E N e x = Ok x.
  Proof.
    intros HE HN Wx Cx Hs Re Ce Hc. assert (exists y, t_reweight_slice E N e x = Ok y) as (y & Hy).
    { unfold t_reweight_slice. destruct (C33_weights_exist N e Re Ce) as (w & Hw). rewrite Hw. cbn [rbind tor].
      unfold t_cost, ot_dist, cdist_sq. rewrite Nat.eqb_refl. cbn [rbind].
      match goal with |- context [tor (lmax ?l)] => assert (exists mx, lmax l = Ok mx) as (mx & ->) end.
      { cbn [mr mk mT]. rewrite Cx. destruct N as [|N']; [lia|]. cbn [seq flat_map row mc mk mr map app lmax]. eauto. }
      cbn [rbind tor]. unfold tmmul. rewrite mmul_dim by (cbn; lia). cbn [tor]. eauto. }
    rewrite Hy. f_equal. apply t_reweight_slice_ok in Hy; auto. destruct Hy as (_ & Wy & Ry & Cy & Hrw).
    apply wf_eq; auto; try lia. intros i j Hi Hj. rewrite Ry in Hi. rewrite Cy in Hj.
    apply (C62_equal_weights_move_nothing E (fun n => bget e 0 n) x y HE); try lia; auto.
    intros m n Hm Hn. rewrite Cx in *. change (elem e 0 m = elem e 0 n). now rewrite !Hc.
  Qed.

  Theorem C62_constant_constraint_changes_nothing b p s U o s' : otemd_contract E -> p_y1 p <> [] -> (1 <= p_N p)%nat -> p_brown p = false -> p_U p = Some U ->
    (if p_det p then forall x t, mr x = List.length (p_y1 p) -> mc x = p_N p -> same_for_all (p_N p) (call2 U x t)
     else forall x, mr x = List.length (p_y1 p) -> mc x = p_N p -> same_for_all (p_N p) (call1 U x)) ->
    t_construct E b (with_reweight p false) s = (Ok o, s') ->
    (forall i, (1 <= i < List.length (o_grid o))%nat -> (p_det p = true -> i = List.length (o_grid o) - 1)%nat ->
       exists d, (d < List.length (p_y1 p))%nat /\ spread (slice (o_Z o) i) d) ->
    same_outcome (t_construct E b (with_reweight p true) s) (Ok o, s').
  Proof.
    intros HE Hy HN Hb HU H Hc Hsp. rewrite <- Hc.
    assert (Hp : forall b, with_reweight p b = with_rw_U p b (p_U p)) by reflexivity. rewrite !Hp in *.
    assert (Hdim : (0 < List.length (p_y1 p))%nat) by (destruct (p_y1 p); [congruence|cbn; lia]).
    assert (Hall : forall i, (1 <= i < List.length (o_grid o))%nat -> exists d, (d < List.length (p_y1 p))%nat /\ spread (slice (o_Z o) i) d).
    { intros i Hi. destruct (p_det p) eqn:Hd; [|apply Hsp; auto; discriminate].
      destruct (Nat.eq_dec i (List.length (o_grid o) - 1)) as [|Hne]; [apply Hsp; auto|].
      exists 0%nat. split; [auto|]. apply (C54_every_coordinate_spread E b _ s o s' Hc); cbn [with_rw_U with_U with_reweight p_y1 p_det]; auto; lia. }
    destruct (t_construct_ok E b _ s o s' Hc) as (_ & _ & _ & Hg & s1 & s2 & Hf & _).
    cbn [with_rw_U with_U with_reweight p_y1 p_N p_t1 p_t2 p_det p_reweight p_brown andb] in Hg, Hf.
    apply t_run_same_gen; [now rewrite Hb|]. intros grid Hgr. rewrite Hg in Hgr. injection Hgr as <-. cbv zeta.
    destruct (p_det p).
    - destruct Hf as (Hf & _). etransitivity; [|symmetry; exact Hf]. unfold t_forward_sampling_Otto, enumerate in *.
      eapply (t_otto_suffix E p (p_U p) (List.length (o_grid o))); [apply sh_zeros|lia|exact Hf|].
      intros i t Hi (Wx & Rx & Cx). unfold trw. cbn [with_rw_U with_U with_reweight p_reweight p_N p_U]. rewrite HU. cbn [ocall2].
      destruct (H (slice (o_Z o) i) t Rx Cx) as (v & c & -> & Rv & Cv & Hv). cbn [rbind].
      apply (t_const_identity _ (muls v dt) _ (c * dt)); auto.
      { destruct (Hall i Hi) as (d & ? & ?). exists d. split; [lia|auto]. }
      intros n Hn. rewrite <- (Hv n Hn).
      unfold elem, muls. cbn [mmap1 mk mr mc]. fold (mmap1 (fun x => nmul x dt) v). rewrite Rv. cbn [Nat.eqb].
      rewrite get_mmap1; [reflexivity|lia|]. destruct (Nat.eqb_spec (mc v) 1); lia.
    - destruct Hf as (Hf & _). etransitivity; [|symmetry; exact Hf]. unfold t_forward_sampling, enumerate in *.
      eapply (t_stoch_suffix E p (p_U p) (List.length (o_grid o))); [apply sh_zeros|lia|exact Hf|].
      intros i Hi (Wx & Rx & Cx). unfold trw1. cbn [with_rw_U with_U with_reweight p_reweight p_N p_U]. rewrite HU. cbn [ocall1].
      destruct (H (slice (o_Z o) i) Rx Cx) as (v & c & -> & Rv & Cv & Hv). cbn [rbind].
      apply (t_const_identity _ v _ c); auto.
      destruct (Hall i Hi) as (d & ? & ?). exists d. split; [lia|auto].
  Qed.

  (** ** C35 for torched_DPFC: the plain average after reweighting is the weighted average before *)
  Theorem C62_average_of_run b p s o s' : emd_plans (x_otemd E) -> t_construct E b p s = (Ok o, s') -> p_y1 p <> [] ->
    p_det p = true -> p_reweight p = true -> (1 <= p_N p)%nat ->
    forall i, (1 <= i < List.length (o_grid o))%nat ->
    exists y u sa sb, mr y = List.length (p_y1 p) /\ mc y = p_N p /\
      t_plain_step E nmilli (p_M p) (p_g p) (call2 (p_f p)) i (nth i (o_grid o) 0) (slice (o_Z o) (i-1)) y sa sb /\
      ocall2 (p_U p) y (nth i (o_grid o) 0) = Ok u /\
      ((exists d, (d < List.length (p_y1 p))%nat /\ spread y d) -> forall d, (d < List.length (p_y1 p))%nat ->
        average (slice (o_Z o) i) d = sumn (p_N p) (fun m => softmax (p_N p) (fun n => elem u 0 n * / 1000) m * get y d m)).
  Proof.
    intros HE Hc Hy Hd Hr HN i Hi. destruct (C62_torch_reweighting E b p s o s' HE Hc Hy Hd Hr HN i Hi) as (y & u & sa & sb & Ry & Cy & Hst & Hu & Hrw).
    exists y, u, sa, sb. split; [auto|]. split; [auto|]. split; [auto|]. split; [auto|]. intros Hs d Hd'. destruct (Hrw Hs) as (_ & _ & Hav).
    rewrite Hav by lia. now rewrite Cy.
  Qed.

  (** ** C37 for torched_DPFC: the constraint of the README repels *)
  Theorem C62_constraint_repels bk p s o s' U c : emd_plans (x_otemd E) -> t_construct E bk p s = (Ok o, s') -> p_y1 p <> [] -> p_det p = true -> p_reweight p = true ->
    (1 <= p_N p)%nat -> p_U p = Some U -> readme_U c U -> (c < List.length (p_y1 p))%nat ->
    forall i, (1 <= i < List.length (o_grid o))%nat -> let t := nth i (o_grid o) 0 in
    exists y w sa sb, mr y = List.length (p_y1 p) /\ mc y = p_N p /\
      t_plain_step E nmilli (p_M p) (p_g p) (call2 (p_f p)) i t (slice (o_Z o) (i-1)) y sa sb /\
      (* the weights: farther from the line means strictly heavier *)
      sumn (p_N p) w = 1 /\
      (forall m n, (m < p_N p)%nat -> (n < p_N p)%nat -> Rabs (get y c m - sin t) < Rabs (get y c n - sin t) -> w m < w n) /\
      (* unless all particles coincide, these weights are used and the average moves away from the line *)
      ((exists d, (d < List.length (p_y1 p))%nat /\ spread y d) ->
       (forall d, (d < mr y)%nat -> average (slice (o_Z o) i) d = sumn (p_N p) (fun n => w n * get y d n)) /\
       ((forall n, (n < p_N p)%nat -> sin t <= get y c n) -> average y c <= average (slice (o_Z o) i) c) /\
       ((forall n, (n < p_N p)%nat -> sin t <= get y c n) -> spread y c -> average y c < average (slice (o_Z o) i) c) /\
       ((forall n, (n < p_N p)%nat -> get y c n <= sin t) -> average (slice (o_Z o) i) c <= average y c) /\
       ((forall n, (n < p_N p)%nat -> get y c n <= sin t) -> spread y c -> average (slice (o_Z o) i) c < average y c)).
  Proof.
    intros HE Hc Hyn Hd Hr HN HU HR Hcd i Hi t.
    destruct (C62_torch_reweighting E bk p s o s' HE Hc Hyn Hd Hr HN i Hi) as (y & u & sa & sb & Ry & Cy & Hst & Hu & Hrw).
    rewrite HU in Hu. cbn [ocall2] in Hu. rewrite HR in Hu. injection Hu as <-. fold t in Hrw, Hst. unfold reweighted_from in Hrw. rewrite Cy in *.
    set (e := fun n => elem (vec (map (fun n => (get y c n - sin t) ^ 2) (seq 0 (p_N p)))) 0 n * / 1000) in *.
    assert (Ee : forall n, (n < p_N p)%nat -> e n = (get y c n - sin t) ^ 2 * / 1000).
    { intros n Hn. unfold e, elem, vec. cbn [mk mr mc]. rewrite map_length, seq_length. cbn [Nat.eqb]. f_equal.
      rewrite get_mk; [|lia|destruct (Nat.eqb_spec (p_N p) 1); lia].
      destruct (Nat.eqb_spec (p_N p) 1); [assert (n = O) by lia; subst n|]; now rewrite nth_map_seq by lia. }
    set (w := softmax (p_N p) e) in *.
    assert (Hsq : forall a b, Rabs a < Rabs b -> a ^ 2 < b ^ 2). { intros a b H. rewrite <- !Rsqr_pow2. now apply Rsqr_lt_abs_1. }
    assert (Hw : forall m n, (m < p_N p)%nat -> (n < p_N p)%nat -> Rabs (get y c m - sin t) < Rabs (get y c n - sin t) -> w m < w n).
    { intros m n Hm Hn H. apply (proj1 (softmax_lt (p_N p) e m n HN)). rewrite !Ee by auto. apply Rmult_lt_compat_r; [lra|]. now apply Hsq. }
    assert (Ws : sumn (p_N p) w = 1) by now apply softmax_sum.
    exists y, w, sa, sb. split; [auto|]. split; [auto|]. split; [auto|]. split; [auto|]. split; [auto|].
    intro Hsp. destruct (Hrw Hsp) as (_ & _ & Hav). split; [auto|].
    rewrite (Hav c ltac:(lia)). unfold average, spread. rewrite Cy.
    assert (Up : (forall n, (n < p_N p)%nat -> sin t <= get y c n) -> forall m n, (m < p_N p)%nat -> (n < p_N p)%nat -> get y c m < get y c n -> w m < w n).
    { intros Hs m n Hm Hn L. apply Hw; auto. pose proof (Hs m Hm). pose proof (Hs n Hn). rewrite !Rabs_pos_eq by lra. lra. }
    assert (Dn : (forall n, (n < p_N p)%nat -> get y c n <= sin t) -> forall m n, (m < p_N p)%nat -> (n < p_N p)%nat -> - get y c m < - get y c n -> w m < w n).
    { intros Hs m n Hm Hn L. apply Hw; auto. pose proof (Hs m Hm). pose proof (Hs n Hn). rewrite !Rabs_left1 by lra. lra. }
    assert (Neg : sumn (p_N p) (fun n => w n * - get y c n) = - sumn (p_N p) (fun n => w n * get y c n)).
    { rewrite <- sumn_opp. apply sumn_ext. intros. ring. }
    assert (Neg' : mean (p_N p) (fun n => - get y c n) = - mean (p_N p) (fun n => get y c n)).
    { unfold mean, Rdiv. rewrite (sumn_opp (p_N p) (fun n => get y c n)). now rewrite Ropp_mult_distr_l. }
    split; [|split; [|split]].
    - intro Hs. apply weighted_mean_ge; auto.
    - intros Hs (m & n & Hm & Hn & Hne). apply weighted_mean_gt; eauto 6.
    - intro Hs. pose proof (weighted_mean_ge (p_N p) w (fun n => - get y c n) HN Ws (Dn Hs)) as Q. cbn beta in Q. rewrite Neg, Neg' in Q. apply Ropp_le_cancel. exact Q.
    - intros Hs (m & n & Hm & Hn & Hne).
      pose proof (weighted_mean_gt (p_N p) w (fun n => - get y c n) HN Ws (Dn Hs)) as Q.
      assert (Hex : exists i j, (i < p_N p)%nat /\ (j < p_N p)%nat /\ - get y c i <> - get y c j) by (exists m, n; repeat split; auto; lra).
      specialize (Q Hex). cbn beta in Q. rewrite Neg, Neg' in Q. apply Ropp_lt_cancel. exact Q.
  Qed.
End Rw.
