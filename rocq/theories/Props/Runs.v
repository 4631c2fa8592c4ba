(** C08 (second half), C09-C12, C15: comparisons of runs and the use of randomness, for every number system. *)
From Coq Require Import String List ZArith Lia Bool.
From Verif Require Import Base.Num Base.Py Base.Arr Lib.ArrLemmas Model.Ext Model.Cdist Model.Reweight Model.Score Model.DPFC.
From Verif Require Import Spec.FlowSpec Spec.RunSpec.
From Verif Require Import Run.Toy.
From Verif Require Import Lib.FlowLemmas Lib.ScoreLemmas Lib.StepLemmas Lib.RunLemmas Lib.StochLemmas Lib.CoreLemmas Props.Flows.
Import ListNotations.

Section Runs.
  Context {T S : Type} {O : NumOps T} (E : Ext T S).
  Notation mat := (mat T). Notation arr3 := (arr3 T).

  (** the constructor without the record packing *)
  Definition flows_of (p : params T) : M S (arr3 * option arr3 * arr3) :=
    let dim := List.length (p_y1 p) in
    let kern := kern_used (p_kern p) in
    let grid := timegrid (p_t1 p) (p_t2 p) in
    let zeros := zeros3 dim (p_N p) (List.length grid) in
    let* ZZ :=
      (if p_det p then
         let* Z1 := forward_sampling_Otto E p kern grid zeros in
         if p_reweight p && p_brown p then
           let* Zt := forward_sampling_Otto_true E p kern grid zeros in ret (Z1, Some Zt)
         else ret (Z1, None)
       else
         let* Z1 := forward_sampling E p grid zeros in
         ret (Z1, if p_reweight p && p_brown p then Some zeros else None)) in
    let* B := backward_simulation E p kern grid (fst ZZ) zeros in
    ret (ZZ, B).
  Lemma construct_flows p s : construct E p s =
    bind (flows_of p) (fun r => ret {| o_par := p; o_kern := kern_used (p_kern p); o_grid := timegrid (p_t1 p) (p_t2 p);
       o_Z := fst (fst r); o_B := snd r; o_Ztr := snd (fst r) |}) s.
  Proof.
    unfold construct, flows_of. rewrite bind_assoc. apply bind_ext; [reflexivity|]. intros [Z1 Zt] s1 _.
    rewrite bind_assoc. apply bind_ext; [reflexivity|]. intros B s2 _. reflexivity.
  Qed.
  Lemma same_flows_outcome p p' s : p_t1 p = p_t1 p' -> p_t2 p = p_t2 p' -> kern_used (p_kern p) = kern_used (p_kern p') ->
    flows_of p s = flows_of p' s -> same_outcome (construct E p s) (construct E p' s).
  Proof.
    intros H1 H2 H3 H. rewrite !construct_flows. unfold bind. rewrite H. unfold same_outcome.
    destruct (flows_of p' s) as [[r|e] s1]; cbn; [|auto]. rewrite H1, H2, H3. auto 10.
  Qed.

  (** ** C10 *)
  Theorem C10_periodic_is_rbf p s :
    same_outcome (construct E (with_kern p "periodic") s) (construct E (with_kern p "RBF") s).
  Proof. apply same_flows_outcome; reflexivity. Qed.

  Lemma unknown_kernel_fun X Zp C kern l w fn : score_function_multid_seperate_fun E X Zp C kern l w = Ok fn ->
    kern = "RBF"%string \/ kern = "periodic"%string.
  Proof.
    unfold score_function_multid_seperate_fun, prep, K_of. destruct (String.eqb_spec kern "RBF"); [auto|].
    destruct (String.eqb_spec kern "periodic"); [auto|]. discriminate.
  Qed.

  Theorem C10_unknown_kernel_fails p s o s' : construct E p s = (Ok o, s') ->
    3 <= List.length (o_grid o) -> 1 <= List.length (p_y1 p) ->
    p_kern p = "RBF"%string \/ p_kern p = "periodic"%string.
  Proof.
    intros Hc Hk Hd. destruct (C07_backward_recurrence E p s o s' Hc) as (sg & _ & H).
    set (k := List.length (o_grid o)) in *. specialize (H (k-2) ltac:(lia) ltac:(lia)).
    rewrite Nat.eqb_refl in H. cbn [orb] in H. replace (k-2+1) with (k-1) in H by lia.
    destruct H as (F & W & score & s1 & Hs & _). destruct Hs as (bnds & rows & _ & _ & _ & Hs).
    destruct (B_run E p s o s' Hc) as (_ & HB & _). destruct (sh_slice _ _ _ _ (k-1) HB ltac:(lia)) as (_ & R & _).
    destruct (Hs 0 ltac:(lia)) as (_ & fn & Hfn & _). apply unknown_kernel_fun in Hfn.
    destruct (construct_ok E p s o s' Hc) as (_ & K & _). rewrite K in Hfn. unfold kern_used in Hfn.
    destruct (String.eqb_spec (p_kern p) "periodic"); [auto|]. destruct Hfn; auto.
  Qed.

  (** ** C11 *)
  Theorem C11_reject_and_dens_est_ignored p s b d :
    same_outcome (construct E (with_reject p b) s) (construct E p s) /\
    same_outcome (construct E (with_dens_est p d) s) (construct E p s).
  Proof. split; apply same_flows_outcome; reflexivity. Qed.

  Theorem C11_unused_without_reweight p s U ft : p_reweight p = false ->
    same_outcome (construct E (with_U p U) s) (construct E p s) /\
    same_outcome (construct E (with_f_true p ft) s) (construct E p s).
  Proof.
    intro Hr. destruct p as [t1 t2 y1 y2 f g N m rw Uo de rj kn fto br det]. cbn in Hr. subst rw.
    split; apply same_flows_outcome; try reflexivity.
  Qed.

  (** ** C09 *)
  Lemma otto_agree p s b1 b2 (grid : list T) kern zeros : 
    let dim := List.length (p_y1 p) in let k := List.length grid in
    zeros = zeros3 dim (p_N p) k -> 2 <= k -> dim <= List.length (p_y2 p) ->
    forward_sampling_Otto E (with_brown p b1) kern grid zeros s = forward_sampling_Otto E (with_brown p b2) kern grid zeros s.
  Proof.
    intros dim k Hz Hk Hy. unfold forward_sampling_Otto. unfold k in *. clear k. destruct grid as [|t0 grid]; [cbn in Hk; lia|].
    set (k := List.length (t0 :: grid)) in *. assert (Ek : List.length grid = k - 1) by (unfold k; cbn; lia).
    rewrite (enumerate_cons _ _ nzero), Ek. cbn [mfold].
    assert (HA : sh zeros dim (p_N p) k) by (subst zeros; apply sh_zeros).
    assert (I : forall b, exists A, otto_body E (with_brown p b) kern zeros (0, t0) s = (Ok A, s) /\ sh A dim (p_N p) k /\
              slice A 0 = mk dim (p_N p) (fun a _ => nth a (p_y1 p) nzero)).
    { intro b. destruct (rfold_seq_total (fun A di =>
            let! v := pyget (p_y1 p) (Z.of_nat di) in
            let! A1 := setrow3 A (Z.of_nat di) 0 v in
            if b then let! v2 := pyget (p_y2 p) (Z.of_nat di) in setrow3 A1 (Z.of_nat di) (-1) v2
            else Ok A1) (fun _ A => sh A dim (p_N p) k) dim zeros HA) as (A & HAe & HAs).
      { intros i B Hi HB. rewrite (pyget_nat _ i nzero) by auto. cbn [rbind].
        assert (St : forall (B : arr3) t v, sh B dim (p_N p) k -> (t = 0 \/ t = -1)%Z -> exists B', setrow3 B (Z.of_nat i) t v = Ok B' /\ sh B' dim (p_N p) k).
        { intros B0 t v HB0 Ht. pose proof HB0 as (W & D & N & K). 
          assert (Hex : exists j, pyidx (a_k B0) t = Some j). { rewrite K. destruct Ht as [->| ->]; [rewrite pyidx_0 by lia|rewrite pyidx_m1 by lia]; eauto. }
          destruct Hex as (j & Hj).
          destruct (setrow3 B0 (Z.of_nat i) t v) as [B'|e] eqn:Q.
          - exists B'. split; auto. apply setrow3_ok in Q; auto. destruct Q as (j' & _ & _ & _ & W' & ->). split; auto.
          - unfold setrow3 in Q. rewrite Hj in Q. rewrite D, pyidx_nat in Q by auto. discriminate. }
        destruct (St B 0%Z (nth i (p_y1 p) nzero) HB ltac:(auto)) as (B1 & -> & HB1). cbn [rbind]. destruct b; [|eauto].
        rewrite (pyget_nat _ i nzero) by lia. cbn [rbind]. apply St; auto. }
      exists A. split; [|split; [auto|]].
      - unfold otto_body. cbn [Nat.eqb with_brown p_y1 p_y2 p_brown p_reweight]. rewrite andb_false_r.
        rewrite bind_lift. fold dim. rewrite HAe. reflexivity.
      - apply (otto_init_ok b (p_y1 p) (p_y2 p) dim (p_N p) k zeros A HA ltac:(lia)) in HAe.
        destruct HAe as (_ & _ & _ & H0). rewrite H0 by lia. apply mk_ext. intros.
        destruct (Nat.eqb_spec 0 (k-1)); [lia|]. now rewrite andb_false_r. }
    destruct (I b1) as (A1 & H1 & S1 & Z1). destruct (I b2) as (A2 & H2 & S2 & Z2).
    rewrite (bind_of_ok _ _ _ _ _ H1), (bind_of_ok _ _ _ _ _ H2).
    pose proof (core_fold_agree (otto_body E (with_brown p b1) kern) (otto_body E (with_brown p b2) kern)
      (fun i => (Datatypes.S i, nth (Datatypes.S i) (t0 :: grid) nzero))
      (fun i => otto_core E p kern (Datatypes.S i) (nth (Datatypes.S i) (t0 :: grid) nzero)) dim (p_N p) k (k-1) ltac:(lia)) as CF.
    assert (Hb : forall b i A s, i < k - 1 -> sh A dim (p_N p) k ->
       otto_body E (with_brown p b) kern A (Datatypes.S i, nth (Datatypes.S i) (t0 :: grid) nzero) s =
       bind (otto_core E p kern (Datatypes.S i) (nth (Datatypes.S i) (t0 :: grid) nzero) (slice A i))
            (fun x => ret (setslice A (Datatypes.S i) x)) s).
    { intros b i A sx Hi HA'. rewrite (otto_body_core E (with_brown p b) kern A (Datatypes.S i) _ sx k HA') by lia.
      replace (Datatypes.S i - 1) with i by lia. reflexivity. }
    specialize (CF (Hb b1) (Hb b2) (fun i x s y s' Q => otto_core_shaped E _ _ _ _ _ _ _ _ Q) A1 A2 s S1 S2 ltac:(congruence)).
    destruct (mfold (otto_body E (with_brown p b1) kern) _ A1 s) as [[A1'|e1] q1],
             (mfold (otto_body E (with_brown p b2) kern) _ A2 s) as [[A2'|e2] q2]; try contradiction.
    - destruct CF as (-> & HS1 & HS2 & Hag). f_equal. f_equal. apply (arr3_ext _ _ _ _ _ HS1 HS2). intros t Ht. apply Hag. lia.
    - destruct CF as (-> & ->). reflexivity.
  Qed.

  Theorem C09_bridge_pin_no_effect_on_Z p s o1 o2 s1 s2 :
    construct E (with_brown p true) s = (Ok o1, s1) -> construct E (with_brown p false) s = (Ok o2, s2) ->
    p_det p = true -> 2 <= List.length (o_grid o1) -> o_Z o1 = o_Z o2.
  Proof.
    intros H1 H2 Hd Hk. pose proof (B_run E _ _ _ _ H1) as (_ & _ & _ & _ & By & _).
    destruct (By Hk) as (_ & Hy). cbn in Hy.
    destruct (construct_ok E _ _ _ _ H1) as (_ & _ & G1 & sa & sb & HZ1 & _).
    destruct (construct_ok E _ _ _ _ H2) as (_ & _ & G2 & sc & sd & HZ2 & _).
    rewrite G1 in Hk. cbn in HZ1, HZ2, Hk. rewrite Hd in HZ1, HZ2. destruct HZ1 as (HZ1 & _), HZ2 as (HZ2 & _).
    rewrite (otto_agree p s true false _ _ _ eq_refl Hk Hy) in HZ1. cbn in HZ1, HZ2. congruence.
  Qed.

  Theorem C09_bridge_pin_no_effect_without_reweight p s : p_det p = true -> p_reweight p = false ->
    2 <= List.length (timegrid (p_t1 p) (p_t2 p)) -> List.length (p_y1 p) <= List.length (p_y2 p) ->
    same_outcome (construct E (with_brown p true) s) (construct E (with_brown p false) s).
  Proof.
    intros Hd Hr Hk Hy. apply same_flows_outcome; try reflexivity.
    unfold flows_of. cbn [with_brown p_t1 p_t2 p_y1 p_y2 p_N p_kern p_det p_reweight p_brown]. rewrite Hd, Hr. cbn [andb].
    rewrite !bind_assoc. apply bind_ext.
    - apply otto_agree; auto.
    - intros Z1 s1 _. reflexivity.
  Qed.

  (** ** C15 *)
  Theorem C15_stochastic_needs_one_argument_drift p s : p_det p = false ->
    (forall x, call1 (p_f p) x = Err TypeError) ->
    2 <= List.length (timegrid (p_t1 p) (p_t2 p)) -> 2 <= List.length (p_y1 p) -> 1 <= p_N p ->
    fst (construct E p s) = Err TypeError.
  Proof.
    intros Hd Hf Hk Hdim HN. unfold construct. rewrite Hd. unfold forward_sampling.
    destruct (timegrid (p_t1 p) (p_t2 p)) as [|t0 [|t1 g]]; [cbn in Hk; lia..|].
    set (k := List.length (t0 :: t1 :: g)) in *. set (dim := List.length (p_y1 p)) in *.
    rewrite (enumerate_cons _ _ nzero). cbn [mfold List.length seq map].
    assert (H0 : exists A, stoch_body E p (zeros3 dim (p_N p) k) (0, t0) s = (Ok A, s) /\ sh A dim (p_N p) k).
    { unfold stoch_body. cbn [Nat.eqb]. unfold lift.
      change 0%Z with (Z.of_nat 0). rewrite (pyget_nat _ 0 nzero) by (unfold dim in *; lia). cbn [rbind].
      assert (St : forall (B : arr3) i v, i < dim -> sh B dim (p_N p) k -> exists B', setrow3 B (Z.of_nat i) (Z.of_nat 0) v = Ok B' /\ sh B' dim (p_N p) k).
      { intros B0 i v Hi HB0. pose proof HB0 as (W & D & N & K).
        destruct (setrow3 B0 (Z.of_nat i) (Z.of_nat 0) v) as [B'|e] eqn:Q.
        - exists B'. split; auto. apply setrow3_ok in Q; auto. destruct Q as (j' & _ & _ & _ & W' & ->). split; auto.
        - unfold setrow3 in Q. rewrite D, K, !pyidx_nat in Q by (auto; unfold k; cbn; lia). discriminate. }
      destruct (St (zeros3 dim (p_N p) k) 0 (nth 0 (p_y1 p) nzero) ltac:(lia) (sh_zeros _ _ _)) as (A1 & -> & HA1). cbn [rbind].
      change 1%Z with (Z.of_nat 1). rewrite (pyget_nat _ 1 nzero) by (unfold dim in *; lia). cbn [rbind].
      destruct (St A1 1 (nth 1 (p_y1 p) nzero) ltac:(lia) HA1) as (A2 & -> & HA2). eauto. }
    destruct H0 as (A & H0 & HA).
    assert (H1 : fst (stoch_body E p A (1, t1) s) = Err TypeError).
    { unfold stoch_body. cbn [Nat.eqb]. destruct (p_N p) as [|N'] eqn:EN; [lia|]. cbn [seq mfold].
      assert (P : stoch_particle E p 1 A 0 s = (Err TypeError, s)).
      { unfold stoch_particle. rewrite bind_lift. change (Z.of_nat 1 - 1)%Z with (Z.of_nat 0).
        rewrite getsl_nat by (destruct HA as (_ & _ & _ & ->); unfold k; cbn; lia). cbn beta.
        rewrite bind_lift. rewrite Hf. reflexivity. }
      rewrite (bind_of_err (bind (stoch_particle E p 1 A 0) _) _ s TypeError s); [reflexivity|].
      apply (bind_of_err _ _ _ _ _ P). }
    rewrite !bind_assoc. rewrite (bind_of_ok _ _ _ _ _ H0). rewrite !bind_assoc.
    change (nth 1 (t0 :: t1 :: g) nzero) with t1.
    destruct (stoch_body E p A (1, t1) s) as [[?|e] q] eqn:Q; cbn in H1; [discriminate|]. injection H1 as ->.
    rewrite (bind_of_err _ _ _ _ _ Q). reflexivity.
  Qed.

  Theorem C15_stochastic_needs_one_argument_constraint p s o s' c : construct E p s = (Ok o, s') ->
    p_det p = false -> p_reweight p = true -> p_U p = Some c -> (forall x, call1 c x = Err TypeError) ->
    2 <= List.length (o_grid o) -> False.
  Proof.
    intros Hc Hd Hr HU Hf Hk. destruct (construct_ok E p s o s' Hc) as (_ & _ & G & s1 & s2 & HZ & _). rewrite Hd in HZ.
    destruct HZ as (HZ & _). rewrite G in Hk. apply stoch_run in HZ; [|lia].
    destruct HZ as (_ & _ & _ & _ & _ & Z1 & sg & _ & _ & _ & H). specialize (H 1 ltac:(lia)).
    unfold stoch_step in H. rewrite Hr in H. destruct H as (y & u & _ & _ & _ & _ & Hu & _).
    rewrite HU in Hu. cbn in Hu. rewrite Hf in Hu. discriminate.
  Qed.

  Theorem C15_deterministic_needs_two_arguments p s o s' : construct E p s = (Ok o, s') ->
    p_det p = true -> 2 <= List.length (o_grid o) ->
    (exists x t F, call2 (p_f p) x t = Ok F) /\
    (p_reweight p = true -> exists c x t u, p_U p = Some c /\ call2 c x t = Ok u).
  Proof.
    intros Hc Hd Hk. destruct (C06_forward_recurrence E p s o s' Hc Hd ltac:(lia)) as (sg & _ & H).
    specialize (H 1 ltac:(lia)). destruct (p_reweight p).
    - destruct H as (y & u & _ & _ & _ & (F & W & HF & _) & Hu & _). split; [eauto|]. intros _.
      destruct (p_U p) as [c|]; [|discriminate]. cbn in Hu. eauto 10.
    - destruct H as (F & W & HF & _). split; [eauto|discriminate].
  Qed.

  (** ** C12 *)
  Section Draws.
    Context {X : Type} (tag : S -> X) (adv : X -> draw -> X) (Ha : advances E tag adv).

    Lemma drawn_tag m s bs rows s' : drawn E m s bs rows s' -> tag s' = fold_left adv (repeat (DUniform m) (List.length bs)) (tag s).
    Proof.
      induction 1; [reflexivity|]. rewrite IHdrawn. cbn. f_equal.
      pose proof (proj2 Ha s lo hi m) as Q. rewrite H in Q. exact Q.
    Qed.
    Lemma normal_tag s sc r c W s' : x_normal E s sc r c = (W, s') -> tag s' = adv (tag s) (DNormal r c).
    Proof. intro H. pose proof (proj1 Ha s sc r c) as Q. rewrite H in Q. exact Q. Qed.

    Lemma plain_tag h kern m g fd i t x x' s s' : plain_step E h kern m g fd i t x x' s s' ->
      tag s' = fold_left adv (if i =? 1 then [DNormal (mr x) (mc x)] else repeat (DUniform m) (mr x)) (tag s).
    Proof.
      unfold plain_step. destruct (i =? 1).
      - intros (F & W & _ & HW & _). cbn. eapply normal_tag; eauto.
      - intros (F & bnds & rows & score & _ & Lb & _ & Hd & _). rewrite (drawn_tag _ _ _ _ _ Hd). now rewrite Lb.
    Qed.
    Lemma back_tag ny h kern m g fd t z b b' s s' : back_step E ny h kern m g fd t z b b' s s' ->
      tag s' = fold_left adv (if ny then repeat (DUniform m) (mr b) ++ [DNormal (mr b) (mc b)]
                              else repeat (DUniform m) (mr b + mr b)) (tag s).
    Proof.
      unfold back_step. destruct ny.
      - intros (F & W & score & s1 & (bnds & rows & Lb & _ & Hd & _) & _ & HW & _).
        rewrite fold_left_app. cbn. rewrite (normal_tag _ _ _ _ _ _ HW). f_equal.
        rewrite (drawn_tag _ _ _ _ _ Hd). now rewrite Lb.
      - intros (F & sz & sb & s1 & (bnds & rows & Lb & _ & Hd & _) & (bnds2 & rows2 & Lb2 & _ & Hd2 & _) & _).
        rewrite repeat_app, fold_left_app. rewrite (drawn_tag _ _ _ _ _ Hd2). rewrite Lb2. f_equal.
        rewrite (drawn_tag _ _ _ _ _ Hd). now rewrite Lb.
    Qed.

    Lemma seq_tag (sg : nat -> S) w a n : (forall i, i < n -> tag (sg (a + Datatypes.S i)) = fold_left adv w (tag (sg (a + i)))) ->
      tag (sg (a + n)) = fold_left adv (times n w) (tag (sg a)).
    Proof.
      induction n; intro H; [now rewrite Nat.add_0_r|]. rewrite H by lia. rewrite IHn by (intros; apply H; lia).
      clear. generalize (tag (sg a)). induction n; intro x; cbn; [now rewrite app_nil_r|].
      rewrite !fold_left_app. rewrite IHn. cbn. now rewrite fold_left_app.
    Qed.

    Lemma forward_tag (sg : nat -> S) k dim N m : 1 <= k ->
      (forall i, 1 <= i < k -> tag (sg i) = fold_left adv (if i =? 1 then [DNormal dim N] else repeat (DUniform m) dim) (tag (sg (i-1)))) ->
      tag (sg (k-1)) = fold_left adv (forward_draws k dim N m) (tag (sg 0)).
    Proof.
      intros Hk H. unfold forward_draws. destruct (Nat.leb_spec k 1).
      - now replace (k-1) with 0 by lia.
      - cbn [fold_left]. pose proof (H 1 ltac:(lia)) as H1. cbn in H1. rewrite <- H1.
        replace (k-1) with (1 + (k-2)) by lia. apply seq_tag. intros i Hi.
        rewrite (H (1 + Datatypes.S i)) by lia. destruct (Nat.eqb_spec (1 + Datatypes.S i) 1); [lia|].
        now replace (1 + Datatypes.S i - 1) with (1 + i) by lia.
    Qed.

    Theorem C12_draws p s o s' : construct E p s = (Ok o, s') -> 1 <= List.length (o_grid o) ->
      tag s' = fold_left adv (all_draws p (List.length (o_grid o))) (tag s).
    Proof.
      intros Hc Hk. pose proof (Z_sh E p s o s' Hc) as HZs.
      destruct (construct_ok E p s o s' Hc) as (_ & _ & G & s1 & s2 & HZ & HB).
      rewrite G in *. set (k := List.length (timegrid (p_t1 p) (p_t2 p))) in *. set (dim := List.length (p_y1 p)) in *.
      assert (HF : tag s2 = fold_left adv (if p_det p then forward_draws k dim (p_N p) (p_M p) ++
                     (if p_reweight p && p_brown p then forward_draws k dim (p_N p) (p_M p) else [])
                    else times (k - 1) (repeat (DNormal 1 dim) (p_N p))) (tag s)).
      { destruct (p_det p).
        - destruct HZ as (HZ & HT). apply otto_run in HZ; [|auto]. destruct HZ as (Sh & _ & _ & sg & <- & <- & Hst).
          assert (H1 : tag (sg (k-1)) = fold_left adv (forward_draws k dim (p_N p) (p_M p)) (tag (sg 0))).
          { apply forward_tag; auto. intros i Hi. specialize (Hst i Hi).
            destruct (sh_slice _ _ _ _ (i-1) Sh ltac:(fold k; lia)) as (_ & R & C).
            unfold otto_step in Hst. destruct (p_reweight p).
            - destruct Hst as (y & u & _ & _ & _ & Hst & _). apply plain_tag in Hst. now rewrite R, C in Hst.
            - apply plain_tag in Hst. now rewrite R, C in Hst. }
          rewrite fold_left_app. fold k in HT. rewrite <- H1. destruct (p_reweight p && p_brown p).
          + destruct HT as (Zt & _ & HT). apply otto_true_run in HT; [|auto].
            destruct HT as (Sht & _ & sg2 & E0 & <- & Hst2). fold k. rewrite <- E0.
            apply forward_tag; auto. intros i Hi. specialize (Hst2 i Hi).
            destruct (sh_slice _ _ _ _ (i-1) Sht ltac:(fold k; lia)) as (_ & R & C).
            apply plain_tag in Hst2. now rewrite R, C in Hst2.
          + destruct HT as (_ & ->). reflexivity.
        - destruct HZ as (HZ & -> & _). apply stoch_run in HZ; [|auto].
          destruct HZ as (Sh & _ & _ & _ & _ & Z1 & sg & <- & <- & Hun & Hst). fold k.
          replace (k-1) with (0 + (k-1)) at 1 by lia. apply seq_tag. intros i Hi. specialize (Hst (Datatypes.S i) ltac:(lia)).
          replace (Datatypes.S i - 1) with i in Hst by lia. cbn [plus].
          assert (PS : forall x x' sa sb, mr x = dim -> mc x = p_N p -> particle_step E dt (p_g p) (call1 (p_f p)) x x' sa sb ->
                    tag sb = fold_left adv (repeat (DNormal 1 dim) (p_N p)) (tag sa)).
          { intros x x' sa sb R C (sp & <- & <- & Hp). rewrite C.
            assert (Q : forall n, n <= p_N p -> tag (sp n) = fold_left adv (repeat (DNormal 1 dim) n) (tag (sp 0))).
            { induction n; intro Hn; [reflexivity|]. replace (Datatypes.S n) with (n + 1) at 2 by lia.
              rewrite repeat_app, fold_left_app, <- IHn by lia. destruct (Hp n ltac:(lia)) as (F & W & _ & HW & _).
              cbn. rewrite R in HW. eapply normal_tag; eauto. }
            apply Q. auto. }
          destruct (sh_slice _ _ _ _ i Sh ltac:(fold k; lia)) as (_ & R & C). fold dim in R.
          pose proof (Hun i ltac:(lia)) as Qu; rewrite Qu in R; rewrite Qu in C.
          unfold stoch_step in Hst. destruct (p_reweight p).
          + destruct Hst as (y & u & _ & _ & _ & Hst & _). eapply PS; eauto.
          + eapply PS; eauto. }
      unfold all_draws. fold dim. rewrite fold_left_app, <- HF.
      destruct (Nat.leb_spec k 1) as [K1|K1].
      { replace (backward_draws (p_det p) k dim (p_N p) (p_M p)) with (@nil draw).
        - cbn. now rewrite (bw_run_short E _ _ _ _ _ _ _ _ K1 HB).
        - unfold backward_draws. destruct (Nat.leb_spec k 2); [reflexivity|lia]. }
      apply bw_run in HB; [|exact HZs]. destruct HB as (Sh & _ & _ & _ & sg & <- & <- & Hst). fold dim k in Sh, Hst |- *.
      assert (Hb : forall j, 1 <= j -> j + 1 < k -> tag (sg j) = fold_left adv
         (if (j =? k - 2) || negb (p_det p) then repeat (DUniform (p_M p)) dim ++ [DNormal dim (p_N p)] else repeat (DUniform (p_M p)) (dim + dim)) (tag (sg (j+1)))).
      { intros j H1 H2. specialize (Hst j H1 H2). destruct (sh_slice _ _ _ _ (j+1) Sh ltac:(lia)) as (_ & R & C).
        apply back_tag in Hst. now rewrite R, C in Hst. }
      unfold backward_draws. destruct (Nat.leb_spec k 2) as [K2|K2].
      { now replace (k - 1) with 1 by lia. }
      set (sg' := fun i => sg (k - 1 - i)).
      assert (E1 : sg 1 = sg' (1 + (k - 3))) by (unfold sg'; f_equal; lia). rewrite E1.
      assert (E0 : sg (k-1) = sg' 0) by (unfold sg'; f_equal; lia). rewrite E0.
      destruct (p_det p).
      - rewrite fold_left_app.
        assert (H1 : tag (sg' 1) = fold_left adv (repeat (DUniform (p_M p)) dim ++ [DNormal dim (p_N p)]) (tag (sg' 0))).
        { unfold sg'. replace (k - 1 - 1) with (k-2) by lia. rewrite (Hb (k-2)) by lia. rewrite Nat.eqb_refl. cbn [orb].
          now replace (k - 2 + 1) with (k - 1 - 0) by lia. }
        rewrite <- H1. apply seq_tag. intros i Hi. unfold sg'. rewrite (Hb (k - 1 - (1 + Datatypes.S i))) by lia.
        destruct (Nat.eqb_spec (k - 1 - (1 + Datatypes.S i)) (k-2)); [lia|]. cbn [orb negb].
        now replace (k - 1 - (1 + Datatypes.S i) + 1) with (k - 1 - (1 + i)) by lia.
      - replace (1 + (k-3)) with (0 + (k-2)) by lia. apply seq_tag. intros i Hi. unfold sg'.
        rewrite (Hb (k - 1 - (0 + Datatypes.S i))) by lia. rewrite orb_true_r.
        now replace (k - 1 - (0 + Datatypes.S i) + 1) with (k - 1 - (0 + i)) by lia.
    Qed.
    (** the state of the generator after the forward pass *)
    Lemma otto_tag p kern grid s Z1 s1 : let k := List.length grid in 1 <= k ->
      forward_sampling_Otto E p kern grid (zeros3 (List.length (p_y1 p)) (p_N p) k) s = (Ok Z1, s1) ->
      tag s1 = fold_left adv (forward_draws k (List.length (p_y1 p)) (p_N p) (p_M p)) (tag s).
    Proof.
      intros k Hk HZ. apply otto_run in HZ; [|auto]. destruct HZ as (Sh & _ & _ & sg & <- & <- & Hst). fold k in Hst, Sh |- *.
      apply forward_tag; auto. intros i Hi. specialize (Hst i Hi).
      destruct (sh_slice _ _ _ _ (i-1) Sh ltac:(lia)) as (_ & R & C).
      unfold otto_step in Hst. destruct (p_reweight p).
      - destruct Hst as (y & u & _ & _ & _ & Hst & _). apply plain_tag in Hst. now rewrite R, C in Hst.
      - apply plain_tag in Hst. now rewrite R, C in Hst.
    Qed.
  End Draws.

  (** ** C08, second half.  For a generator whose stream position depends only on the kinds of calls made, the
      auxiliary flow is the same whatever f and U are. *)
  Theorem C08_bridge_independent_of_f_and_U (adv : S -> draw -> S) p f U s o1 o2 s1 s2 :
    advances E (fun s => s) adv -> p_det p = true -> 1 <= List.length (timegrid (p_t1 p) (p_t2 p)) ->
    construct E p s = (Ok o1, s1) -> construct E (with_U (with_f p f) U) s = (Ok o2, s2) ->
    o_Ztr o1 = o_Ztr o2.
  Proof.
    intros Ha Hd Hk H1 H2.
    destruct (construct_ok E _ _ _ _ H1) as (_ & _ & _ & sa & sb & HZ1 & _).
    destruct (construct_ok E _ _ _ _ H2) as (_ & _ & _ & sc & sd & HZ2 & _).
    cbn [with_U with_f p_det p_t1 p_t2 p_y1 p_N p_reweight p_brown p_kern] in HZ1, HZ2. rewrite Hd in HZ1, HZ2.
    destruct HZ1 as (HZ1 & HT1), HZ2 as (HZ2 & HT2).
    destruct (p_reweight p && p_brown p); [|destruct HT1, HT2; congruence].
    destruct HT1 as (Zt1 & -> & HT1), HT2 as (Zt2 & -> & HT2).
    apply (otto_tag _ adv Ha) in HZ1; [|exact Hk]. pose proof (otto_tag _ adv Ha (with_U (with_f p f) U)) as Q.
    specialize (Q _ _ _ _ _ Hk HZ2). cbn [with_U with_f p_det p_t1 p_t2 p_y1 p_N p_M] in Q. cbv beta in HZ1, Q.
    assert (Esc : sc = sa) by congruence. rewrite Esc in HT2.
    assert (X : forward_sampling_Otto_true E p (kern_used (p_kern p)) (timegrid (p_t1 p) (p_t2 p))
       (zeros3 (List.length (p_y1 p)) (p_N p) (List.length (timegrid (p_t1 p) (p_t2 p)))) sa = (Ok Zt2, sd)) by exact HT2.
    rewrite HT1 in X. congruence.
  Qed.
End Runs.

(** [E] logged satisfies the contract of C12 with the log as observation *)
Lemma logged_advances {T S} {O : NumOps T} (E : Ext T S) : advances (logged E) snd (fun l d => l ++ [d]).
Proof.
  split; intros; unfold logged; cbn.
  - now destruct (x_normal E (fst s) sc r c).
  - now destruct (x_uniform E (fst s) lo hi m).
Qed.
Lemma fold_snoc {A} (l l' : list A) : fold_left (fun l d => l ++ [d]) l' l = l ++ l'.
Proof. revert l. induction l'; intro l; cbn; [now rewrite app_nil_r|]. rewrite IHl', <- app_assoc. reflexivity. Qed.

(** the log of the generator calls of a successful construction is a fixed function of k, dim, N, M and the mode *)
Theorem C12_log {T S} {O : NumOps T} (E : Ext T S) p s o s' log : 1 <= List.length (o_grid o) ->
  construct (logged E) p (s, []) = (Ok o, (s', log)) -> log = all_draws p (List.length (o_grid o)).
Proof.
  intros Hk H. pose proof (C12_draws (logged E) snd _ (logged_advances E) p _ o _ H Hk) as Q. rewrite fold_snoc in Q. exact Q.
Qed.

(** logging changes nothing else, so C12_log is about the runs of E itself *)
Section Logging.
  Context {T S : Type} {O : NumOps T} (E : Ext T S).
  Definition sim {A} (m : M S A) (m' : M (S * list draw) A) : Prop :=
    forall s l, exists l', m' (s, l) = (fst (m s), (snd (m s), l')).
  Lemma sim_lift {A} (r : res A) : sim (lift r) (lift r).
  Proof. intros s l. exists l. reflexivity. Qed.
  Lemma sim_ret {A} (a : A) : sim (ret a) (ret a).
  Proof. intros s l. exists l. reflexivity. Qed.
  Lemma sim_bind {A B} (m : M S A) m' (k : A -> M S B) k' : sim m m' -> (forall a, sim (k a) (k' a)) -> sim (bind m k) (bind m' k').
  Proof.
    intros H1 H2 s l. unfold bind. destruct (H1 s l) as (l1 & ->). destruct (m s) as [[a|e] s1]; cbn; [apply H2|eauto].
  Qed.
  Lemma sim_mfold {A B} (f : B -> A -> M S B) f' l b : (forall b a, sim (f b a) (f' b a)) -> sim (mfold f l b) (mfold f' l b).
  Proof. intro H. revert b. induction l; intro b; cbn; [apply sim_ret|]. apply sim_bind; auto. Qed.
  Lemma sim_mmap {A B} (f : A -> M S B) f' l : (forall a, sim (f a) (f' a)) -> sim (mmap f l) (mmap f' l).
  Proof. intro H. induction l; cbn; [apply sim_ret|]. apply sim_bind; auto. intro. apply sim_bind; auto. intro. apply sim_ret. Qed.
  Lemma sim_normal sc r c : sim (normal E sc r c) (normal (logged E) sc r c).
  Proof. intros s l. unfold normal. cbn. destruct (x_normal E s sc r c). cbn. eauto. Qed.
  Lemma sim_uniform lo hi m : sim (uniform E lo hi m) (uniform (logged E) lo hi m).
  Proof. intros s l. unfold uniform. cbn. destruct (x_uniform E s lo hi m) as [[h|e] s']; cbn; eauto. Qed.
  Lemma sim_box m bs : sim (sample_box E m bs) (sample_box (logged E) m bs).
  Proof. unfold sample_box. apply sim_bind; [|intro; apply sim_ret]. apply sim_mmap. intro. apply sim_uniform. Qed.

  Ltac simt := repeat first
    [ apply sim_lift | apply sim_ret | apply sim_normal | apply sim_box
    | apply sim_bind; [|intro] | apply sim_mfold; intros
    | match goal with |- sim (if ?b then _ else _) _ => destruct b end
    | match goal with |- sim (let (_,_) := ?x in _) _ => destruct x end ].

  Lemma sim_em g fd d n x t : sim (em_step E g fd d n x t) (em_step (logged E) g fd d n x t).
  Proof. unfold em_step. simt. Qed.
  Lemma sim_det kern m g fd gd x t : sim (det_step (f_seperate E kern m g fd gd) x t) (det_step (f_seperate (logged E) kern m g fd gd) x t).
  Proof. unfold det_step, f_seperate. simt. Qed.
  Lemma sim_otto p kern grid A : sim (forward_sampling_Otto E p kern grid A) (forward_sampling_Otto (logged E) p kern grid A).
  Proof. unfold forward_sampling_Otto, otto_body. simt; try apply sim_em; try apply sim_det. Qed.
  Lemma sim_otto_true p kern grid A : sim (forward_sampling_Otto_true E p kern grid A) (forward_sampling_Otto_true (logged E) p kern grid A).
  Proof. unfold forward_sampling_Otto_true, otto_true_body. simt; try apply sim_em; try apply sim_det. Qed.
  Lemma sim_stoch p grid A : sim (forward_sampling E p grid A) (forward_sampling (logged E) p grid A).
  Proof. unfold forward_sampling, stoch_body, stoch_particle. simt. Qed.
  Lemma sim_bw p kern grid Zf A : sim (backward_simulation E p kern grid Zf A) (backward_simulation (logged E) p kern grid Zf A).
  Proof. unfold backward_simulation, bw_body, density_estimation, bw_density_estimation, bw_stoch_step. simt. Qed.

  Lemma sim_construct p : sim (construct E p) (construct (logged E) p).
  Proof.
    unfold construct. apply sim_bind.
    - destruct (p_det p).
      + apply sim_bind; [apply sim_otto|]. intro. destruct (p_reweight p && p_brown p); [|apply sim_ret].
        apply sim_bind; [apply sim_otto_true|]. intro. apply sim_ret.
      + apply sim_bind; [apply sim_stoch|]. intro. apply sim_ret.
    - intro. apply sim_bind; [apply sim_bw|]. intro. apply sim_ret.
  Qed.

  Theorem C12_log_is_transparent p s l : exists log,
    construct (logged E) p (s, l) = (fst (construct E p s), (snd (construct E p s), log)).
  Proof. apply sim_construct. Qed.
End Logging.

(** ** Concrete runs *)
Example C09_toy : exists o1 o2 s1 s2, construct ToyExt (with_brown toy_rw true) 7%Z = (Ok o1, s1) /\
  construct ToyExt (with_brown toy_rw false) 7%Z = (Ok o2, s2) /\ o_Z o1 = o_Z o2.
Proof.
  destruct (okrun_run _ _ toy_bridge_runs) as (o1 & s1 & H1 & L1). destruct (okrun_run _ _ toy_rw_runs) as (o2 & s2 & H2 & L2).
  exists o1, o2, s1, s2. split; [exact H1|]. split; [exact H2|].
  apply (C09_bridge_pin_no_effect_on_Z ToyExt toy_rw 7%Z o1 o2 s1 s2 H1 H2 eq_refl). lia.
Qed.
(** ... while with one grid point the pin overwrites the initial condition *)
Example C10_toy : fst (construct ToyExt (with_kern toy_det "linear") 7%Z) = Err UnboundLocalError.
Proof. vm_compute. reflexivity. Qed.
Example C12_toy : exists o s', construct (logged ToyExt) toy_bridge (7%Z, []) = (Ok o, s') /\
  snd s' = [DNormal 2 4] ++ repeat (DUniform 3) 6 ++ [DNormal 2 4] ++ repeat (DUniform 3) 6
           ++ repeat (DUniform 3) 2 ++ [DNormal 2 4] ++ repeat (DUniform 3) 8.
Proof.
  destruct (okrun_run _ _ toy_bridge_runs) as (o & s' & H & L).
  destruct (C12_log_is_transparent ToyExt toy_bridge 7%Z []) as (log & Q). rewrite H in Q. cbn [fst snd] in Q.
  exists o, (s', log). split; [exact Q|]. cbn [snd]. rewrite (C12_log ToyExt toy_bridge 7%Z o s' log); [|lia|exact Q]. rewrite L. reflexivity.
Qed.
Example C15_toy : fst (construct ToyExt (toy 4000 P0 P1 false false false f2 U1) 7%Z) = Err TypeError.
Proof. apply C15_stochastic_needs_one_argument_drift; try reflexivity; try (vm_compute; lia). Qed.
(** ToyExt itself is a generator whose position depends only on the kinds of calls, so C08_bridge_independent applies to it *)
Example C08_toy : advances ToyExt (fun s => s) (fun s d => match d with DNormal _ _ => lcg (s + 1) | DUniform _ => lcg (s + 2) end)%Z.
Proof. split; reflexivity. Qed.
