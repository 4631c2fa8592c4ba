(** C13 for whole runs: where the inducing points of every score estimate lie. *)
From Coq Require Import String List ZArith Lia Bool Reals Lra.
From Verif Require Import Base.Num Base.Py Base.Arr Lib.ArrLemmas Model.Ext Model.Cdist Model.Score Model.DPFC.
From Verif Require Import Spec.FlowSpec Spec.QuerySpec Spec.RealSpec Spec.Contracts Spec.RangeSpec.
From Verif Require Import Lib.FlowLemmas Lib.ScoreLemmas Lib.StepLemmas Lib.QueryLemmas Lib.RBase Lib.RSum Lib.StochLemmas.
From Verif Require Import Props.Flows Props.Queries Props.QueriesR.
Import ListNotations.
Local Open Scope R_scope.

Section R.
  Context {S : Type} (E : Ext R S) (HU : uniform_in_range E).

  Lemma common_points m (z b : mat R) dim bnds rows s s' :
    List.length bnds = dim -> (forall d, (d < dim)%nat -> common_range z b d (nth d bnds (nzero, nzero))) -> drawn E m s bnds rows s' ->
    forall i d, (i < m)%nat -> (d < dim)%nat -> common_point z b d (get (points m rows) i d).
  Proof.
    intros L Hr Hd i d Hi Hdd. destruct (C13_common_box E m z b dim bnds rows s s' HU L Hr Hd i d Hi Hdd) as (H1 & H2). cbv zeta in H1, H2.
    destruct (Hr d Hdd) as (rz & rb & Rz & Rb & Q1 & Q2). rewrite Q1, Q2 in H1, H2. rewrite pymax_R, pymin_R in H1, H2.
    assert (HO : (exists w, in_range z d w /\ in_range b d w) <-> Rmax (fst rz) (fst rb) <= Rmin (snd rz) (snd rb)).
    { split.
      - intros (w & W1 & W2). apply (range_R _ _ _ _ Rz) in W1. apply (range_R _ _ _ _ Rb) in W2. apply Rle_trans with w; [apply Rmax_lub|apply Rmin_glb]; cbn in *; lra.
      - intro H. exists (Rmax (fst rz) (fst rb)). pose proof (Rmax_l (fst rz) (fst rb)). pose proof (Rmax_r (fst rz) (fst rb)). pose proof (Rmin_l (snd rz) (snd rb)). pose proof (Rmin_r (snd rz) (snd rb)).
        split; [apply (range_R _ _ _ _ Rz)|apply (range_R _ _ _ _ Rb)]; cbn in *; lra. }
    split; [intro H; apply H2, HO, H|]. intro H. assert (G : Rmin (snd rz) (snd rb) < Rmax (fst rz) (fst rb)) by (apply Rnot_le_lt; intro; now apply H, HO).
    rewrite Rmin_right, Rmax_left in H1 by lra. destruct Rz as (Z1 & Z2), Rb as (B1 & B2).
    apply rlo_R in Z1, B1. apply rhi_R in Z2, B2. destruct Z1 as ((n1 & N1 & V1) & L1), B1 as ((n2 & N2 & V2) & L2), Z2 as ((n3 & N3 & V3) & L3), B2 as ((n4 & N4 & V4) & L4).
    pose proof (L3 n1 N1). pose proof (L4 n2 N2). destruct (Rle_dec (snd rz) (snd rb)); destruct (Rle_dec (fst rz) (fst rb)).
    - left. intros a c Hn Hm. rewrite Rmin_left, Rmax_right in H1 by lra. pose proof (L3 a Hn). pose proof (L2 c Hm). lra.
    - exfalso. rewrite Rmin_left, Rmax_left in G by lra. lra.
    - exfalso. rewrite Rmin_right, Rmax_right in G by lra. lra.
    - right. intros a c Hn Hm. rewrite Rmin_right, Rmax_left in H1 by lra. pose proof (L1 a Hn). pose proof (L4 c Hm). lra.
  Qed.

  Section Run.
    Context (p : params R) (s : S) (o : obj R) (s' : S) (Hc : construct E p s = (Ok o, s')).
    Let k := List.length (o_grid o).
    (** the particles x moved with the flow of drift f: all inducing points inside the bounding box of x *)
    Definition boxed_step (f : mat R -> R -> res (mat R)) (t : R) (x y : mat R) : Prop := exists F rows score,
      f x t = Ok F /\
      (forall a d, (a < p_M p)%nat -> (d < mr x)%nat -> in_range x d (get (points (p_M p) rows) a d)) /\
      (forall d, (d < mr x)%nat ->
         score_function_multid_seperate E (mT x) (points (p_M p) rows) nmilli (o_kern o) (LVec (lengthscales x)) (Z.of_nat d + 1) = Ok (score d)) /\
      forall d n, (d < mr x)%nat -> (n < mc x)%nat ->
        get y d n = get x d n + nmilli * (elem F d n - nhalf * nsq (elem (p_g p) d n) * nth n (score d) 0).
    Lemma flow_boxed f t x y s1 s2 : flow_step E nmilli (o_kern o) (p_M p) (p_g p) f t x y s1 s2 -> boxed_step f t x y.
    Proof.
      intros (F & bnds & rows & score & H1 & H2 & H3 & H4 & H5 & H6).
      exists F, rows, score. split; [auto|]. split. { intros. eapply C13_own_box; eauto. } split; [intros; now apply H5|]. exact H6.
    Qed.
    (** forward flow, with reweighting, and the bridge flow Ztr *)
    Theorem C13_reweighted_run : p_det p = true -> p_reweight p = true -> forall i, (2 <= i < k)%nat ->
      exists y u, boxed_step (call2 (p_f p)) (nth i (o_grid o) 0 - nmilli) (slice (o_Z o) (i-1)) y /\
        ocall2 (p_U p) y (nth i (o_grid o) 0) = Ok u /\ reweighted E (fun n => nmul (elem u 0 n) nmilli) y (slice (o_Z o) i).
    Proof.
      intros Hd Hr i Hi. destruct (C06_forward_recurrence E p s o s' Hc Hd ltac:(lia)) as (sg & _ & H).
      specialize (H i ltac:(unfold k in *; lia)). rewrite Hr in H. destruct H as (y & u & _ & _ & _ & H & H1 & H2).
      unfold plain_step in H. destruct (Nat.eqb_spec i 1); [lia|]. exists y, u. split; [eapply flow_boxed; exact H|auto].
    Qed.
    Theorem C13_bridge_run : p_det p = true -> p_reweight p = true -> p_brown p = true -> exists Zt, o_Ztr o = Some Zt /\ forall i, (2 <= i < k)%nat ->
      boxed_step (ocall2 (p_f_true p)) (nth i (o_grid o) 0 - nmilli) (slice Zt (i-1)) (slice Zt i).
    Proof.
      intros Hd Hr Hb. destruct (construct_ok E p s o s' Hc) as (_ & _ & _ & s1 & s2 & HZ & _). rewrite Hd, Hr, Hb in HZ. destruct HZ as (_ & Zt & Q & _). clear s1 s2. exists Zt. split; [auto|]. intros i Hi.
      destruct (C08_bridge_flow E p s o s' Hc Hd Hr Hb ltac:(unfold k in *; lia)) as (Zt' & sg & Q' & _ & H). assert (Zt' = Zt) by congruence. subst Zt'.
      specialize (H i ltac:(unfold k in *; lia)). unfold plain_step in H. destruct (Nat.eqb_spec i 1); [lia|]. eapply flow_boxed; exact H.
    Qed.

    (** the time-reversed flow: the forward score is estimated with inducing points w, the score of the backward particles
        (deterministic steps only) with inducing points w', all of them common points of the two ensembles *)
    Theorem C13_backward_run : forall j, (1 <= j)%nat -> (j + 1 < k)%nat ->
      let x := slice (o_Z o) (j+1) in let b := slice (o_B o) (j+1) in let b' := slice (o_B o) j in
      exists F w sx,
        call2 (p_f p) b (nth (j+1) (o_grid o) 0) = Ok F /\
        (forall a d, (a < p_M p)%nat -> (d < mr b)%nat -> common_point x b d (get w a d)) /\
        (forall d, (d < mr b)%nat -> exists fn, score_function_multid_seperate_fun E (mT x) w nmilli (o_kern o) (LVec (lengthscales x)) (Z.of_nat d + 1) = Ok fn /\ fn (mT b) = Ok (sx d)) /\
        if ((j =? k - 2)%nat || negb (p_det p))%bool
        then exists W : nat -> nat -> R, forall d n, (d < mr b)%nat -> (n < mc b)%nat ->
          get b' d n = get b d n - elem F d n * nmilli + nmilli * nsq (elem (p_g p) d n) * nth n (sx d) 0 + elem (p_g p) d n * W d n
        else exists w' sb,
          (forall a d, (a < p_M p)%nat -> (d < mr b)%nat -> common_point x b d (get w' a d)) /\
          (forall d, (d < mr b)%nat -> score_function_multid_seperate E (mT b) w' nmilli (o_kern o) (LVec (lengthscales b)) (Z.of_nat d + 1) = Ok (sb d)) /\
          forall d n, (d < mr b)%nat -> (n < mc b)%nat ->
            get b' d n = get b d n - (elem F d n - nsq (elem (p_g p) d n) * nth n (sx d) 0 + nhalf * nsq (elem (p_g p) d n) * nth n (sb d) 0) * nmilli.
    Proof.
      intros j Hj Hjk x b b'. destruct (C07_backward_recurrence E p s o s' Hc) as (sg & _ & H). specialize (H j Hj Hjk). fold k x b b' in H.
      destruct ((j =? k - 2)%nat || negb (p_det p))%bool.
      - destruct H as (F & W & score & s1 & (bn & rw & L & C & D & V) & HF & _ & HE). exists F, (points (p_M p) rw), score. split; [exact HF|].
        split. { exact (common_points _ _ _ _ _ _ _ _ L C D). } split. { intros d Hd. destruct (V d Hd) as (_ & fn & V1 & V2). eauto. }
        exists W. intros d n Hd Hn. exact (HE d n Hd Hn).
      - destruct H as (F & sz & sb & s1 & (bn & rw & L & C & D & V) & (bn2 & rw2 & L2 & C2 & D2 & V2) & HF & HE). exists F, (points (p_M p) rw), sz. split; [exact HF|].
        split. { exact (common_points _ _ _ _ _ _ _ _ L C D). } split. { intros d Hd. destruct (V d Hd) as (_ & fn & V1 & V3). eauto. }
        exists (points (p_M p) rw2), sb. split. { exact (common_points _ _ _ _ _ _ _ _ L2 C2 D2). } split. { intros d Hd. apply (V2 d Hd). } intros d n Hd Hn. exact (HE d n Hd Hn).
    Qed.
  End Run.

  (** interior queries (no bridge): both scores are estimated with the same inducing points, common points of the two flows *)
  Theorem C13_query o dim N k gx ti s u s' : consistent o dim N k ->
    p_reweight (o_par o) && p_brown (o_par o) = false -> (6 <= ti <= Z.of_nat k - 6)%Z -> calculate_u E o gx ti s = (Ok u, s') ->
    let x := slice (o_Z o) (Z.to_nat ti) in let b := slice (o_B o) (Z.to_nat ti) in
    exists w, mr w = p_M (o_par o) /\ mc w = dim /\ (forall a d, (a < p_M (o_par o))%nat -> (d < dim)%nat -> common_point x b d (get w a d)) /\
      forall d, (d < dim)%nat -> exists sb sx, estimated E (o_kern o) b w d gx sb /\ estimated E (o_kern o) x w d gx sx /\
        forall i, (i < mr gx)%nat -> get u d i = nth i sb 0 - nth i sx 0.
  Proof.
    intros Hcs Hb Ht H x b. assert (HF : forward_of o (o_Z o)) by (unfold forward_of; now rewrite Hb).
    destruct (C22_interior_control E o dim N k Hcs (o_Z o) HF gx ti s u s' Hb Ht H) as (_ & _ & _ & bnds & rows & Lb & Hcr & Hd & Hv).
    exists (points (p_M (o_par o)) rows). split; [reflexivity|]. split. { cbn. rewrite (proj1 (drawn_inside E _ _ _ _ _ HU Hd)). auto. }
    split. { exact (common_points _ _ _ _ _ _ _ _ Lb Hcr Hd). } intros d Hdd. destruct (Hv d Hdd) as (sb & sx & V1 & V2 & _ & _ & V3). exists sb, sx. auto.
  Qed.
End R.

(** *** a concrete run: the theorems apply to real_problem with reweighting and bridge (20 steps) and to [fan] of Props/Witnesses.v,
    whose flows do not overlap, so that its inducing points lie in the gap *)
From Verif Require Import Run.RealExt Props.Witnesses.
Example W13_bridge : exists o s', construct RealExt (real_problem true true) 0%nat = (Ok o, s') /\ List.length (o_grid o) = 21%nat /\
  exists Zt, o_Ztr o = Some Zt /\ boxed_step RealExt (real_problem true true) o (ocall2 (p_f_true (real_problem true true))) (nth 7 (o_grid o) 0 - nmilli) (slice Zt 6) (slice Zt 7).
Proof.
  destruct (real_run true true 0%nat) as (o & s' & H & L & _). destruct real_parts as (_ & _ & _ & HU & _). exists o, s'. split; [exact H|]. split; [exact L|].
  destruct (C13_bridge_run RealExt HU _ _ _ _ H) as (Zt & Q & B); auto. exists Zt. split; [exact Q|]. apply (B 7%nat). rewrite L. lia.
Qed.
Example W13_gap : exists o s', construct RealExt fan 0%nat = (Ok o, s') /\ List.length (o_grid o) = 21%nat /\
  exists w, (forall a d, (a < p_M fan)%nat -> (d < 2)%nat -> common_point (slice (o_Z o) 9) (slice (o_B o) 9) d (get w a d)) /\
    ~ exists v, in_range (slice (o_Z o) 9) 0 v /\ in_range (slice (o_B o) 9) 0 v.
Proof.
  destruct (fan_run 0%nat) as (o & s' & H & L). destruct real_parts as (_ & _ & _ & HU & _). exists o, s'. split; [exact H|]. split; [exact L|].
  destruct (C13_backward_run RealExt HU _ _ _ _ H 8 ltac:(lia) ltac:(lia)) as (F & w & sx & _ & HW & _).
  destruct (fan_shapes 0%nat o s' H L 9 ltac:(lia)) as (Z1 & Z2 & B1 & B2). exists w. split.
  - intros a d Ha Hd. apply HW; auto. cbn [Nat.add]. lia.
  - intros (v & ((_ & (n & Hn & V1)) & ((m & Hm & V2) & _))). rewrite Z2 in Hn. rewrite B2 in Hm.
    rewrite (fan_forward 0%nat o s' H L) in V1 by lia. replace 9%nat with (20 - 11)%nat in V2 by lia. rewrite (fan_backward 0%nat o s' H L) in V2 by lia.
    cbn [nth] in V1, V2. pose proof (le_INR n 2 ltac:(lia)). pose proof (le_INR m 2 ltac:(lia)). pose proof (pos_INR n). pose proof (pos_INR m).
    replace (INR 9) with 9 in V1 by (cbn; lra). replace (INR 11) with 11 in V2 by (cbn; lra). cbn [INR] in *. lra.
Qed.
