(** C83: NaN in the runs of the two classes in double precision. *)
From Coq Require Import String List ZArith Reals Bool Lia Lra.
From Flocq Require Import Core BinarySingleNaN.
From Verif Require Import Base.Num Base.Py Base.Arr Lib.ArrLemmas Model.Ext Model.Score Model.ScoreTorch Model.DPFC Model.TDPFC Run.Double Spec.DoubleSpec Spec.FlowSpec Spec.TorchSpec Spec.QuerySpec.
From Verif Require Import Lib.QueryLemmas Lib.ScoreLemmas Lib.StepLemmas Lib.FlowLemmas Lib.StochLemmas Lib.DoubleLemmas Lib.AffineRun Props.CdistProps Props.Flows Props.Torch Props.Queries Props.TorchQueries Props.DoubleQueries Props.DoubleKernels Lib.NaNLemmas.
Import ListNotations.
Local Open Scope nat_scope.

Section C83.
  Context (fexp fsin fcos : double -> double) (fsum : list double -> double).
  #[local] Hint Extern 0 (NumOps double) => exact (NOps fexp fsin fcos fsum) : typeclass_instances.
  Context (Hs : sum_contract fsum) (He : fexp dNaN = dNaN).
  Notation mat := (mat double).
  Context {S : Type} (E : Ext double S).

  Lemma drawn_len m s bnds rows s' : drawn E m s bnds rows s' -> List.length rows = List.length bnds.
  Proof. induction 1; cbn; auto. Qed.
  Lemma drawn_point m s bnds rows s' : uniform_point E -> drawn E m s bnds rows s' ->
    forall d lo, d < List.length bnds -> nth d bnds (nzero, nzero) = (lo, lo) -> finite lo -> forall i, i < m -> finite (nth i (nth d rows []) nzero) /\ B2R (nth i (nth d rows []) nzero) = B2R lo.
  Proof.
    intros Hu. induction 1 as [|s lo' hi' h s1 bs rows s2 Hx _ IH]; intros d lo Hd Hq F i Hi; [cbn in Hd; lia|]. destruct d as [|d]; cbn [nth] in *.
    - injection Hq as -> ->. rewrite nth_map_seq by auto. apply (Hu _ _ _ _ _ F Hx i Hi).
    - apply (IH d lo); auto. cbn in Hd. lia.
  Qed.
  Lemma ls_nth (x : mat) d : d < mr x -> pyget (lengthscales x) (Z.of_nat d) = Ok (nmul ntwo (nstd (row x d))).
  Proof. intro H. unfold lengthscales. rewrite (pyget_nat _ d dNaN) by (rewrite map_length, seq_length; auto). now rewrite nth_map_seq. Qed.
  Lemma copies_bounds (z : mat) d y : 1 <= mc z -> finite y -> (forall n, n < mc z -> get z d n = y) -> forall r, range_of z d r -> r = (y, y).
  Proof.
    intros HN F H [lo hi] (A & B). cbn [fst snd] in *. assert (RC : row z d = repeat y (mc z)) by exact (row_const fexp fsin fcos fsum z d y H). rewrite RC in A, B.
    assert (N : ~ In dNaN (repeat y (mc z))). { intro I. apply repeat_spec in I. subst y. discriminate. }
    assert (N0 : repeat y (mc z) <> []) by (destruct (mc z); [lia|discriminate]).
    destruct (lmin_double fexp fsin fcos fsum _ N0) as (v & V1 & _ & V2). destruct (lmax_double fexp fsin fcos fsum _ N0) as (w & W1 & _ & W2).
    assert (lo = v) by (change (lmin (repeat y (mc z)) = Ok v) in V1; congruence). assert (hi = w) by (change (lmax (repeat y (mc z)) = Ok w) in W1; congruence). subst.
    destruct (V2 N) as (_ & I1 & _), (W2 N) as (_ & I2 & _). apply repeat_spec in I1, I2. congruence.
  Qed.
  Lemma two_zero (x : double) : finite x -> B2R x = 0%R -> finite (nmul ntwo x) /\ B2R (nmul ntwo x) = 0%R.
  Proof.
    intros F V. destruct (zero_cases x F V) as (b & ->). cbn [nmul NOps DoubleOps]. assert (G : finite (ntwo (T := double))) by reflexivity. destruct (ntwo (T := double)) as [ | | |]; try discriminate; now split.
  Qed.

  (** one step of the reversed flow *)
  Lemma score_of_at_nan kern m z b score s s' n d : kern <> "periodic"%string -> 1 <= m -> score_of_at E kern m z b (mr b) (mc b) score s s' ->
    d < mr b -> n < mc b -> get b d n = dNaN -> forall d', d' < mr b -> nth n (score d') (dZ 0) = dNaN.
  Proof.
    intros Hk Hm (bnds & rows & Lb & _ & Hd & Hsc) Hd1 Hn Hnan d' Hd'. destruct (Hsc d' Hd') as (_ & fn & Hf & Hv).
    apply (score_fun_nan fexp fsin fcos fsum Hs E _ _ _ _ _ _ _ _ _ n Hk Hf Hv); [cbn; auto|cbn; auto|].
    intros k Hkk. apply (Ksz_nan fexp fsin fcos fsum Hs He _ _ _ _ n d Hkk); [cbn; auto|cbn; auto|]. left. unfold mT. rewrite get_mk by auto. exact Hnan.
  Qed.
  Lemma noisy_nan kern m g fd t z b b' s s' n d : kern <> "periodic"%string -> 1 <= m -> back_noisy_step E nmilli kern m g fd t z b b' s s' ->
    d < mr b -> n < mc b -> get b d n = dNaN -> forall d', d' < mr b -> get b' d' n = dNaN.
  Proof.
    intros Hk Hm (F & W & score & s1 & Hsc & _ & _ & Hg) Hd Hn Hnan d' Hd'. rewrite Hg by auto. pose proof (score_of_at_nan _ _ _ _ _ _ _ _ _ Hk Hm Hsc Hd Hn Hnan d' Hd') as Q.
    change (nth n (score d') nzero) with (nth n (score d') (dZ 0)). rewrite Q. cbn [nadd nmul NOps DoubleOps]. rewrite mul_nan_r, add_nan_r. reflexivity.
  Qed.
  Lemma flow_nan kern m g fd t z b b' s s' n d : kern <> "periodic"%string -> 1 <= m -> back_flow_step E nmilli kern m g fd t z b b' s s' ->
    d < mr b -> n < mc b -> get b d n = dNaN -> forall d' n', d' < mr b -> n' < mc b -> get b' d' n' = dNaN.
  Proof.
    intros Hk Hm (F & sz & sb & s1 & _ & Hsb & _ & Hg) Hd Hn Hnan d' n' Hd' Hn'. rewrite Hg by auto.
    assert (Q : nth n' (sb d') (dZ 0) = dNaN).
    { destruct Hsb as (bnds & rows & Lb & _ & Hdr & Hsc). destruct (Hsc d' Hd') as (_ & Hv). apply (score_self_nan fexp fsin fcos fsum Hs E _ _ _ _ _ _ _ n' Hk Hv); [cbn; auto|cbn; auto|].
      intros K HK. split; [now apply is_K_sep in HK|].
      assert (Hl : nth d (lengthscales b) dNaN = dNaN). { unfold lengthscales. rewrite nth_map_seq by auto. rewrite (std_nan fexp fsin fcos fsum Hs). { apply mul_nan_r. } apply (row_has_nan fexp fsin fcos fsum). exists n. auto. }
      destruct (K_nan_scale fexp fsin fcos fsum He (mr b) (mT b) (points m rows) (lengthscales b) d K) as (_ & _ & G); auto.
      - cbn. now rewrite (drawn_len _ _ _ _ _ Hdr).
      - unfold lengthscales. now rewrite map_length, seq_length.
      - pose proof (is_K_sep _ _ _ _ HK) as (_ & R1 & C1). intros j Hj. apply G; [cbn; auto|]. rewrite C1 in Hj. exact Hj. }
    change (nth n' (sb d') nzero) with (nth n' (sb d') (dZ 0)). rewrite Q. cbn [nadd nsub nmul NOps DoubleOps]. rewrite mul_nan_r, add_nan_r. change (Bmult mode_NE dNaN ?z) with dNaN. apply sub_nan_r.
  Qed.
  Lemma noisy_copies kern m g fd t z b b' s s' d y : kern <> "periodic"%string -> 1 <= m -> uniform_point E -> back_noisy_step E nmilli kern m g fd t z b b' s s' ->
    mr z = mr b -> mc z = mc b -> 1 <= mc b -> (Z.of_nat (mc b) < 9007199254740992)%Z -> d < mr b -> short y (mc b) ->
    (forall n, n < mc b -> get z d n = y /\ get b d n = y) -> forall d' n, d' < mr b -> n < mc b -> get b' d' n = dNaN.
  Proof.
    intros Hk Hm Hu (F & W & score & s1 & Hsc & _ & _ & Hg) Rz Cz HN HB Hd Hy Hc d' n Hd' Hn. rewrite Hg by auto.
    assert (Fy : finite y) by apply Hy.
    assert (Q : nth n (score d') (dZ 0) = dNaN).
    { destruct Hsc as (bnds & rows & Lb & Hb & Hdr & Hsc). destruct (Hsc d' Hd') as (_ & fn & Hf & Hv).
      assert (Hbd : nth d bnds (nzero, nzero) = (y, y)).
      { destruct (Hb d Hd) as (rz & rb & R1 & R2 & R3 & R4). apply (copies_bounds z d y) in R1; [|lia|auto|intros; apply Hc; lia]. apply (copies_bounds b d y) in R2; [|lia|auto|intros; now apply Hc]. subst rz rb.
        destruct (nth d bnds (nzero, nzero)) as [lo hi]. cbn [fst snd] in R3, R4. subst. unfold pymax, pymin. now destruct (nltb y y). }
      apply (score_fun_nan fexp fsin fcos fsum Hs E _ _ _ _ _ _ _ _ _ n Hk Hf Hv); [cbn; auto|cbn; auto|].
      destruct (std_copies fexp fsin fcos fsum z d y Hs ltac:(lia) ltac:(rewrite Cz; exact HB) ltac:(intros; apply Hc; lia) ltac:(now rewrite Cz)) as (Fs & Vs). destruct (two_zero _ Fs Vs) as (F2 & V2).
      intros k Hkk. apply (Ksz_zero fexp fsin fcos fsum Hs He _ _ _ _ n d (nmul ntwo (nstd (row z d))) Hkk); [cbn; auto|cbn; auto|apply (ls_nth z d); lia|exact F2|exact V2|].
      intros j Hj. cbn [points mk mr] in Hj. unfold mT, points. rewrite !get_mk by (try rewrite (drawn_len _ _ _ _ _ Hdr); lia). rewrite (proj2 (Hc n Hn)).
      destruct (drawn_point _ _ _ _ _ Hu Hdr d y ltac:(lia) Hbd Fy j Hj) as (A & B). auto. }
    change (nth n (score d') nzero) with (nth n (score d') (dZ 0)). rewrite Q. cbn [nadd nmul NOps DoubleOps]. rewrite mul_nan_r, add_nan_r. reflexivity.
  Qed.

  (** the control: a NaN among the d-th coordinates of either ensemble makes the d-th component of the control NaN at every point, in both windows *)
  Lemma u_score_nan kern z Sp ls d d' gx v : kern <> "periodic"%string -> u_score E kern z Sp ls d gx = Ok v -> 1 <= mr Sp -> d' < mc gx -> pyget ls (Z.of_nat d') = Ok dNaN ->
    List.length v = mr gx /\ forall i, i < mr gx -> nth i v (dZ 0) = dNaN.
  Proof.
    intros Hk H HM Hd Hl. unfold u_score in H. apply rbind_ok in H. destruct H as (fn & Hf & Hv). split; [apply (score_fun_length E _ _ _ _ _ _ _ _ _ Hf Hv)|].
    intros i Hi. apply (score_fun_nan fexp fsin fcos fsum Hs E _ _ _ _ _ _ _ _ _ i Hk Hf Hv Hi HM). intros k Hkk. apply (Ksz_nan fexp fsin fcos fsum Hs He _ _ _ _ i d' Hkk Hi Hd). now right.
  Qed.
  Lemma two_std_nan (z : mat) d : d < mr z -> has_nan z d -> pyget (two_std z) (Z.of_nat d) = Ok dNaN.
  Proof.
    intros Hd Hn. rewrite lengthscales_eq, ls_nth by auto. rewrite (std_nan fexp fsin fcos fsum Hs) by now apply (row_has_nan fexp fsin fcos fsum). reflexivity.
  Qed.
  Lemma gauss_nan (z : mat) d x : has_nan z d -> gauss_score z d x = dNaN.
  Proof.
    intro H. unfold gauss_score. rewrite (std_nan fexp fsin fcos fsum Hs) by now apply (row_has_nan fexp fsin fcos fsum). change (nsq (dNaN : double)) with dNaN. apply div_nan_r.
  Qed.
  Lemma vec_sub_nan (a b : list double) C n : bc2 nsub (vec a) (vec b) = Ok C -> List.length a = n -> List.length b = n -> forall i, i < n -> nth i a (dZ 0) = dNaN \/ nth i b (dZ 0) = dNaN -> bget C 0 i = dNaN.
  Proof.
    intros H La Lb i Hi Hn. rewrite bc2_same with (r := 1) (c := n) in H; auto. injection H as <-. rewrite bget_in by (cbn; lia). rewrite get_mk by lia. rewrite !get_vec by lia. cbn [nsub NOps DoubleOps].
    change (nth i a nzero) with (nth i a (dZ 0)). change (nth i b nzero) with (nth i b (dZ 0)). destruct Hn as [ -> | -> ]; [reflexivity|apply sub_nan_r].
  Qed.
  Lemma clip_dims (gx bb gz : mat) : clip_rows gx bb = Ok gz -> 1 <= mc gx -> 1 <= mc bb -> mr gz = mr gx /\ mc gx <= mc gz.
  Proof.
    unfold clip_rows. destruct (2 <=? mr bb); [|discriminate]. intros H Hm Hb. apply rbind_ok in H. destruct H as (a & Ha & H). apply bc2_ok in Ha, H. destruct Ha as (_ & _ & _ & R1 & C1 & _), H as (_ & B2 & _ & R2 & C2 & _).
    cbn [vec mk mr mc] in *. rewrite row_length in *. unfold bdim, bok in *. destruct (Nat.eqb_spec (mr gx) 1), (Nat.eqb_spec (mc gx) 1), (Nat.eqb_spec (mr a) 1), (Nat.eqb_spec (mc a) 1); cbn [orb] in *; lia.
  Qed.
  Theorem C83_control o dim N k A gx ti j s v s' : consistent o dim N k -> forward_of o A -> has_shape A dim N k -> o_kern o <> "periodic"%string -> 1 <= p_M (o_par o) -> selects k ti j ->
    calculate_u E o gx ti s = (Ok v, s') ->
    forall d, d < dim -> has_nan (slice (o_B o) j) d \/ has_nan (slice A j) d -> forall i, i < mr gx -> get v d i = dNaN.
  Proof.
    intros Hcon HF HA Hk HM Hsel H d Hd Hn i Hi. pose proof Hcon as (_ & _ & _ & HB & _). apply has_shape_sh in HB. destruct (sh_slice _ _ _ _ j HB ltac:(apply Hsel)) as (_ & Rb & _).
    rewrite (calculate_u_eq E o dim N k A gx ti j s Hcon HF Hsel) in H. cbv zeta in H. destruct (inter_bnds dim _ _) as [bnds|]; [|discriminate].
    apply has_shape_sh in HA. destruct (sh_slice _ _ _ _ j HA ltac:(apply Hsel)) as (_ & Ra & _).
    destruct (_ || _)%bool.
    - injection H as H _. apply rows_fold_ok in H. destruct H as (_ & _ & _ & Hm & Hv & _). destruct (Hv d Hd) as (x & X1 & _ & _ & X2). rewrite X2 by auto.
      destruct (edge_row_ok gx (slice (o_B o) j) (slice A j) d ltac:(lia)) as (x' & Y1 & _ & _ & Y2). assert (x' = x) as -> by congruence. rewrite Y2 by auto. cbn [nsub NOps DoubleOps].
      destruct Hn as [Hn|Hn]; rewrite (gauss_nan _ d _ Hn); [reflexivity|apply sub_nan_r].
    - destruct (sample_box E _ bnds s) as [[Sx|] s1] eqn:HS; [|discriminate]. injection H as H _. apply sample_box_ok in HS. destruct HS as (rows & _ & Hl & Hp & _). rewrite Hp in H.
      apply rows_fold_ok in H. destruct H as (_ & _ & _ & Hm & Hv & _). destruct (Hv d Hd) as (x & X1 & _ & _ & X2). rewrite X2 by auto.
      unfold u_kern_row in X1. apply rbind_ok in X1. destruct X1 as (sb & S1 & X1). apply rbind_ok in X1. destruct X1 as (gz & Hg & X1). apply rbind_ok in X1. destruct X1 as (sf & S2 & X1).
      assert (G : mr gz = mr gx /\ mc gx <= mc gz). { destruct (p_reweight (o_par o) && p_brown (o_par o))%bool; [|injection Hg as <-; lia]. apply rbind_ok in Hg. destruct Hg as (bb & Hbb & Hg). apply (clip_dims gx bb gz Hg); [lia|]. unfold bndsztr in Hbb. apply rbind_ok in Hbb. destruct Hbb as (lo & _ & Hbb). apply rbind_ok in Hbb. destruct Hbb as (hi & _ & Hbb). injection Hbb as <-. cbn. lia. }
      destruct G as (G1 & G2). pose proof S1 as L1. pose proof S2 as L2. unfold u_score in L1, L2. apply rbind_ok in L1, L2. destruct L1 as (f1 & L1 & L1'), L2 as (f2 & L2 & L2'). pose proof (score_fun_length E _ _ _ _ _ _ _ _ _ L1 L1') as N1. pose proof (score_fun_length E _ _ _ _ _ _ _ _ _ L2 L2') as N2.
      apply (vec_sub_nan sb sf x (mr gx) X1 N1 ltac:(lia) i Hi). destruct Hn as [Hn|Hn]; [left|right].
      + apply (u_score_nan _ _ _ _ d d gx sb Hk S1); [cbn; auto|lia| |exact Hi]. apply two_std_nan; [lia|exact Hn].
      + apply (u_score_nan _ _ _ _ d d gz sf Hk S2); [cbn; auto|lia| |lia]. apply two_std_nan; [lia|exact Hn].
  Qed.

  (** what a completed draw says about the bounds *)
  Lemma minus_fin (a b : double) : finite (Bminus mode_NE a b) -> finite a /\ finite b.
  Proof. unfold finite. destruct a as [| [|] | |], b as [| [|] | |]; cbn; try discriminate; auto. Qed.
  Lemma drawn_fin m s bnds rows s' : uniform_finite E -> drawn E m s bnds rows s' -> forall d, d < List.length bnds -> finite (fst (nth d bnds (nzero, nzero))) /\ finite (snd (nth d bnds (nzero, nzero))).
  Proof.
    intros Hu. induction 1 as [|s lo hi h s1 bs rows s2 Hx _ IH]; intros d Hd; [cbn in Hd; lia|]. destruct d as [|d]; cbn [nth].
    - cbn [fst snd]. apply Hu in Hx. apply minus_fin in Hx. tauto.
    - apply IH. cbn in Hd. lia.
  Qed.
  Lemma between_fin (a b x : double) : finite a -> finite b -> dle a x -> dle x b -> finite x.
  Proof.
    intros Fa Fb A B. apply dle_ext in A, B. destruct A as (_ & N & A), B as (_ & _ & B). rewrite (ext_fin a) in A by auto. rewrite (ext_fin b) in B by auto. pose proof (fin_lt a). pose proof (fin_lt b).
    destruct x as [| [|] | |]; try reflexivity; try discriminate; cbn [ext] in A, B; lra.
  Qed.
  Lemma range_bounds (z : mat) d r : 1 <= mc z -> range_of z d r -> bounds fexp fsin fcos fsum z d (fst r) (snd r).
  Proof.
    intros H (A & B). destruct (row_bounds_d fexp fsin fcos fsum z d H) as (lo & hi & L1 & L2 & Hb).
    change (lmin (row z d) = Ok lo) in L1. change (lmax (row z d) = Ok hi) in L2. assert (fst r = lo) as -> by congruence. assert (snd r = hi) as -> by congruence. exact Hb.
  Qed.
  Lemma range_fin (z : mat) d r : 1 <= mc z -> range_of z d r -> finite (fst r) -> finite (snd r) -> forall n, n < mc z -> finite (get z d n).
  Proof.
    intros H Hr F1 F2 n Hn. destruct (range_bounds z d r H Hr) as [(_ & Q & _)|(_ & _ & _ & _ & _ & _ & G)]; [rewrite Q in F1; discriminate|]. destruct (G n Hn) as (A & B). exact (between_fin _ _ _ F1 F2 A B).
  Qed.
  Lemma common_num (z b : mat) d r : 1 <= mc z -> common_range z b d r -> number (fst r) -> ~ has_nan z d.
  Proof.
    intros H (rz & rb & R1 & _ & Q & _) N Hn. destruct (range_bounds z d rz H R1) as [(_ & A & _)|(A & _)]; [|exact (A Hn)]. rewrite Q, A in N.
    replace (pymax (dNaN : double) (fst rb)) with dNaN in N; [discriminate|]. symmetry. exact (pymax_nan_l fexp fsin fcos fsum (fst rb)).
  Qed.
  Lemma flow_fin h kern m g fd t x x' s s' : uniform_finite E -> 1 <= mc x -> flow_step E h kern m g fd t x x' s s' -> forall d n, d < mr x -> n < mc x -> finite (get x d n).
  Proof.
    intros Hu HN (F & bnds & rows & score & _ & L & Hr & Hd & _) d n Hdd Hn. destruct (drawn_fin _ _ _ _ _ Hu Hd d ltac:(lia)) as (F1 & F2). exact (range_fin x d _ HN (Hr d Hdd) F1 F2 n Hn).
  Qed.

  Section Obj.
    Context (p : params double) (s : S) (o : obj double) (s' : S) (Hc : construct E p s = (Ok o, s')).
    Let dim := List.length (p_y1 p).
    Let k := List.length (o_grid o).
    Lemma kern_np : o_kern o <> "periodic"%string.
    Proof. destruct (construct_ok E p s o s' Hc) as (_ & -> & _). apply kern_used_not_periodic. Qed.
    Lemma slice_dims j : j < k -> (mr (slice (o_B o) j) = dim /\ mc (slice (o_B o) j) = p_N p) /\ mr (slice (o_Z o) j) = dim /\ mc (slice (o_Z o) j) = p_N p.
    Proof.
      intro Hj. destruct (construct_consistent E p s o s' Hc) as (_ & (_ & _ & HZ & HB & _)). apply has_shape_sh in HZ, HB.
      destruct (sh_slice _ _ _ _ j HZ Hj) as (_ & A & B). destruct (sh_slice _ _ _ _ j HB Hj) as (_ & C & D). auto.
    Qed.

    (** np.random.uniform stops a run whose bounds are not finite.  So in the deterministic mode the forward flow of a returned object is finite
        at all grid points except possibly the last one, and so is the unweighted flow of a bridge problem *)
    Theorem C83_forward_finite : uniform_finite E -> p_det p = true -> 1 <= p_N p -> forall t, 1 <= t -> t + 1 < k ->
      forall d n, d < dim -> n < p_N p -> finite (get3 (o_Z o) d n t) /\
        (p_reweight p = true -> p_brown p = true -> exists Zt, o_Ztr o = Some Zt /\ finite (get3 Zt d n t)).
    Proof.
      intros Hu Hdet HN t H1 H2 d n Hd Hn. destruct (slice_dims t ltac:(lia)) as (_ & R & C). unfold get3. split.
      - destruct (C06_forward_recurrence E p s o s' Hc Hdet ltac:(fold k; lia)) as (sg & _ & H). specialize (H (t + 1) ltac:(fold k; lia)). replace (t + 1 - 1) with t in H by lia.
        assert (PS : exists y s1 s2 tt, plain_step E nmilli (o_kern o) (p_M p) (p_g p) (call2 (p_f p)) (t + 1) tt (slice (o_Z o) t) y s1 s2).
        { destruct (p_reweight p); [destruct H as (y & u & _ & _ & _ & H & _)|]; eauto 10. }
        destruct PS as (y & s1 & s2 & tt & PS). unfold plain_step in PS. destruct (Nat.eqb_spec (t + 1) 1); [lia|]. eapply (flow_fin _ _ _ _ _ _ _ _ _ _ Hu); [|exact PS| |]; lia.
      - intros Hr Hb. destruct (C08_bridge_flow E p s o s' Hc Hdet Hr Hb ltac:(fold k; lia)) as (Zt & sg & HZ & _ & H). exists Zt. split; [exact HZ|]. specialize (H (t + 1) ltac:(fold k; lia)). replace (t + 1 - 1) with t in H by lia.
        unfold plain_step in H. destruct (Nat.eqb_spec (t + 1) 1); [lia|].
        destruct (C05_shape E p s o s' Hc) as (_ & _ & ST). specialize (ST Zt HZ). apply has_shape_sh in ST. destruct (sh_slice _ _ _ _ t ST ltac:(fold k; lia)) as (_ & RZ & CZ). fold dim in RZ. eapply (flow_fin _ _ _ _ _ _ _ _ _ _ Hu); [|exact H| |]; lia.
    Qed.
    (** and in both modes there is no NaN in it from the third grid point on, the last one included *)
    Theorem C83_forward_no_nan : uniform_finite E -> 1 <= p_N p -> forall t, 2 <= t -> t < k -> forall d n, d < dim -> n < p_N p -> number (get3 (o_Z o) d n t).
    Proof.
      intros Hu HN t H1 H2 d n Hd Hn. destruct (slice_dims t ltac:(lia)) as ((RB & CB) & R & C). unfold get3.
      destruct (C07_backward_recurrence E p s o s' Hc) as (sg & _ & H). specialize (H (t - 1) ltac:(lia) ltac:(fold k; lia)). replace (t - 1 + 1) with t in H by lia.
      assert (PS : exists sc s1 s2, score_of_at E (o_kern o) (p_M p) (slice (o_Z o) t) (slice (o_B o) t) (mr (slice (o_B o) t)) (mc (slice (o_B o) t)) sc s1 s2).
      { destruct ((_ =? _) || negb (p_det p)); [destruct H as (F & W & sc & s1 & H & _)|destruct H as (F & sc & sb & s1 & H & _)]; eauto. }
      destruct PS as (sc & s1 & s2 & bnds & rows & L & Hb & Hdr & _). destruct (drawn_fin _ _ _ _ _ Hu Hdr d ltac:(lia)) as (F1 & _). pose proof (common_num (slice (o_Z o) t) (slice (o_B o) t) d _ ltac:(lia) (Hb d ltac:(lia)) (fin_number _ F1)) as NN.
      destruct (get (slice (o_Z o) t) d n) eqn:Q; try reflexivity. exfalso. apply NN. exists n. split; [lia|exact Q].
    Qed.

    (** a NaN coordinate of a particle of the time-reversed flow makes all coordinates of this particle NaN at the preceding grid point, and in the
        deterministic mode (except in its first, stochastic, step) all coordinates of all particles *)
    Theorem C83_contagion : 1 <= p_M p -> forall t d n, 1 <= t -> t + 1 < k -> d < dim -> n < p_N p -> get3 (o_B o) d n (t + 1) = dNaN ->
      (forall d', d' < dim -> get3 (o_B o) d' n t = dNaN) /\
      (p_det p = true -> t + 2 < k -> forall d' n', d' < dim -> n' < p_N p -> get3 (o_B o) d' n' t = dNaN).
    Proof.
      intros HM t d n H1 H2 Hd Hn Hnan. destruct (C07_backward_recurrence E p s o s' Hc) as (sg & _ & H). specialize (H t H1 H2). fold k in H.
      destruct (slice_dims (t + 1) H2) as ((R1 & C1) & _). unfold get3 in *. split.
      - intros d' Hd'. destruct ((t =? k - 2) || negb (p_det p)).
        + apply (noisy_nan _ _ _ _ _ _ _ _ _ _ n d kern_np HM H); auto; lia.
        + apply (flow_nan _ _ _ _ _ _ _ _ _ _ n d kern_np HM H); auto; lia.
      - intros Hdet H3 d' n' Hd' Hn'. rewrite Hdet in H. destruct (Nat.eqb_spec t (k - 2)); [lia|]. cbn [orb negb] in H.
        apply (flow_nan _ _ _ _ _ _ _ _ _ _ n d kern_np HM H); auto; lia.
    Qed.

    (** read backwards: one number of a particle at the first inner grid point certifies its later history, and in the deterministic mode that of the whole flow *)
    Corollary C83_certificate : 1 <= p_M p -> forall t d n, 1 <= t -> t < k -> d < dim -> n < p_N p -> number (get3 (o_B o) d n t) ->
      forall t', t < t' -> t' < k -> (forall d', d' < dim -> number (get3 (o_B o) d' n t')) /\
        (p_det p = true -> t' + 1 < k -> forall d' n', d' < dim -> n' < p_N p -> number (get3 (o_B o) d' n' t')).
    Proof.
      intros HM t d n H1 H2 Hd Hn Hnum.
      assert (NN : forall x : double, number x \/ x = dNaN) by (intros [ | | |]; auto; now left).
      assert (A : forall j, t + j < k -> number (get3 (o_B o) d n (t + j)) /\ (0 < j -> forall d', d' < dim -> number (get3 (o_B o) d' n (t + j)))).
      { induction j as [|j IH]; intro Hj. { rewrite Nat.add_0_r. split; [exact Hnum|lia]. }
        destruct (IH ltac:(lia)) as (I & _). assert (G : forall d', d' < dim -> number (get3 (o_B o) d' n (t + Datatypes.S j))).
        { intros d' Hd'. destruct (NN (get3 (o_B o) d' n (t + Datatypes.S j))) as [Q|Q]; [exact Q|exfalso]. replace (t + Datatypes.S j) with (t + j + 1) in * by lia.
          destruct (C83_contagion HM (t + j) d' n ltac:(lia) Hj Hd' Hn Q) as (Q' & _). rewrite (Q' d Hd) in I. discriminate. }
        split; [now apply G|auto]. }
      intros t' Ht Ht'. replace t' with (t + (t' - t)) by lia. split; [apply A; lia|]. intros Hdet H3 d' n' Hd' Hn'.
      destruct (NN (get3 (o_B o) d' n' (t + (t' - t)))) as [Q|Q]; [exact Q|exfalso]. replace (t + (t' - t)) with (t' - 1 + 1) in Q by lia.
      destruct (C83_contagion HM (t' - 1) d' n' ltac:(lia) ltac:(lia) Hd' Hn' Q) as (_ & Q'). destruct (A (t' - 1 - t) ltac:(lia)) as (I & _). replace (t + (t' - 1 - t)) with (t' - 1) in I by lia.
      rewrite (Q' Hdet ltac:(lia) d n Hd Hn) in I. discriminate.
    Qed.

    (** one NaN drift value at the last grid point (e.g. the 0/0 of a Brownian-bridge drift (y2-x)/(T-t)) makes all time-reversed particles NaN at all
        inner grid points except the last of them, and the control there *)
    Theorem C83_terminal_drift : p_det p = true -> 1 <= p_M p -> forall F d n, call2 (p_f p) (slice (o_B o) (k - 1)) (nth (k - 1) (o_grid o) nzero) = Ok F ->
      d < dim -> n < p_N p -> elem F d n = dNaN ->
      forall t, 1 <= t -> t + 2 < k -> (forall d' n', d' < dim -> n' < p_N p -> get3 (o_B o) d' n' t = dNaN) /\
        forall gx ti sq v sq', selects k ti t -> calculate_u E o gx ti sq = (Ok v, sq') -> forall d' i, d' < dim -> i < mr gx -> get v d' i = dNaN.
    Proof.
      intros Hdet HM F d n HF Hd Hn Hnan.
      assert (G : forall j, j + 3 < k -> forall d' n', d' < dim -> n' < p_N p -> get3 (o_B o) d' n' (k - 3 - j) = dNaN).
      { induction j as [|j IH]; intros Hj d' n' Hd' Hn'.
        - destruct (C07_backward_recurrence E p s o s' Hc) as (sg & _ & H). fold k in H. specialize (H (k - 2) ltac:(lia) ltac:(lia)). rewrite Nat.eqb_refl in H. cbn [orb] in H. replace (k - 2 + 1) with (k - 1) in H by lia.
          destruct (slice_dims (k - 1) ltac:(lia)) as ((R1 & C1) & _). destruct H as (F' & W & score & s1 & _ & HF' & _ & Hg). assert (F' = F) as -> by congruence.
          assert (Q : get3 (o_B o) d n (k - 3 + 1) = dNaN). { replace (k - 3 + 1) with (k - 2) by lia. unfold get3. rewrite Hg by lia. rewrite Hnan. cbn [nadd nsub nmul NOps DoubleOps]. change (Bmult mode_NE dNaN ?z) with dNaN. rewrite sub_nan_r. reflexivity. }
          destruct (C83_contagion HM (k - 3) d n ltac:(lia) ltac:(lia) Hd Hn Q) as (_ & Q'). rewrite Nat.sub_0_r. apply Q'; auto; lia.
        - destruct (C83_contagion HM (k - 3 - Datatypes.S j) d n ltac:(lia) ltac:(lia) Hd Hn) as (_ & Q'); [replace (k - 3 - Datatypes.S j + 1) with (k - 3 - j) by lia; apply IH; auto; lia|]. apply Q'; auto; lia. }
      intros t H1 H2. assert (G' : forall d' n', d' < dim -> n' < p_N p -> get3 (o_B o) d' n' t = dNaN). { intros d' n' Hd' Hn'. replace t with (k - 3 - (k - 3 - t)) by lia. apply G; auto; lia. }
      split; [exact G'|]. intros gx ti sq v sq' Hsel HC d' i Hd' Hi. destruct (construct_consistent E p s o s' Hc) as (P & Hcon). fold dim k in Hcon. pose proof Hcon as (L & K & HZ & HBs & HT).
      assert (HA : exists A, forward_of o A /\ has_shape A dim (p_N p) k).
      { unfold forward_of. destruct (p_reweight (o_par o) && p_brown (o_par o))%bool eqn:Q; [destruct (HT eq_refl) as (Zt & Q1 & Q2)|]; eauto. }
      destruct HA as (A & HFw & SA). apply (C83_control o dim (p_N p) k A gx ti t sq v sq' Hcon HFw SA kern_np ltac:(now rewrite P) Hsel HC d' Hd'); [left|exact Hi]. destruct (slice_dims t ltac:(lia)) as ((_ & CB) & _).
      exists n. split; [lia|]. apply (G' d' n Hd' Hn).
    Qed.

    (** deterministic=False: when a coordinate of y2 is an ordinary number, every time-reversed particle is NaN at every inner grid point *)
    Theorem C83_stochastic_nan : p_det p = false -> uniform_point E -> 1 <= p_M p -> 1 <= p_N p -> (Z.of_nat (p_N p) < 9007199254740992)%Z ->
      forall d0, d0 < dim -> short (nth d0 (p_y2 p) (dZ 0)) (p_N p) ->
      forall d n t, d < dim -> n < p_N p -> 1 <= t -> t + 1 < k -> get3 (o_B o) d n t = dNaN.
    Proof.
      intros Hdet Hu HM HN HB d0 Hd0 Hy.
      assert (G : forall j, j + 2 < k -> forall d n, d < dim -> n < p_N p -> get3 (o_B o) d n (k - 2 - j) = dNaN).
      { induction j as [|j IH]; intros Hj d n Hd Hn.
        - destruct (C07_backward_recurrence E p s o s' Hc) as (sg & _ & H). fold k in H. specialize (H (k - 2) ltac:(lia) ltac:(lia)). rewrite Nat.eqb_refl in H. cbn [orb] in H.
          replace (k - 2 + 1) with (k - 1) in H by lia. destruct (slice_dims (k - 1) ltac:(lia)) as ((R1 & C1) & R2 & C2).
          pose proof (C16_stochastic_end_pinned E p s o s' Hc Hdet ltac:(fold k; lia)) as PZ. destruct (C04_time_reversed_boundaries E p s o s' Hc ltac:(fold k; lia)) as (_ & PB). fold k in PZ, PB.
          destruct (construct_consistent E p s o s' Hc) as (_ & (_ & _ & HZ & HBs & _)). destruct HZ as (DZ & NZ & _), HBs as (DB & NB & _).
          unfold get3. rewrite Nat.sub_0_r. apply (noisy_copies _ _ _ _ _ _ _ _ _ _ d0 (nth d0 (p_y2 p) (dZ 0)) kern_np HM Hu H); try (rewrite C1; assumption); try lia.
          + intros n' Hn'. split; [apply PZ; lia|apply PB; lia].
        - assert (Q : get3 (o_B o) d n (k - 2 - Datatypes.S j + 1) = dNaN) by (replace (k - 2 - Datatypes.S j + 1) with (k - 2 - j) by lia; apply IH; auto; lia).
          destruct (C83_contagion HM (k - 2 - Datatypes.S j) d n ltac:(lia) ltac:(lia) Hd Hn Q) as (Q' & _). now apply Q'. }
      intros d n t Hd Hn H1 H2. replace t with (k - 2 - (k - 2 - t)) by lia. apply G; auto; lia.
    Qed.

    (** so in that mode the control is never a finite number, at any point and any index *)
    Theorem C83_stochastic_control : p_det p = false -> uniform_point E -> 1 <= p_M p -> 1 <= p_N p -> (Z.of_nat (p_N p) < 9007199254740992)%Z -> 2 <= k ->
      (forall d, d < dim -> short (nth d (p_y1 p) (dZ 0)) (p_N p) /\ short (nth d (p_y2 p) (dZ 0)) (p_N p)) ->
      forall gx ti sq v sq' j, selects k ti j -> calculate_u E o gx ti sq = (Ok v, sq') ->
      forall d i, d < dim -> i < mr gx -> ~ finite (get v d i) /\ (1 <= j -> j + 1 < k -> get v d i = dNaN).
    Proof.
      intros Hdet Hu HM HN HB Hk Hy gx ti sq v sq' j Hsel H d i Hd Hi. destruct (construct_consistent E p s o s' Hc) as (P & Hcon). fold dim k in Hcon. pose proof Hcon as (L & K & HZ & HBs & HT).
      assert (HA : exists A, forward_of o A /\ has_shape A dim (p_N p) k).
      { unfold forward_of. destruct (p_reweight (o_par o) && p_brown (o_par o))%bool eqn:Q; [destruct (HT eq_refl) as (Zt & Q1 & Q2)|]; eauto. }
      destruct HA as (A & HF & SA). assert (In : 1 <= j -> j + 1 < k -> get v d i = dNaN).
      { intros H1 H2. apply (C83_control o dim (p_N p) k A gx ti j sq v sq' Hcon HF SA kern_np ltac:(now rewrite P) Hsel H d Hd); [left|exact Hi]. destruct (slice_dims j ltac:(lia)) as ((_ & CB) & _).
        exists 0. split; [lia|]. apply (C83_stochastic_nan Hdet Hu HM HN HB d Hd (proj2 (Hy d Hd)) d 0 j); auto. }
      split; [|exact In]. destruct (Nat.eq_dec j 0) as [J0|J0]; [|destruct (Nat.eq_dec j (k - 1)) as [J1|J1]].
      3:{ rewrite In; [discriminate|lia|]. destruct Hsel. lia. }
      all: assert (Ed : edge k ti) by (unfold edge; destruct Hsel as (? & [ | ]); lia).
      all: assert (Hm : dim <= mc gx) by (destruct (Nat.le_gt_cases dim (mc gx)); [assumption|exfalso; now apply (C23_too_few_columns E o dim (p_N p) k Hcon A HF gx ti sq ltac:(lia) v sq')]).
      all: destruct (C21_gaussian_window E o dim (p_N p) k Hcon A HF gx ti j sq HN Hsel Ed Hm) as (v' & V1 & _ & _ & V4 & _); assert (v' = v) as -> by congruence; rewrite (V4 d i Hd Hi).
      all: destruct (C04_time_reversed_boundaries E p s o s' Hc Hk) as (B0 & B1); fold k in B1; destruct HBs as (DB & NB & _); destruct (slice_dims j ltac:(lia)) as ((_ & CB) & _).
      all: cbn [nsub NOps DoubleOps]; apply (minus_inf_l fexp fsin fcos); refine (gauss_copies fexp fsin fcos fsum (slice (o_B o) j) d _ (get gx i d) Hs _ _ _ _).
      all: try (rewrite CB; assumption); try lia.
      - intros n Hn. subst j. apply B0; lia.
      - rewrite CB. now apply Hy.
      - intros n Hn. subst j. apply B1; lia.
      - rewrite CB. now apply Hy.
    Qed.
  End Obj.
End C83.
