(** C21-C24, C28, C29: calculate_u and check_if_covered, for every number system. *)
From Coq Require Import String List ZArith Lia Bool.
From Verif Require Import Base.Num Base.Py Base.Arr Lib.ArrLemmas Model.Ext Model.Cdist Model.Score Model.DPFC.
From Verif Require Import Spec.FlowSpec Spec.RunSpec Spec.TotalSpec Spec.QuerySpec.
From Verif Require Import Lib.FlowLemmas Lib.ScoreLemmas Lib.StepLemmas Lib.RunLemmas Lib.StochLemmas Lib.CoreLemmas Lib.TotalLemmas Lib.QueryLemmas Lib.Pointwise.
From Verif Require Import Props.Flows Props.Runs Run.Toy.
Import ListNotations.

Section Queries.
  Context {T S : Type} {O : NumOps T} (E : Ext T S).
  Notation mat := (mat T). Notation arr3 := (arr3 T).

  (** every constructed object is consistent *)
  Lemma construct_consistent p s o s' : construct E p s = (Ok o, s') ->
    o_par o = p /\ consistent o (List.length (p_y1 p)) (p_N p) (List.length (o_grid o)).
  Proof.
    intro H. pose proof (C05_shape _ _ _ _ _ H) as (HZ & HB & HT).
    destruct (construct_ok E p s o s' H) as (P & _ & G & s1 & s2 & HZr & _). split; [exact P|].
    split; [now rewrite P|]. split; [auto|]. split; [auto|]. split; [auto|]. rewrite P. intro Hb.
    destruct (p_det p).
    - destruct HZr as (_ & HZr). rewrite Hb in HZr. destruct HZr as (Zt & Q & _). eauto.
    - destruct HZr as (_ & _ & Q). rewrite Hb in Q. eauto.
  Qed.

  Section Obj.
    Context (o : obj T) (dim N k : nat) (Hc : consistent o dim N k) (A : arr3) (HF : forward_of o A).
    Let B := o_B o.

    (** ** C21 (and C23): in the first six and last five positions, and for negative indices, the control is the
        difference of the two Gaussian scores; no random number is consumed.  Points are rows, results are columns. *)
    Theorem C21_gaussian_window gx ti j s : 1 <= N -> selects k ti j -> edge k ti -> dim <= mc gx ->
      exists u, calculate_u E o gx ti s = (Ok u, s) /\ mr u = mc gx /\ mc u = mr gx /\
        (forall d i, d < dim -> i < mr gx ->
           get u d i = nsub (gauss_score (slice B j) d (get gx i d)) (gauss_score (slice A j) d (get gx i d))) /\
        (forall d i, dim <= d -> d < mc gx -> i < mr gx -> get u d i = nzero).
    Proof.
      intros HN Hs He Hm. rewrite (calculate_u_eq E o dim N k A gx ti j s Hc HF Hs). cbv zeta.
      destruct (consistent_bnds o dim N k A j Hc HN HF ltac:(apply Hs)) as (bnds & Hb). rewrite Hb.
      replace ((ti <=? 5) || (Z.of_nat k - 5 <=? ti))%Z with true.
      2:{ symmetry. apply orb_true_iff. unfold edge in He. lia. }
      destruct (rows_fold_tot (u_edge_row gx (slice B j) (slice A j)) dim (mc gx) (mr gx)) as (u & Hu); auto.
      { intros d Hd. destruct (edge_row_ok gx (slice B j) (slice A j) d ltac:(lia)) as (x & X1 & X2 & X3 & _). eauto. }
      exists u. fold B. rewrite Hu. split; [auto|]. apply rows_fold_ok in Hu. destruct Hu as (_ & R & C & _ & Hv & Hz).
      split; [auto|]. split; [auto|]. split.
      - intros d i Hd Hi. destruct (Hv d Hd) as (x & X1 & _ & _ & X2). rewrite X2 by auto.
        destruct (edge_row_ok gx (slice B j) (slice A j) d ltac:(lia)) as (x' & Y1 & _ & _ & Y2).
        assert (x' = x) as -> by congruence. auto.
      - intros. apply Hz; auto.
    Qed.

    (** grids with at most 11 points never use the kernel estimator: no query consumes a random number *)
    Theorem C21_short_grids gx ti s : k <= 11 -> snd (calculate_u E o gx ti s) = s.
    Proof.
      intros Hk. destruct (selects_cases k ti) as [(j & Hs)|Hs].
      - rewrite (calculate_u_eq E o dim N k A gx ti j s Hc HF Hs). cbv zeta.
        destruct (inter_bnds dim (slice A j) (slice (o_B o) j)); [|reflexivity].
        replace ((ti <=? 5) || (Z.of_nat k - 5 <=? ti))%Z with true; [reflexivity|].
        symmetry. apply orb_true_iff. lia.
      - now rewrite (calculate_u_out E o dim N k gx ti s Hc Hs).
    Qed.

    (** ** C22: for 6 <= ti <= k-6 the control is the difference of two score estimates on common inducing points *)
    Theorem C22_interior_control gx ti s u s' : p_reweight (o_par o) && p_brown (o_par o) = false ->
      (6 <= ti <= Z.of_nat k - 6)%Z -> calculate_u E o gx ti s = (Ok u, s') ->
      let z := slice (o_Z o) (Z.to_nat ti) in let b := slice (o_B o) (Z.to_nat ti) in
      mr u = mc gx /\ mc u = mr gx /\ dim <= mc gx /\
      exists bnds rows, List.length bnds = dim /\ (forall d, d < dim -> common_range z b d (nth d bnds (nzero, nzero))) /\
        drawn E (p_M (o_par o)) s bnds rows s' /\
        forall d, d < dim -> exists sb sz,
          estimated E (o_kern o) b (points (p_M (o_par o)) rows) d gx sb /\
          estimated E (o_kern o) z (points (p_M (o_par o)) rows) d gx sz /\
          List.length sb = mr gx /\ List.length sz = mr gx /\
          forall i, i < mr gx -> get u d i = nsub (nth i sb nzero) (nth i sz nzero).
    Proof.
      intros Hb Ht H z b. assert (Hs : selects k ti (Z.to_nat ti)) by (unfold selects; lia).
      rewrite (calculate_u_eq E o dim N k A gx ti _ s Hc HF Hs) in H. cbv zeta in H.
      assert (HA : A = o_Z o) by (unfold forward_of in HF; now rewrite Hb in HF). rewrite HA in H. fold z b in H.
      destruct (inter_bnds dim z b) as [bnds|e] eqn:Hbn; [|discriminate].
      replace ((ti <=? 5) || (Z.of_nat k - 5 <=? ti))%Z with false in H.
      2:{ symmetry. apply orb_false_iff. lia. }
      destruct (sample_box E (p_M (o_par o)) bnds s) as [[Sx|e] s1] eqn:HS; [|discriminate].
      injection H as Hr ->. apply sample_box_ok in HS. destruct HS as (rows & Hd & Hl & Hp & _).
      apply inter_bnds_ok in Hbn. destruct Hbn as (L & Hcr).
      apply rows_fold_ok in Hr. destruct Hr as (_ & R & C & Hdim & Hv & _).
      split; [auto|]. split; [auto|]. split; [auto|]. exists bnds, rows. split; [auto|]. split; [auto|]. split; [auto|].
      intros d Hdd. destruct (Hv d Hdd) as (x & X1 & _ & X3 & X4). rewrite Hb, Hp in X1. unfold u_kern_row, u_score in X1. invok.
      rewrite lengthscales_eq in *. exists a, a1.
      pose proof (score_fun_length E _ _ _ _ _ _ _ _ _ E4 E0) as La.
      pose proof (score_fun_length E _ _ _ _ _ _ _ _ _ E3 E2) as La1.
      split; [exists a3; auto|]. split; [exists a2; auto|]. split; [auto|]. split; [auto|].
      intros i Hi. rewrite X4 by auto.
      rewrite bc2_same with (r := 1) (c := mr gx) in X1; auto. injection X1 as <-.
      rewrite bget_in by (cbn; lia). rewrite get_mk by lia. now rewrite !get_vec by lia.
    Qed.

    (** ** C23: an argument with fewer columns than coordinates (for instance a dim x K array with K < dim) is rejected *)
    Theorem C23_too_few_columns gx ti s : mc gx < dim -> forall u s', calculate_u E o gx ti s <> (Ok u, s').
    Proof.
      intros Hm u s' H. destruct (selects_cases k ti) as [(j & Hs)|Hs].
      - rewrite (calculate_u_eq E o dim N k A gx ti j s Hc HF Hs) in H. cbv zeta in H.
        destruct (inter_bnds dim (slice A j) (slice (o_B o) j)); [|discriminate].
        destruct ((ti <=? 5) || (Z.of_nat k - 5 <=? ti))%Z.
        + injection H as H _. apply rows_fold_ok in H. lia.
        + destruct (sample_box E (p_M (o_par o)) a s) as [[Sx|e] s1]; [|discriminate].
          injection H as H _. apply rows_fold_ok in H. lia.
      - rewrite (calculate_u_out E o dim N k gx ti s Hc Hs) in H. discriminate.
    Qed.
    Theorem C23_too_few_columns_edge gx ti j s : 1 <= N -> selects k ti j -> edge k ti -> mc gx < dim ->
      calculate_u E o gx ti s = (Err IndexError, s).
    Proof.
      intros HN Hs He Hm. rewrite (calculate_u_eq E o dim N k A gx ti j s Hc HF Hs). cbv zeta.
      destruct (consistent_bnds o dim N k A j Hc HN HF ltac:(apply Hs)) as (bnds & Hb). rewrite Hb.
      replace ((ti <=? 5) || (Z.of_nat k - 5 <=? ti))%Z with true.
      2:{ symmetry. apply orb_true_iff. unfold edge in He. lia. }
      rewrite (rows_fold_err _ dim (mc gx) (mr gx) (mc gx) IndexError); auto; [|now apply edge_row_err].
      intros d Hd. destruct (edge_row_ok gx (slice (o_B o) j) (slice A j) d ltac:(lia)) as (x & X1 & X2 & X3 & _). eauto.
    Qed.

    (** ** C28 *)
    Theorem C28_negative_index gx ti s : 1 <= N -> (- Z.of_nat k <= ti < 0)%Z -> dim <= mc gx ->
      let j := Z.to_nat (ti + Z.of_nat k) in
      exists u, calculate_u E o gx ti s = (Ok u, s) /\ mr u = mc gx /\ mc u = mr gx /\
        forall d i, d < dim -> i < mr gx ->
          get u d i = nsub (gauss_score (slice B j) d (get gx i d)) (gauss_score (slice A j) d (get gx i d)).
    Proof.
      intros HN Ht Hm j. destruct (C21_gaussian_window gx ti j s) as (u & H1 & H2 & H3 & H4 & _); auto.
      - unfold selects, j. lia.
      - unfold edge. lia.
      - eauto.
    Qed.
    Theorem C28_out_of_range gx ti s : (ti < - Z.of_nat k \/ Z.of_nat k <= ti)%Z ->
      calculate_u E o gx ti s = (Err IndexError, s) /\ (1 <= dim -> forall X, check_if_covered o X ti = Err IndexError).
    Proof.
      intro Ht. split; [exact (calculate_u_out E o dim N k gx ti s Hc Ht)|]. intros Hd X.
      destruct Hc as (L & K & HZ & _). apply has_shape_sh in HZ. unfold check_if_covered. cbv zeta. rewrite L.
      destruct dim as [|n]; [lia|]. cbn [seq rfold]. now rewrite (getsl_out _ _ _ _ _ HZ Ht).
    Qed.
    Theorem C28_coverage_negative X ti : (- Z.of_nat k <= ti < 0)%Z ->
      check_if_covered o X ti = check_if_covered o X (ti + Z.of_nat k).
    Proof.
      intros Ht. destruct Hc as (L & K & HZ & HB & _). apply has_shape_sh in HZ, HB. unfold check_if_covered. cbv zeta.
      apply rfold_ext. intros b a _.
      assert (S1 : selects k ti (Z.to_nat (ti + Z.of_nat k))) by (unfold selects; lia).
      assert (S2 : selects k (ti + Z.of_nat k) (Z.to_nat (ti + Z.of_nat k))) by (unfold selects; lia).
      now rewrite (getsl_sel _ _ _ _ _ _ HZ S1), (getsl_sel _ _ _ _ _ _ HZ S2), (getsl_sel _ _ _ _ _ _ HB S1), (getsl_sel _ _ _ _ _ _ HB S2).
    Qed.

    (** ** C24: the control at a point does not depend on the batch it is evaluated in *)
    Lemma u_score_pt kern z Sp ls d gx i v : i < mr gx -> u_score E kern z Sp ls d gx = Ok v ->
      u_score E kern z Sp ls d (point gx i) = Ok [nth i v nzero].
    Proof.
      intros Hi H. unfold u_score in *. invok. rewrite E0. cbn [rbind].
      exact (score_fun_rowof E _ _ _ _ _ _ _ _ _ _ _ (rowof_point gx i Hi) E0 H).
    Qed.
    Lemma u_score_length kern z Sp ls d gx v : u_score E kern z Sp ls d gx = Ok v -> List.length v = mr gx.
    Proof. unfold u_score. intro H. invok. exact (score_fun_length E _ _ _ _ _ _ _ _ _ E0 H). Qed.

    Lemma u_score_rowof kern z Sp ls d gx i a v : rowof gx i a -> u_score E kern z Sp ls d gx = Ok v ->
      u_score E kern z Sp ls d a = Ok [nth i v nzero].
    Proof.
      intros Hi H. unfold u_score in *. invok. rewrite E0. cbn [rbind].
      exact (score_fun_rowof E _ _ _ _ _ _ _ _ _ _ _ Hi E0 H).
    Qed.
    Lemma clip_rowof gx bb gz i : i < mr gx -> clip_rows gx bb = Ok gz ->
      mr gz = mr gx /\ exists c, clip_rows (point gx i) bb = Ok c /\ rowof gz i c.
    Proof.
      intros Hi H. unfold clip_rows in *. destruct (2 <=? mr bb); [|discriminate]. invok.
      destruct (bc2_row1 npmax _ (vec (row bb 0)) _ _ _ (rowof_point gx i Hi) eq_refl E0) as (c & C1 & C2). rewrite C1. cbn [rbind].
      destruct (bc2_row1 npmin _ (vec (row bb 1)) _ _ _ C2 eq_refl H) as (c' & C3 & C4). split; [|eauto].
      apply bc2_ok in H, E0. destruct H as (_ & _ & _ & Q & _), E0 as (_ & _ & _ & Q' & _). rewrite Q, Q'. cbn [vec mk mr].
      now rewrite !bdim_1_r.
    Qed.
    Lemma u_kern_row_pt br kern dm gx b z Sp d i x : i < mr gx -> u_kern_row E br kern dm gx b z Sp d = Ok x ->
      exists y, u_kern_row E br kern dm (point gx i) b z Sp d = Ok y /\ mr y = 1 /\ mc y = 1 /\
        bget y 0 0 = bget x 0 i /\ mc x = mr gx.
    Proof.
      intros Hi H. unfold u_kern_row in *. apply rbind_ok in H. destruct H as (sb & Hsb & H).
      apply rbind_ok in H. destruct H as (gz & Hgz & H). apply rbind_ok in H. destruct H as (sf & Hsf & H).
      rewrite (u_score_pt _ _ _ _ _ _ _ _ Hi Hsb). cbn [rbind].
      assert (HG : mr gz = mr gx /\ exists c, (if br then let! bb := bndsztr dm z d in clip_rows (point gx i) bb else Ok (point gx i)) = Ok c /\ rowof gz i c).
      { destruct br.
        - invok. rewrite E0. cbn [rbind]. now apply clip_rowof.
        - injection Hgz as <-. split; [auto|]. eexists. split; [reflexivity|]. now apply rowof_point. }
      destruct HG as (Mg & c & C1 & C2). rewrite C1. cbn [rbind]. rewrite (u_score_rowof _ _ _ _ _ _ _ _ _ C2 Hsf). cbn [rbind].
      pose proof (u_score_length _ _ _ _ _ _ _ Hsb) as L1. pose proof (u_score_length _ _ _ _ _ _ _ Hsf) as L2.
      rewrite bc2_same with (r := 1) (c := mr gx) in H by (cbn; auto; congruence). injection H as <-.
      eexists. split; [reflexivity|]. split; [reflexivity|]. split; [reflexivity|]. split; [|reflexivity].
      rewrite !bget_in by (cbn; lia). rewrite !get_mk by (cbn; lia). rewrite !bget_in by (cbn; lia). rewrite !get_vec by (cbn; lia). reflexivity.
    Qed.
    Theorem C24_pointwise gx ti s u s' i : calculate_u E o gx ti s = (Ok u, s') -> i < mr gx ->
      exists v, calculate_u E o (point gx i) ti s = (Ok v, s') /\ mr v = mc gx /\ mc v = 1 /\
        forall d, d < mc gx -> get v d 0 = get u d i.
    Proof.
      intros H Hi. destruct (selects_cases k ti) as [(j & Hs)|Hs].
      2:{ rewrite (calculate_u_out E o dim N k gx ti s Hc Hs) in H. discriminate. }
      rewrite (calculate_u_eq E o dim N k A gx ti j s Hc HF Hs) in H. cbv zeta in H.
      rewrite (calculate_u_eq E o dim N k A (point gx i) ti j s Hc HF Hs). cbv zeta.
      destruct (inter_bnds dim (slice A j) (slice (o_B o) j)); [|discriminate].
      assert (Main : forall v v' : nat -> res mat, (forall d x, d < dim -> d < mc gx -> v d = Ok x -> exists y, v' d = Ok y /\ mr y = 1 /\ mc y = 1 /\ bget y 0 0 = bget x 0 i) ->
         rows_fold v dim (mc gx) (mr gx) = Ok u -> exists w, rows_fold v' dim (mc gx) 1 = Ok w /\ mr w = mc gx /\ mc w = 1 /\ forall d, d < mc gx -> get w d 0 = get u d i).
      { intros v v' Hvv Hu. apply rows_fold_ok in Hu. destruct Hu as (_ & R & C & Hdim & Hv & Hz).
        destruct (rows_fold_tot v' dim (mc gx) 1 Hdim) as (w & Hw).
        { intros d Hd. destruct (Hv d Hd) as (x & X1 & _). destruct (Hvv d x Hd ltac:(lia) X1) as (y & Y1 & Y2 & Y3 & _). eauto. }
        exists w. split; [auto|]. apply rows_fold_ok in Hw. destruct Hw as (_ & R' & C' & _ & Hv' & Hz').
        split; [auto|]. split; [auto|]. intros d Hd. destruct (Nat.lt_ge_cases d dim) as [Hdd|Hdd].
        - destruct (Hv d Hdd) as (x & X1 & _ & _ & X2). destruct (Hvv d x Hdd Hd X1) as (y & Y1 & _ & _ & Y2).
          destruct (Hv' d Hdd) as (y' & Z1 & _ & _ & Z2). assert (y' = y) as -> by congruence. rewrite Z2 by lia. rewrite Y2. symmetry. auto.
        - rewrite Hz', Hz by lia. reflexivity. }
      destruct ((ti <=? 5) || (Z.of_nat k - 5 <=? ti))%Z.
      - injection H as H <-. edestruct (fun H' => Main _ (u_edge_row (point gx i) (slice (o_B o) j) (slice A j)) H' H) as (w & W1 & W2).
        + intros d x Hd Hm Hx. destruct (edge_row_ok gx (slice (o_B o) j) (slice A j) d Hm) as (x' & X1 & X2 & X3 & X4).
          assert (x' = x) as -> by congruence. destruct (edge_row_ok (point gx i) (slice (o_B o) j) (slice A j) d Hm) as (y & Y1 & Y2 & Y3 & Y4).
          exists y. split; [auto|]. split; [auto|]. split; [auto|]. rewrite Y4 by (cbn; lia). rewrite X4 by auto.
          unfold point. now rewrite get_mk by lia.
        + exists w. split; [|exact W2]. change (mc (point gx i)) with (mc gx). change (mr (point gx i)) with 1. now rewrite W1.
      - destruct (sample_box E (p_M (o_par o)) a s) as [[Sx|e] s1]; [|discriminate]. injection H as H <-.
        edestruct (fun H' => Main _ (u_kern_row E (p_reweight (o_par o) && p_brown (o_par o)) (o_kern o) dim (point gx i) (slice (o_B o) j) (slice A j) (mT Sx)) H' H) as (w & W1 & W2).
        + intros d x Hd Hm Hx. destruct (u_kern_row_pt _ _ _ _ _ _ _ _ _ _ Hi Hx) as (y & Y1 & Y2 & Y3 & Y4 & _). eauto.
        + exists w. split; [|exact W2]. change (mc (point gx i)) with (mc gx). change (mr (point gx i)) with 1. now rewrite W1.
    Qed.

    (** ** C29: queries leave the object alone; coverage answers and controls in the edge window are the same after
        every history of queries, and whatever the state of the random generator *)
    Theorem C29_object_unchanged qs s as_ o' s' : run_session E o qs s = (as_, o', s') -> o' = o /\ List.length as_ = List.length qs.
    Proof.
      clear Hc HF. revert s as_ o' s'. induction qs as [|q qs IH]; simpl; intros s as_ o' s' H. { injection H as <- <- <-. auto. }
      unfold run_query in H. destruct q as [gx ti|X ti].
      - destruct (calculate_u E o gx ti s) as [r s1]. destruct (run_session E o qs s1) as [[a1 o1] s2] eqn:Q.
        destruct (IH _ _ _ _ Q) as (-> & L). injection H as <- <- <-. cbn. auto.
      - destruct (run_session E o qs s) as [[a1 o1] s2] eqn:Q.
        destruct (IH _ _ _ _ Q) as (-> & L). injection H as <- <- <-. cbn. auto.
    Qed.
    (** a query that does not touch the random generator *)
    Definition quiet (q : query T) : Prop := match q with QU gx ti => edge k ti | QC _ _ => True end.
    Lemma quiet_answer q s1 s2 : quiet q -> fst (fst (run_query E o q s1)) = fst (fst (run_query E o q s2)) /\ snd (run_query E o q s1) = s1.
    Proof.
      intro Hq. destruct q as [gx ti|X ti]; cbn in Hq; [|unfold run_query; auto].
      assert (H : exists r, forall s, calculate_u E o gx ti s = (r, s)).
      { destruct (selects_cases k ti) as [(j & Hs)|Hs].
        - destruct (inter_bnds dim (slice A j) (slice (o_B o) j)) as [bn|e] eqn:Hbn.
          + exists (rows_fold (u_edge_row gx (slice (o_B o) j) (slice A j)) dim (mc gx) (mr gx)). intro s.
            rewrite (calculate_u_eq E o dim N k A gx ti j s Hc HF Hs). cbv zeta. rewrite Hbn.
            replace ((ti <=? 5) || (Z.of_nat k - 5 <=? ti))%Z with true; [reflexivity|]. symmetry. apply orb_true_iff. unfold edge in Hq. lia.
          + exists (Err e). intro s. rewrite (calculate_u_eq E o dim N k A gx ti j s Hc HF Hs). cbv zeta. now rewrite Hbn.
        - exists (Err IndexError). intro s. exact (calculate_u_out E o dim N k gx ti s Hc Hs). }
      destruct H as (r & Hr). unfold run_query. now rewrite (Hr s1), (Hr s2).
    Qed.
    Theorem C29_answers_stable qs s as_ o' s' i q : run_session E o qs s = (as_, o', s') ->
      nth_error qs i = Some q -> quiet q ->
      forall s0, nth_error as_ i = Some (fst (fst (run_query E o q s0))).
    Proof.
      revert s as_ s' i. induction qs as [|q' qs IH]; intros s as_ s' i H Hn Hq s0. { now destruct i. }
      cbn [run_session] in H. destruct (run_query E o q' s) as [[a1 o1] s1] eqn:HQ.
      assert (o1 = o) as ->.
      { unfold run_query in HQ. destruct q'; [destruct (calculate_u E o gx ti s)|]; now inversion HQ. }
      destruct (run_session E o qs s1) as [[a2 o2] s2] eqn:HR. injection H as <- <- <-.
      destruct i as [|i]; cbn in Hn |- *.
      - injection Hn as ->. f_equal. pose proof (quiet_answer q s s0 Hq) as (Q & _). rewrite HQ in Q. exact Q.
      - eapply IH; eauto.
    Qed.
  End Obj.
End Queries.

(** ** concrete objects *)
Definition toy12 := toy 12000 P0 P1 false false true f2 U2.          (* 13 grid points *)
Definition toy_br := toy 4000 P0 P1 true true true f2 U2.
Example C21_toy : exists o s', construct ToyExt toy_bridge 7%Z = (Ok o, s') /\ consistent o 2 4 5 /\
  (exists A, forward_of o A) /\ selects 5 (-2) 3 /\ edge 5 (-2) /\
  forall s, exists u, calculate_u ToyExt o (mk 3 2 (fun i d => Z.of_nat (i + d))) (-2) s = (Ok u, s) /\ mr u = 2 /\ mc u = 3.
Proof.
  destruct (okrun_run _ _ toy_bridge_runs) as (o & s' & H & L). exists o, s'. split; [auto|].
  destruct (construct_consistent _ _ _ _ _ H) as (P & Hc). rewrite L in Hc. split; [exact Hc|].
  assert (HF : exists A, forward_of o A). { destruct Hc as (_ & _ & _ & _ & HT). rewrite P in HT. destruct (HT eq_refl) as (Zt & Q & _).
    exists Zt. unfold forward_of. rewrite P. exact Q. }
  split; [exact HF|]. split; [unfold selects; lia|]. split; [unfold edge; lia|]. intro s. destruct HF as (A & HF).
  destruct (C28_negative_index ToyExt o 2 4 5 Hc A HF (mk 3 2 (fun i d => Z.of_nat (i + d))) (-2)%Z s) as (u & U1 & U2 & U3 & _); try (cbn; lia). eauto.
Qed.
(** interior query: the hypotheses of C22 and C24 are met by a run with 13 grid points *)
Example C22_toy : exists o s' u s'', construct ToyExt toy12 7%Z = (Ok o, s') /\ List.length (o_grid o) = 13 /\
  calculate_u ToyExt o (mk 3 2 (fun i d => Z.of_nat (i + d))) 6 5%Z = (Ok u, s'') /\ mr u = 2 /\ mc u = 3 /\ s'' <> 5%Z /\ get u 0 1 <> 0%Z.
Proof.
  assert (R : okrun toy12 = 13) by (vm_compute; reflexivity).
  destruct (okrun_run _ _ R) as (o & s' & H & L). exists o, s'.
  assert (Q : match construct ToyExt toy12 7%Z with (Ok o, _) =>
     match calculate_u ToyExt o (mk 3 2 (fun i d => Z.of_nat (i + d))) 6 5%Z with
     | (Ok u, s'') => mr u = 2 /\ mc u = 3 /\ (s'' =? 5)%Z = false /\ (get u 0 1 =? 0)%Z = false | _ => False end | _ => False end).
  { vm_compute. auto. }
  rewrite H in Q. destruct (calculate_u ToyExt o (mk 3 2 (fun i d => Z.of_nat (i + d))) 6 5%Z) as [[u|e] s'']; [|contradiction].
  exists u, s''. destruct Q as (Q1 & Q2 & Q3 & Q4). apply Z.eqb_neq in Q3, Q4. auto 10.
Qed.
(** a session with failing and succeeding queries *)
Example C29_toy : exists o s', construct ToyExt toy_bridge 7%Z = (Ok o, s') /\
  match fst (fst (run_session ToyExt o [QC [0;0]%Z 0%Z; QU (mk 1 2 (fun _ _ => 0%Z)) 9%Z; QU (mk 1 2 (fun _ _ => 0%Z)) 3%Z; QC [1;0]%Z 0%Z] 11%Z)) with
  | [AC (Ok true); AU (Err IndexError); AU (Ok _); AC (Ok false)] => True | _ => False end.
Proof.
  destruct (okrun_run _ _ toy_bridge_runs) as (o & s' & H & L). exists o, s'. split; [auto|].
  assert (Q : match construct ToyExt toy_bridge 7%Z with (Ok o, _) =>
    match fst (fst (run_session ToyExt o [QC [0;0]%Z 0%Z; QU (mk 1 2 (fun _ _ => 0%Z)) 9%Z; QU (mk 1 2 (fun _ _ => 0%Z)) 3%Z; QC [1;0]%Z 0%Z] 11%Z)) with
    | [AC (Ok true); AU (Err IndexError); AU (Ok _); AC (Ok false)] => True | _ => False end | _ => False end) by (vm_compute; exact I).
  now rewrite H in Q.
Qed.
