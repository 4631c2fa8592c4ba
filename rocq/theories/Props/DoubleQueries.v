(** C81: calculate_u and check_if_covered in double precision. *)
From Coq Require Import String List ZArith Reals Bool Lia Lra Permutation.
From Flocq Require Import Core BinarySingleNaN.
From Verif Require Import Base.Num Base.Py Base.Arr Lib.ArrLemmas Model.Ext Model.Score Model.ScoreTorch Model.DPFC Model.TDPFC Run.Double Spec.DoubleSpec Spec.FlowSpec Spec.QuerySpec.
From Verif Require Import Lib.DoubleLemmas Lib.FlowLemmas Lib.StepLemmas Lib.QueryLemmas Lib.CoreLemmas Props.Flows Props.Queries Props.QueriesR.
Import ListNotations.
Local Open Scope R_scope.

Section Q.
  Context (fexp fsin fcos : double -> double) (fsum : list double -> double).
  #[local] Instance QOps : NumOps double := DoubleOps fexp fsin fcos fsum.

  (** ** minimum and maximum *)
  Definition least (l : list double) (v : double) : Prop := number v /\ In v l /\ forall x, In x l -> dle v x.
  Definition greatest (l : list double) (v : double) : Prop := number v /\ In v l /\ forall x, In x l -> dle x v.
  Lemma dle_refl x : number x -> dle x x.
  Proof. intro. apply dle_ext. split; [auto|]. split; [auto|lra]. Qed.
  Lemma dle_trans x y z : dle x y -> dle y z -> dle x z.
  Proof. rewrite !dle_ext. intros (? & ? & ?) (? & ? & ?). split; [auto|]. split; [auto|lra]. Qed.
  Lemma dle_total x y : number x -> number y -> Bltb x y = false -> dle y x.
  Proof.
    intros A B C. apply dle_ext. split; [auto|]. split; [auto|]. apply Rnot_lt_le. intro L. apply (ltb_ext x y A B) in L. congruence.
  Qed.
  Lemma ltb_dle x y : Bltb x y = true -> dle x y.
  Proof.
    intro H. destruct (is_nan x) eqn:A; [rewrite ltb_nan_l in H; [discriminate|auto]|]. destruct (is_nan y) eqn:B; [rewrite ltb_nan_r in H; [discriminate|auto]|].
    apply dle_ext. split; [auto|]. split; [auto|]. apply (ltb_ext x y A B) in H. lra.
  Qed.
  Lemma SF_dec (x y : SpecFloat.spec_float) : {x = y} + {x <> y}.
  Proof. decide equality; try apply Bool.bool_dec; try apply Z.eq_dec; apply Pos.eq_dec. Qed.
  Lemma d_dec (x y : double) : {x = y} + {x <> y}.
  Proof. destruct (SF_dec (B2SF x) (B2SF y)) as [H|H]; [left; now apply B2SF_inj|right; congruence]. Qed.
  Lemma fold_nan_min l : fold_left npmin l dNaN = dNaN.
  Proof. induction l as [|x l IH]; [reflexivity|exact IH]. Qed.
  Lemma fold_nan_max l : fold_left npmax l dNaN = dNaN.
  Proof. induction l as [|x l IH]; [reflexivity|exact IH]. Qed.
  Lemma lmin_double l : l <> [] -> exists v, lmin l = Ok v /\ (In dNaN l -> v = dNaN) /\ (~ In dNaN l -> least l v).
  Proof.
    destruct l as [|x l]; [congruence|]. intros _. cbn [lmin]. eexists. split; [reflexivity|]. revert x.
    induction l as [|y l IH]; intro x; cbn [fold_left].
    - split; [intros [ -> |[]]; reflexivity|]. intro H. split; [destruct x; try reflexivity; exfalso; apply H; now left|]. split; [now left|]. intros z [ <- |[]]. apply dle_refl. destruct x; try reflexivity; exfalso; apply H; now left.
    - destruct (IH (npmin x y)) as (I1 & I2). clear IH. cbn [npmin QOps DoubleOps] in *. destruct (is_nan x) eqn:NX.
      { apply nan_eq in NX. subst x. split; [intros _; apply fold_nan_min|]. intro H. exfalso. apply H. now left. }
      destruct (is_nan y) eqn:NY.
      { apply nan_eq in NY. subst y. split; [intros _; apply fold_nan_min|]. intro H. exfalso. apply H. right. now left. }
      destruct (Bltb y x) eqn:C; cbn [In] in *.
      + split. { intro H. apply I1. destruct H as [ -> |[ -> |H]]; [discriminate|discriminate|now right]. }
        intro H. destruct I2 as (A & B & D). { intros [ -> |I]; [discriminate|tauto]. } split; [exact A|]. split; [cbn [In] in B |- *; tauto|].
        intros z [ <- |Hz]; [|auto]. eapply dle_trans; [apply D; now left|]. now apply ltb_dle.
      + split. { intro H. apply I1. destruct H as [ -> |[ -> |H]]; [discriminate|discriminate|now right]. }
        intro H. destruct I2 as (A & B & D). { intros [ -> |I]; [discriminate|tauto]. } split; [exact A|]. split; [cbn [In] in B |- *; tauto|].
        intros z [ <- |[ <- |Hz]]; [apply D; now left| |apply D; now right]. eapply dle_trans; [apply D; now left|]. apply dle_total; eassumption.
  Qed.
  Lemma lmax_double l : l <> [] -> exists v, lmax l = Ok v /\ (In dNaN l -> v = dNaN) /\ (~ In dNaN l -> greatest l v).
  Proof.
    destruct l as [|x l]; [congruence|]. intros _. cbn [lmax]. eexists. split; [reflexivity|]. revert x.
    induction l as [|y l IH]; intro x; cbn [fold_left].
    - split; [intros [ -> |[]]; reflexivity|]. intro H. split; [destruct x; try reflexivity; exfalso; apply H; now left|]. split; [now left|]. intros z [ <- |[]]. apply dle_refl. destruct x; try reflexivity; exfalso; apply H; now left.
    - destruct (IH (npmax x y)) as (I1 & I2). clear IH. cbn [npmax QOps DoubleOps] in *. destruct (is_nan x) eqn:NX.
      { apply nan_eq in NX. subst x. split; [intros _; apply fold_nan_max|]. intro H. exfalso. apply H. now left. }
      destruct (is_nan y) eqn:NY.
      { apply nan_eq in NY. subst y. split; [intros _; apply fold_nan_max|]. intro H. exfalso. apply H. right. now left. }
      destruct (Bltb x y) eqn:C; cbn [In] in *.
      + split. { intro H. apply I1. destruct H as [ -> |[ -> |H]]; [discriminate|discriminate|now right]. }
        intro H. destruct I2 as (A & B & D). { intros [ -> |I]; [discriminate|tauto]. } split; [exact A|]. split; [cbn [In] in B |- *; tauto|].
        intros z [ <- |Hz]; [|auto]. eapply dle_trans; [|apply D; now left]. now apply ltb_dle.
      + split. { intro H. apply I1. destruct H as [ -> |[ -> |H]]; [discriminate|discriminate|now right]. }
        intro H. destruct I2 as (A & B & D). { intros [ -> |I]; [discriminate|tauto]. } split; [exact A|]. split; [cbn [In] in B |- *; tauto|].
        intros z [ <- |[ <- |Hz]]; [apply D; now left| |apply D; now right]. eapply dle_trans; [|apply D; now left]. apply dle_total; eassumption.
  Qed.

  Lemma in_row (z : mat double) d x : In x (row z d) <-> exists n, (n < mc z)%nat /\ get z d n = x.
  Proof.
    unfold row. rewrite in_map_iff. split; intros (n & A & B); exists n; [apply in_seq in B; split; [lia|auto]|split; [auto|apply in_seq; lia]].
  Qed.
  (** the two bounds of a row: NaN and NaN, or the smallest and the largest entry *)
  Definition bounds (z : mat double) d (lo hi : double) : Prop :=
    (has_nan z d /\ lo = dNaN /\ hi = dNaN) \/
    (~ has_nan z d /\ number lo /\ number hi /\ dle lo hi /\ (exists n, (n < mc z)%nat /\ get z d n = lo) /\ (exists n, (n < mc z)%nat /\ get z d n = hi) /\ forall n, (n < mc z)%nat -> dle lo (get z d n) /\ dle (get z d n) hi).
  Lemma row_bounds_d (z : mat double) d : (1 <= mc z)%nat -> exists lo hi, lmin (row z d) = Ok lo /\ lmax (row z d) = Ok hi /\ bounds z d lo hi.
  Proof.
    intro H. assert (N : row z d <> []). { intro Q. pose proof (row_length z d) as L. rewrite Q in L. cbn in L. lia. }
    destruct (lmin_double _ N) as (lo & L1 & L2 & L3). destruct (lmax_double _ N) as (hi & H1 & H2 & H3).
    exists lo, hi. split; [auto|]. split; [auto|].
    destruct (in_dec d_dec dNaN (row z d)) as [I|I].
    - left. split; [apply in_row in I; exact I|]. auto.
    - right. split. { intro Q. apply I, in_row. exact Q. } destruct (L3 I) as (A1 & A2 & A3). destruct (H3 I) as (B1 & B2 & B3).
      split; [auto|]. split; [auto|]. split; [auto|]. apply in_row in A2, B2. split; [auto|]. split; [auto|].
      intros n Hn. split; [apply A3|apply B3]; apply in_row; eauto.
  Qed.
  Lemma ex_lo (z : mat double) d lo hi x : bounds z d lo hi -> ~ has_nan z d -> ((exists n, (n < mc z)%nat /\ dle (get z d n) x) <-> dle lo x).
  Proof.
    intros [(A & _)|(_ & N1 & N2 & L & (n & Hn & G) & _ & H)] NN; [tauto|]. split.
    - intros (m & Hm & D). eapply dle_trans; [|exact D]. now apply H.
    - intro D. exists n. now rewrite G.
  Qed.
  Lemma ex_hi (z : mat double) d lo hi x : bounds z d lo hi -> ~ has_nan z d -> ((exists n, (n < mc z)%nat /\ dle x (get z d n)) <-> dle x hi).
  Proof.
    intros [(A & _)|(_ & N1 & N2 & L & _ & (n & Hn & G) & H)] NN; [tauto|]. split.
    - intros (m & Hm & D). eapply dle_trans; [exact D|]. now apply H.
    - intro D. exists n. now rewrite G.
  Qed.
  Lemma bounds_nan (z : mat double) d lo hi : bounds z d lo hi -> has_nan z d -> lo = dNaN /\ hi = dNaN.
  Proof. intros [(_ & H)|(A & _)]; tauto. Qed.
  Lemma bounds_num (z : mat double) d lo hi : bounds z d lo hi -> ~ has_nan z d -> number lo /\ number hi.
  Proof. intros [(A & _)|(_ & N1 & N2 & _)]; tauto. Qed.
  Lemma has_nan_dec (z : mat double) d : has_nan z d \/ ~ has_nan z d.
  Proof. destruct (in_dec d_dec dNaN (row z d)) as [I|I]; [left; now apply in_row|right; intro Q; apply I; now apply in_row]. Qed.
  Lemma leb_nan_l (x : double) : ~ dle dNaN x.
  Proof. intro H. apply leb_number in H. destruct H. discriminate. Qed.
  Lemma leb_nan_r (x : double) : ~ dle x dNaN.
  Proof. intro H. apply leb_number in H. destruct H. discriminate. Qed.
  Lemma pymax_nan_r (x : double) : pymax x dNaN = x. Proof. unfold pymax. cbn [nltb QOps DoubleOps]. now rewrite ltb_nan_r. Qed.
  Lemma pymax_nan_l (x : double) : pymax dNaN x = dNaN. Proof. unfold pymax. cbn [nltb QOps DoubleOps]. now rewrite ltb_nan_l. Qed.
  Lemma pymin_nan_r (x : double) : pymin x dNaN = x. Proof. unfold pymin. cbn [nltb QOps DoubleOps]. now rewrite ltb_nan_l. Qed.
  Lemma pymin_nan_l (x : double) : pymin dNaN x = dNaN. Proof. unfold pymin. cbn [nltb QOps DoubleOps]. now rewrite ltb_nan_r. Qed.
  Lemma pymax_le (a b x : double) : number a -> number b -> (dle (pymax a b) x <-> dle a x /\ dle b x).
  Proof.
    intros A B. unfold pymax. cbn [nltb QOps DoubleOps]. destruct (Bltb a b) eqn:C.
    - split; [|tauto]. intro D. split; [|auto]. eapply dle_trans; [apply ltb_dle; eassumption|auto].
    - split; [|tauto]. intro D. split; [auto|]. eapply dle_trans; [apply (dle_total a b); assumption|auto].
  Qed.
  Lemma pymin_ge (a b x : double) : number a -> number b -> (dle x (pymin a b) <-> dle x a /\ dle x b).
  Proof.
    intros A B. unfold pymin. cbn [nltb QOps DoubleOps]. destruct (Bltb b a) eqn:C.
    - split; [|tauto]. intro D. split; [|auto]. eapply dle_trans; [exact D|now apply ltb_dle].
    - split; [|tauto]. intro D. split; [auto|]. eapply dle_trans; [exact D|]. apply (dle_total b a); assumption.
  Qed.
  Lemma pymin_le (a b x : double) : number a -> number b -> (dle (pymin a b) x <-> dle a x \/ dle b x).
  Proof.
    intros A B. unfold pymin. cbn [nltb QOps DoubleOps]. destruct (Bltb b a) eqn:C.
    - split; [tauto|]. intros [D|D]; [|auto]. eapply dle_trans; [apply ltb_dle; eassumption|eauto].
    - split; [tauto|]. intros [D|D]; [auto|]. eapply dle_trans; [apply (dle_total b a); assumption|auto].
  Qed.
  Lemma pymax_ge (a b x : double) : number a -> number b -> (dle x (pymax a b) <-> dle x a \/ dle x b).
  Proof.
    intros A B. unfold pymax. cbn [nltb QOps DoubleOps]. destruct (Bltb a b) eqn:C.
    - split; [tauto|]. intros [D|D]; [|auto]. eapply dle_trans; [exact D|now apply ltb_dle].
    - split; [tauto|]. intros [D|D]; [auto|]. eapply dle_trans; [exact D|apply (dle_total a b); assumption].
  Qed.

  (** C81.  In double precision a point is reported as covered exactly when, in every coordinate, the forward flow has no NaN and its range
      contains the point, and the range of the time reversed flow contains the point or that flow has a NaN: Python's max and min ignore a
      NaN in second position *)
  Theorem C81_covered o dim N k ti j X : consistent o dim N k -> (1 <= N)%nat -> selects k ti j -> (dim <= List.length X)%nat ->
    exists c, check_if_covered o X ti = Ok c /\
      (c = true <-> forall d, (d < dim)%nat -> let z := slice (o_Z o) j in let b := slice (o_B o) j in let x := nth d X dNaN in
         ~ has_nan z d /\ d_in_range z d x /\ (has_nan b d \/ d_in_range b d x)).
  Proof.
    intros (L & K & HZ & HB & _) HN Hs HX. apply has_shape_sh in HZ, HB.
    destruct (sh_slice _ _ _ _ j HZ ltac:(apply Hs)) as (_ & _ & CZ). destruct (sh_slice _ _ _ _ j HB ltac:(apply Hs)) as (_ & _ & CB).
    cbv zeta. set (z := slice (o_Z o) j) in *. set (b := slice (o_B o) j) in *.
    set (v := fun ii => let! bnd := inter_bnd z b ii in let! x := pyget X (Z.of_nat ii) in Ok (nleb (fst bnd) x && nleb x (snd bnd))).
    assert (Hv : forall d, (d < dim)%nat -> exists c, v d = Ok c /\ (c = true <-> ~ has_nan z d /\ d_in_range z d (nth d X dNaN) /\ (has_nan b d \/ d_in_range b d (nth d X dNaN)))).
    { intros d Hd. destruct (row_bounds_d z d ltac:(lia)) as (zl & zh & Z1 & Z2 & Bz). destruct (row_bounds_d b d ltac:(lia)) as (bl & bh & B1 & B2 & Bb).
      unfold v, inter_bnd. rewrite Z1, Z2, B1, B2. cbn [rbind fst snd]. rewrite (pyget_nat X d dNaN) by lia. cbn [rbind]. eexists. split; [reflexivity|].
      rewrite andb_true_iff. set (x := nth d X dNaN). change (nleb (pymax zl bl) x = true) with (dle (pymax zl bl) x). change (nleb x (pymin zh bh) = true) with (dle x (pymin zh bh)).
      destruct (has_nan_dec z d) as [Nz|Nz].
      { destruct (bounds_nan z d zl zh Bz Nz) as (-> & ->). rewrite pymax_nan_l. split; [|tauto]. intros (Q & _). exfalso. now apply (leb_nan_l x). }
      unfold d_in_range. rewrite (ex_lo z d zl zh x Bz Nz), (ex_hi z d zl zh x Bz Nz). destruct (bounds_num z d zl zh Bz Nz) as (Q1 & Q2).
      destruct (has_nan_dec b d) as [Nb|Nb].
      { destruct (bounds_nan b d bl bh Bb Nb) as (-> & ->). rewrite pymax_nan_r, pymin_nan_r. tauto. }
      rewrite (ex_lo b d bl bh x Bb Nb), (ex_hi b d bl bh x Bb Nb). destruct (bounds_num b d bl bh Bb Nb) as (Q3 & Q4).
      rewrite (pymax_le zl bl x Q1 Q3), (pymin_ge zh bh x Q2 Q4). tauto. }
    destruct (fold_and dim v true) as (c & C1 & C2). { intros d Hd. destruct (Hv d Hd) as (c & ? & _). eauto. }
    exists c. split.
    - rewrite <- C1. unfold check_if_covered. cbv zeta. rewrite L. apply rfold_ext. intros cov ii _.
      rewrite (getsl_sel _ _ _ _ _ _ HZ Hs), (getsl_sel _ _ _ _ _ _ HB Hs). cbn [rbind]. unfold v. fold z b.
      rewrite !rbind_assoc. destruct (inter_bnd z b ii); [|reflexivity]. cbn [rbind]. now destruct (pyget X (Z.of_nat ii)).
    - rewrite C2. split.
      + intros (_ & Q) d Hd. destruct (Hv d Hd) as (c' & V1 & V2). apply V2. rewrite (Q d Hd) in V1. congruence.
      + intro Q. split; [auto|]. intros d Hd. destruct (Hv d Hd) as (c' & V1 & V2). rewrite V1. f_equal. apply V2. auto.
  Qed.
  (** the pytorch class: the hull of the two ranges; again a NaN in the time reversed flow is ignored *)
  Theorem C81_torch_covered o dim N k ti j X : consistent o dim N k -> (1 <= N)%nat -> selects k ti j -> (dim <= List.length X)%nat ->
    exists c, t_check_if_covered o X ti = Ok c /\
      (c = true <-> forall d, (d < dim)%nat -> let z := slice (o_Z o) j in let b := slice (o_B o) j in let x := nth d X dNaN in
         ~ has_nan z d /\ (has_nan b d -> d_in_range z d x) /\ (~ has_nan b d -> d_in_hull z b d x)).
  Proof.
    intros (L & K & HZ & HB & _) HN Hs HX. apply has_shape_sh in HZ, HB.
    destruct (sh_slice _ _ _ _ j HZ ltac:(apply Hs)) as (_ & _ & CZ). destruct (sh_slice _ _ _ _ j HB ltac:(apply Hs)) as (_ & _ & CB).
    cbv zeta. set (z := slice (o_Z o) j) in *. set (b := slice (o_B o) j) in *.
    set (v := fun ii => let! bnd := hull_bnd z b ii in let! x := pyget X (Z.of_nat ii) in Ok (nleb (fst bnd) x && nleb x (snd bnd))).
    assert (Hv : forall d, (d < dim)%nat -> exists c, v d = Ok c /\ (c = true <-> ~ has_nan z d /\ (has_nan b d -> d_in_range z d (nth d X dNaN)) /\ (~ has_nan b d -> d_in_hull z b d (nth d X dNaN)))).
    { intros d Hd. destruct (row_bounds_d z d ltac:(lia)) as (zl & zh & Z1 & Z2 & Bz). destruct (row_bounds_d b d ltac:(lia)) as (bl & bh & B1 & B2 & Bb).
      unfold v, hull_bnd. rewrite Z1, Z2, B1, B2. cbn [rbind fst snd ScoreTorch.tor]. rewrite (pyget_nat X d dNaN) by lia. cbn [rbind]. eexists. split; [reflexivity|].
      rewrite andb_true_iff. set (x := nth d X dNaN). change (nleb (pymin zl bl) x = true) with (dle (pymin zl bl) x). change (nleb x (pymax zh bh) = true) with (dle x (pymax zh bh)).
      destruct (has_nan_dec z d) as [Nz|Nz].
      { destruct (bounds_nan z d zl zh Bz Nz) as (-> & ->). rewrite pymin_nan_l. split; [|tauto]. intros (Q & _). exfalso. now apply (leb_nan_l x). }
      unfold d_in_range, d_in_hull. rewrite (ex_lo z d zl zh x Bz Nz), (ex_hi z d zl zh x Bz Nz). destruct (bounds_num z d zl zh Bz Nz) as (Q1 & Q2).
      destruct (has_nan_dec b d) as [Nb|Nb].
      { destruct (bounds_nan b d bl bh Bb Nb) as (-> & ->). rewrite pymax_nan_r, pymin_nan_r. tauto. }
      rewrite (ex_lo b d bl bh x Bb Nb), (ex_hi b d bl bh x Bb Nb). destruct (bounds_num b d bl bh Bb Nb) as (Q3 & Q4).
      rewrite (pymin_le zl bl x Q1 Q3), (pymax_ge zh bh x Q2 Q4). tauto. }
    destruct (fold_and dim v true) as (c & C1 & C2). { intros d Hd. destruct (Hv d Hd) as (c & ? & _). eauto. }
    exists c. split.
    - rewrite <- C1. unfold t_check_if_covered. cbv zeta. rewrite L. apply rfold_ext. intros cov ii _.
      rewrite (getsl_sel _ _ _ _ _ _ HZ Hs), (getsl_sel _ _ _ _ _ _ HB Hs). cbn [rbind]. unfold v. fold z b.
      rewrite !rbind_assoc. destruct (hull_bnd z b ii); [|reflexivity]. cbn [rbind]. now destruct (pyget X (Z.of_nat ii)).
    - rewrite C2. split.
      + intros (_ & Q) d Hd. destruct (Hv d Hd) as (c' & V1 & V2). apply V2. rewrite (Q d Hd) in V1. congruence.
      + intro Q. split; [auto|]. intros d Hd. destruct (Hv d Hd) as (c' & V1 & V2). rewrite V1. f_equal. apply V2. auto.
  Qed.
  (** ** an ensemble of N copies of a number with few significant bits has standard deviation exactly zero *)
  Lemma exact_plus (x y : double) (m e : Z) : finite x -> finite y -> B2R x + B2R y = IZR m * bpow radix2 e -> (Z.abs m <= 9007199254740992)%Z -> (-1074 <= e <= 900)%Z ->
    finite (Bplus mode_NE x y) /\ B2R (Bplus mode_NE x y) = B2R x + B2R y.
  Proof.
    intros Fx Fy V Hm He. pose proof (Bplus_correct 53 1024 _ _ mode_NE x y Fx Fy) as C.
    assert (B : Rabs (B2R x + B2R y) <= bpow radix2 1000).
    { rewrite V, Rabs_mult, (Rabs_pos_eq (bpow radix2 e)) by apply bpow_ge_0. apply Rle_trans with (bpow radix2 53 * bpow radix2 900).
      - apply Rmult_le_compat; [apply Rabs_pos|apply bpow_ge_0| |apply bpow_le; lia]. rewrite <- abs_IZR. change (bpow radix2 53) with (IZR 9007199254740992). now apply IZR_le.
      - rewrite <- bpow_plus. apply bpow_le. lia. }
    rewrite rnd_small in C by exact B. destruct C as (C1 & C2 & _). split; [exact C2|]. rewrite C1. apply round_generic; [apply valid_rnd_round_mode|].
    rewrite V. destruct (Z.eq_dec (Z.abs m) 9007199254740992) as [Q|Q].
    - assert (IZR m * bpow radix2 e = bpow radix2 (53 + e) \/ IZR m * bpow radix2 e = - bpow radix2 (53 + e)) as [ -> | -> ].
      { rewrite bpow_plus. change (bpow radix2 53) with (IZR 9007199254740992). destruct (Z.abs_eq_or_opp m) as [A|A]; rewrite A in Q; [left; now rewrite Q|right]. replace m with (- 9007199254740992)%Z by lia. change (IZR (-9007199254740992)) with (- IZR 9007199254740992). ring. }
      + apply generic_format_bpow. unfold SpecFloat.fexp, SpecFloat.emin. lia.
      + apply generic_format_opp, generic_format_bpow. unfold SpecFloat.fexp, SpecFloat.emin. lia.
    - apply (generic_format_FLT radix2 (-1074) 53). exists (Float radix2 m e); [reflexivity|cbn; lia|cbn; lia].
  Qed.
  Lemma tree_copies l s (y : double) (m e : Z) : tree_sum l s -> (forall x, In x l -> x = y) -> finite y -> B2R y = IZR m * bpow radix2 e ->
    (Z.abs m * Z.of_nat (List.length l) <= 9007199254740992)%Z -> (-1074 <= e <= 900)%Z -> finite s /\ B2R s = INR (List.length l) * B2R y.
  Proof.
    intros T H Fy V. revert H. induction T as [|x|l l1 l2 x1 x2 P T1 IH1 T2 IH2]; intros H Hl He.
    - split; [reflexivity|]. cbn. lra.
    - rewrite (H x) by now left. split; [auto|]. cbn. lra.
    - pose proof (Permutation_length P) as L. rewrite app_length in L.
      assert (M : forall z, In z (l1 ++ l2) -> z = y) by (intros z Hz; apply H; eapply Permutation_in; [apply Permutation_sym, P|exact Hz]).
      destruct IH1 as (A1 & A2). { intros; apply M, in_app_iff; auto. } { rewrite L in Hl. nia. } { auto. }
      destruct IH2 as (B1 & B2). { intros; apply M, in_app_iff; auto. } { rewrite L in Hl. nia. } { auto. }
      assert (Q : B2R x1 + B2R x2 = INR (List.length l) * B2R y) by (rewrite A2, B2, L, plus_INR; ring).
      rewrite <- Q. apply exact_plus with (m := (m * Z.of_nat (List.length l))%Z) (e := e); auto.
      + rewrite Q, V, mult_IZR, <- INR_IZR_INZ. ring.
      + rewrite Z.abs_mul, (Z.abs_eq (Z.of_nat _)) by lia. exact Hl.
  Qed.
  Lemma row_const (z : mat double) d y : (forall n, (n < mc z)%nat -> get z d n = y) -> row z d = repeat y (mc z).
  Proof. intro H. apply nth_ext with (d := dNaN) (d' := y); [now rewrite row_length, repeat_length|]. rewrite row_length. intros n Hn. rewrite nth_repeat. unfold row. rewrite nth_map_seq by auto. now apply H. Qed.
  Lemma nofnat_ex n : (Z.of_nat n < 9007199254740992)%Z -> finite (nofnat n) /\ B2R (nofnat n) = INR n.
  Proof.
    intro H. unfold nofnat. cbn [nlit QOps DoubleOps]. destruct (dZ_exact (Z.of_nat n) ltac:(lia)) as (F & V). destruct (dZ_exact 1 ltac:(cbn; lia)) as (F1 & V1).
    pose proof (Bdiv_correct 53 1024 _ _ mode_NE (dZ (Z.of_nat n)) (dZ 1) ltac:(rewrite V1; lra)) as C. rewrite V1 in C. unfold Rdiv in C. rewrite Rinv_1, Rmult_1_r, rnd_id in C.
    rewrite Rlt_bool_true in C. 2: { pose proof (fin_lt (dZ (Z.of_nat n))) as Q. unfold big1024 in Q. apply Rabs_def1; lra. }
    destruct C as (C1 & C2 & _). split; [unfold finite; now rewrite C2|]. rewrite C1, V. symmetry. apply INR_IZR_INZ.
  Qed.
  Lemma minus_self (y : double) : finite y -> finite (Bminus mode_NE y y) /\ B2R (Bminus mode_NE y y) = 0.
  Proof.
    intro F. pose proof (Bminus_correct 53 1024 _ _ mode_NE y y F F) as C. replace (B2R y - B2R y) with 0 in C by ring.
    rewrite rnd_0, Rabs_R0, Rlt_bool_true in C by apply bpow_gt_0. destruct C as (C1 & C2 & _). auto.
  Qed.
  Lemma mult_zero (y : double) : finite y -> B2R y = 0 -> finite (Bmult mode_NE y y) /\ B2R (Bmult mode_NE y y) = 0.
  Proof. intros F V. destruct (zero_cases y F V) as (b & ->). destruct b; now split. Qed.
  Lemma tree_zeros l s : tree_sum l s -> (forall x, In x l -> finite x /\ B2R x = 0) -> finite s /\ B2R s = 0.
  Proof.
    intros T H. assert (NN : forall x, In x l -> nn x). { intros x Hx. destruct (H x Hx) as (F & V). split; [now apply fin_number|]. rewrite ext_fin by auto. lra. }
    destruct (tree_nn l s T NN) as (_ & _ & C & D). assert (F : finite s) by (apply D; intros x Hx; destruct (H x Hx); auto).
    split; [exact F|]. destruct (C F) as (_ & Q). assert (Z : total l = 0). { clear -H. induction l as [|x l IH]; [reflexivity|]. cbn [total fold_right]. fold (total l). rewrite IH by (intros; apply H; now right). rewrite (proj2 (H x (or_introl eq_refl))). lra. }
    rewrite Z in Q. lra.
  Qed.
  Lemma std_copies (z : mat double) d y : sum_contract fsum -> (1 <= mc z)%nat -> (Z.of_nat (mc z) < 9007199254740992)%Z -> (forall n, (n < mc z)%nat -> get z d n = y) -> short y (mc z) ->
    finite (nstd (row z d)) /\ B2R (nstd (row z d)) = 0.
  Proof.
    intros Hs HN HB H (Fy & m & e & V & Hm & He). rewrite (row_const z d y H). set (l := repeat y (mc z)).
    assert (Ll : List.length l = mc z) by apply repeat_length. destruct (nofnat_ex (mc z) HB) as (FN & VN). assert (PN : 1 <= INR (mc z)) by (change 1 with (INR 1); now apply le_INR).
    assert (M : finite (nmean l) /\ B2R (nmean l) = B2R y).
    { unfold nmean. cbn [ndiv nsum QOps DoubleOps]. destruct (tree_copies l _ y m e (Hs l)) as (F & Q); auto. { intros x Hx. now apply repeat_spec in Hx. } { now rewrite Ll. }
      rewrite Ll in *. pose proof (Bdiv_correct 53 1024 _ _ mode_NE (fsum l) (nofnat (mc z)) ltac:(rewrite VN; lra)) as C. rewrite VN, Q in C.
      replace (INR (mc z) * B2R y / INR (mc z)) with (B2R y) in C by (field; lra). rewrite rnd_id, Rlt_bool_true in C. 2: { pose proof (fin_lt y) as G. unfold big1024 in G. apply Rabs_def1; lra. }
      destruct C as (C1 & C2 & _). split; [unfold finite; now rewrite C2|exact C1]. }
    destruct M as (Fm & Vm).
    assert (S : finite (ssd l) /\ B2R (ssd l) = 0).
    { unfold ssd. cbn [nsum QOps DoubleOps]. apply (tree_zeros _ _ (Hs _)). intros x Hx. apply in_map_iff in Hx. destruct Hx as (w & <- & Hw). apply repeat_spec in Hw. subst w.
      unfold nsq. cbn [nsub nmul QOps DoubleOps]. apply mult_zero.
      - pose proof (Bminus_correct 53 1024 _ _ mode_NE y (nmean l) Fy Fm) as C. rewrite Vm in C. replace (B2R y - B2R y) with 0 in C by ring. rewrite rnd_0, Rabs_R0, Rlt_bool_true in C by apply bpow_gt_0. apply C.
      - pose proof (Bminus_correct 53 1024 _ _ mode_NE y (nmean l) Fy Fm) as C. rewrite Vm in C. replace (B2R y - B2R y) with 0 in C by ring. rewrite rnd_0, Rabs_R0, Rlt_bool_true in C by apply bpow_gt_0. apply C. }
    destruct S as (Fs & Vs). unfold nstd. rewrite Ll. cbn [nsqrt ndiv QOps DoubleOps].
    pose proof (Bdiv_correct 53 1024 _ _ mode_NE (ssd l) (nofnat (mc z)) ltac:(rewrite VN; lra)) as C. rewrite VN, Vs in C. unfold Rdiv in C. rewrite Rmult_0_l, rnd_0, Rabs_R0, Rlt_bool_true in C by apply bpow_gt_0.
    destruct C as (C1 & C2 & _). rewrite Fs in C2. destruct (zero_cases _ C2 C1) as (b & ->). now split.
  Qed.
  Lemma div_by_zero (a b : double) : finite b -> B2R b = 0 -> ~ finite (Bdiv mode_NE a b).
  Proof. intros F V. destruct (zero_cases b F V) as (s & ->). destruct a; cbn; unfold finite; cbn; discriminate. Qed.
  Lemma gauss_copies (z : mat double) d y x : sum_contract fsum -> (1 <= mc z)%nat -> (Z.of_nat (mc z) < 9007199254740992)%Z -> (forall n, (n < mc z)%nat -> get z d n = y) -> short y (mc z) ->
    ~ finite (gauss_score z d x).
  Proof.
    intros Hs HN HB H Hy. destruct (std_copies z d y Hs HN HB H Hy) as (F & V). unfold gauss_score, nsq. cbn [ndiv nopp nsub nmul QOps DoubleOps].
    destruct (mult_zero _ F V) as (F' & V'). now apply div_by_zero.
  Qed.
  Lemma minus_inf_l (a b : double) : ~ finite a -> ~ finite (Bminus mode_NE a b).
  Proof. unfold finite. destruct a as [| s | |]; cbn; try tauto. - intros _. destruct b as [| s' | |]; cbn; try congruence. destruct (Bool.eqb s (negb s')); cbn; congruence. Qed.
  Lemma minus_self_inf (a : double) : ~ finite a -> Bminus mode_NE a a = dNaN.
  Proof. unfold finite. destruct a as [| s | |]; cbn; try tauto. intros _. now destruct s. Qed.
  Lemma minus_self_any (a : double) : (finite (Bminus mode_NE a a) /\ B2R (Bminus mode_NE a a) = 0) \/ Bminus mode_NE a a = dNaN.
  Proof.
    destruct (is_finite a) eqn:F; [left; now apply minus_self|right]. apply minus_self_inf. unfold finite. congruence.
  Qed.

  Section Run.
    Context {S : Type} (E : Ext double S) (p : params double) (s : S) (o : obj double) (s' : S) (Hc : construct E p s = (Ok o, s')).
    Let dim := List.length (p_y1 p).
    Let k := List.length (o_grid o).
    Context (HN : (1 <= p_N p)%nat) (HB : (Z.of_nat (p_N p) < 9007199254740992)%Z) (Hk : (2 <= k)%nat).
    Lemma copies A t y d : has_shape A dim (p_N p) k -> (t < k)%nat -> (d < dim)%nat -> all_at A t y ->
      mc (slice A t) = p_N p /\ forall n, (n < mc (slice A t))%nat -> get (slice A t) d n = nth d y (dZ 0).
    Proof.
      intros HA Ht Hd Ha. apply has_shape_sh in HA. destruct (sh_slice _ _ _ _ t HA Ht) as (_ & _ & M). split; [exact M|]. intros n Hn. destruct HA as (_ & D & Nn & _).
      apply (Ha d n); lia.
    Qed.
    (** ** C81, first grid point: both flows start at y1, so the control is 0 or NaN; NaN for every point if the coordinate has few
        significant bits (e.g. is a moderate integer) *)
    Theorem C81_start gx ti sq : sum_contract fsum -> p_det p = true -> selects k ti 0 -> (dim <= mc gx)%nat ->
      exists v, calculate_u E o gx ti sq = (Ok v, sq) /\ mr v = mc gx /\ mc v = mr gx /\
        forall d i, (d < dim)%nat -> (i < mr gx)%nat ->
          ((finite (get v d i) /\ B2R (get v d i) = 0) \/ get v d i = dNaN) /\
          (short (nth d (p_y1 p) (dZ 0)) (p_N p) -> get v d i = dNaN).
    Proof.
      intros Hs Hd Hsel Hm. destruct (construct_consistent E p s o s' Hc) as (P & Hcon). pose proof Hcon as (_ & _ & SZ & SB & ST).
      assert (HA : exists A, forward_of o A /\ has_shape A dim (p_N p) k /\ all_at A 0 (p_y1 p)).
      { unfold forward_of. destruct (p_reweight (o_par o) && p_brown (o_par o)) eqn:Q.
        - destruct (ST eq_refl) as (Zt & Q1 & Q2). rewrite P in Q. apply andb_true_iff in Q. destruct Q as (R1 & R2).
          destruct (C08_bridge_flow E p s o s' Hc Hd R1 R2 ltac:(unfold k in Hk; lia)) as (Zt' & _ & Q3 & Q4 & _). exists Zt'. split; [auto|]. split; [|exact Q4]. replace Zt' with Zt by congruence. exact Q2.
        - exists (o_Z o). split; [auto|]. split; [exact SZ|]. now apply (C03_forward_starts_at_y1 E p s o s' Hc). }
      destruct HA as (A & HF & SA & A0). destruct (C04_time_reversed_boundaries E p s o s' Hc Hk) as (B0 & _).
      destruct (C21_gaussian_window E o dim (p_N p) k Hcon A HF gx ti 0 sq HN Hsel) as (v & V1 & V2 & V3 & V4 & _); [|exact Hm|].
      { unfold edge. destruct Hsel as (_ & [ -> | -> ]); left; cbn; lia. }
      exists v. split; [exact V1|]. split; [exact V2|]. split; [exact V3|]. intros d i Hdd Hi. rewrite (V4 d i Hdd Hi).
      destruct (copies A 0 _ d SA ltac:(lia) Hdd A0) as (M1 & G1). destruct (copies (o_B o) 0 _ d SB ltac:(lia) Hdd B0) as (M2 & G2).
      assert (Q : gauss_score (slice (o_B o) 0) d (get gx i d) = gauss_score (slice A 0) d (get gx i d)).
      { unfold gauss_score. now rewrite (row_const _ _ _ G1), (row_const _ _ _ G2), M1, M2. }
      rewrite Q. set (a := gauss_score (slice A 0) d (get gx i d)). cbn [nsub QOps DoubleOps]. split; [apply minus_self_any|].
      intro Sh. apply minus_self_inf. apply (gauss_copies _ d (nth d (p_y1 p) (dZ 0))); rewrite ?M1; auto. rewrite <- M1. exact G1.
    Qed.
    (** ** C81, last grid point: the time reversed flow ends in y2, so the control is infinite or NaN if the coordinate has few
        significant bits *)
    Theorem C81_end gx ti sq : sum_contract fsum -> selects k ti (k - 1) -> (dim <= mc gx)%nat ->
      exists v, calculate_u E o gx ti sq = (Ok v, sq) /\ mr v = mc gx /\ mc v = mr gx /\
        forall d i, (d < dim)%nat -> (i < mr gx)%nat -> short (nth d (p_y2 p) (dZ 0)) (p_N p) -> ~ finite (get v d i).
    Proof.
      intros Hs Hsel Hm. destruct (construct_consistent E p s o s' Hc) as (P & Hcon). pose proof Hcon as (_ & _ & SZ & SB & ST).
      assert (HA : exists A, forward_of o A).
      { unfold forward_of. destruct (p_reweight (o_par o) && p_brown (o_par o)) eqn:Q; [destruct (ST eq_refl) as (Zt & Q1 & _)|]; eauto. }
      destruct HA as (A & HF). destruct (C04_time_reversed_boundaries E p s o s' Hc Hk) as (_ & B1).
      destruct (C21_gaussian_window E o dim (p_N p) k Hcon A HF gx ti (k - 1) sq HN Hsel) as (v & V1 & V2 & V3 & V4 & _); [|exact Hm|].
      { unfold edge. destruct Hsel as (_ & [ -> | -> ]); [right|left]; lia. }
      exists v. split; [exact V1|]. split; [exact V2|]. split; [exact V3|]. intros d i Hdd Hi Sh. rewrite (V4 d i Hdd Hi).
      destruct (copies (o_B o) (k - 1) _ d SB ltac:(lia) Hdd B1) as (M2 & G2). cbn [nsub QOps DoubleOps]. apply minus_inf_l.
      apply (gauss_copies _ d (nth d (p_y2 p) (dZ 0))); rewrite ?M2; auto. rewrite <- M2. exact G2.
    Qed.
  End Run.
End Q.
