(** C82: the RBF kernels in double precision. *)
From Coq Require Import String List ZArith Reals Bool Lia Lra Permutation.
From Flocq Require Import Core BinarySingleNaN Mult_error.
From Verif Require Import Base.Num Base.Py Base.Arr Lib.ArrLemmas Model.Ext Model.Cdist Model.Score Model.ScoreTorch Lib.ScoreLemmas Run.Double Spec.DoubleSpec.
From Verif Require Import Lib.DoubleLemmas Run.DoubleExp Props.CdistProps Props.DoubleQueries.
Import ListNotations.

(** ** every entry, for every number system *)
Local Open Scope nat_scope.
Section Gen.
  Context {T : Type} {O : NumOps T}.
  Notation mat := (mat T).
  Definition rbf1 (l v : T) : T := nexp (ndiv (nopp v) (nmul (nmul ntwo l) l)).
  Definition sq1 (x y : mat) i j d : T := nsum [nsq (nsub (get x i d) (get y j d))].
  Definition prodf (F : nat -> T) (D : nat) : T := fold_left (fun acc d => nmul acc (F d)) (seq 0 D) none1.
  Lemma prodf_S F D : prodf F (Datatypes.S D) = nmul (prodf F D) (F D).
  Proof. unfold prodf. rewrite seq_S, fold_left_app. reflexivity. Qed.
  Definition kent (D : nat) (l : lscale T) (def : T) (x y : mat) i j : T :=
    match l with
    | LScal l0 => rbf1 l0 (sqdist x y i j)
    | LVec ls => prodf (fun d => rbf1 (nth d ls def) (sq1 x y i j d)) D
    end.
  Lemma rfold_prodf {A} (f : mat -> A -> res mat) (g : nat -> A) (F : nat -> nat -> nat -> T) r c D :
    (forall ii acc, ii < D -> f acc (g ii) = bc2 nmul acc (mk r c (F ii))) ->
    rfold f (map g (seq 0 D)) (mones r c) = Ok (mk r c (fun i j => prodf (fun d => F d i j) D)).
  Proof.
    intro H. induction D as [|n IH]. { reflexivity. }
    rewrite seq_S, map_app, rfold_app, IH by auto. cbn [map rfold rbind]. cbn [Nat.add]. rewrite H by lia.
    rewrite bc2_mk. cbn [rbind]. f_equal. apply mk_ext. intros. symmetry. apply (prodf_S (fun d => F d i j)).
  Qed.
  Lemma rbf_mk_gen l r c f : rbf_of_sq l (mk r c f) = mk r c (fun i j => rbf1 l (f i j)).
  Proof. unfold rbf_of_sq. now rewrite mmap1_mk. Qed.
  Lemma column_in_gen (x : mat) ii : ii < mc x -> column x ii = Ok (mk (mr x) 1 (fun i _ => get x i ii)).
  Proof. intro H. unfold column. apply Nat.ltb_lt in H. now rewrite H. Qed.
  Lemma sqdist_col_gen (x y : mat) ii i j : i < mr x -> j < mr y ->
    sqdist (mk (mr x) 1 (fun i _ => get x i ii)) (mk (mr y) 1 (fun i _ => get y i ii)) i j = sq1 x y i j ii.
  Proof. intros Hi Hj. unfold sqdist, sq1. cbn [mk mc seq map]. now rewrite !get_mk by lia. Qed.
  Inductive rbf_kernel : (mat -> mat -> lscale T -> res mat) -> Prop :=
  | rk_separate : rbf_kernel K_sep
  | rk_all_dims : rbf_kernel K_all
  | rk_old : rbf_kernel K_old.
  Lemma kernel_entries K D l def (x y : mat) : rbf_kernel K -> mc x = D -> mc y = D -> match l with LScal _ => True | LVec ls => List.length ls = D end ->
    K x y l = Ok (mk (mr x) (mr y) (kent D l def x y)).
  Proof.
    intros HK Hx Hy Hl. destruct l as [l0|ls].
    - assert (M : my_cdist x y (mzeros (mr x) (mr y)) "sqeuclidean" = Ok (mk (mr x) (mr y) (sqdist x y))) by (apply my_cdist_sq; lia).
      assert (C : cdist_sq x y = Ok (mk (mr x) (mr y) (sqdist x y))) by (unfold cdist_sq; rewrite Hx, Hy, Nat.eqb_refl; reflexivity).
      destruct HK; cbn [K_sep K_all K_old]; rewrite ?M, ?C; cbn [rbind]; now rewrite rbf_mk_gen.
    - assert (C : forall ii, ii < D -> cdist_sq (mk (mr x) 1 (fun i _ => get x i ii)) (mk (mr y) 1 (fun i _ => get y i ii)) = Ok (mk (mr x) (mr y) (fun i j => sq1 x y i j ii))).
      { intros ii Hii. unfold cdist_sq. cbn [mk mc mr Nat.eqb]. f_equal. apply mk_ext. intros. now apply sqdist_col_gen. }
      assert (M : forall ii, ii < D -> my_cdist (mk (mr x) 1 (fun i _ => get x i ii)) (mk (mr y) 1 (fun i _ => get y i ii)) (mzeros (mr x) (mr y)) "sqeuclidean" = Ok (mk (mr x) (mr y) (fun i j => sq1 x y i j ii))).
      { intros ii Hii. etransitivity; [apply (my_cdist_sq (mk (mr x) 1 _) (mk (mr y) 1 _)); cbn; lia|]. cbn [mk mr]. f_equal. apply mk_ext. intros. now apply sqdist_col_gen. }
      destruct HK; cbn [K_sep K_all K_old]; rewrite (enumerate_map ls def), Hl;
        apply (rfold_prodf _ (fun i => (i, nth i ls def)) (fun d i j => rbf1 (nth d ls def) (sq1 x y i j d))); intros ii acc Hii.
      + unfold colslice. rewrite Hx, Hy. pose proof Hii as Hb. apply Nat.ltb_lt in Hb. rewrite Hb. rewrite C by auto. cbn [rbind]. now rewrite rbf_mk_gen.
      + rewrite !column_in_gen by lia. cbn [rbind]. rewrite M by auto. cbn [rbind]. now rewrite rbf_mk_gen.
      + rewrite !column_in_gen by lia. cbn [rbind]. rewrite C by auto. cbn [rbind]. now rewrite rbf_mk_gen.
  Qed.
End Gen.

Local Open Scope R_scope.
Section K.
  Context (fexp fsin fcos : double -> double) (fsum : list double -> double).
  #[local] Instance KOps : NumOps double := DoubleOps fexp fsin fcos fsum.

  Lemma rnd_opp x : rnd (- x) = - rnd x.
  Proof. apply (round_NE_opp radix2). Qed.
  (** (a - b)^2 and (b - a)^2 are the same double *)
  Lemma sq_sym (a b : double) : Bmult mode_NE (Bminus mode_NE a b) (Bminus mode_NE a b) = Bmult mode_NE (Bminus mode_NE b a) (Bminus mode_NE b a).
  Proof.
    destruct (is_finite a) eqn:Fa.
    2: { destruct a as [| s | |]; try discriminate; destruct b as [| s' | |]; try reflexivity; destruct s; try destruct s'; reflexivity. }
    destruct (is_finite b) eqn:Fb.
    2: { destruct b as [| s | |]; try discriminate; destruct a as [| s' | |]; try discriminate; try reflexivity; destruct s; reflexivity. }
    pose proof (Bminus_correct 53 1024 _ _ mode_NE a b Fa Fb) as C. pose proof (Bminus_correct 53 1024 _ _ mode_NE b a Fb Fa) as C'.
    replace (B2R b - B2R a) with (- (B2R a - B2R b)) in C' by ring. rewrite rnd_opp, Rabs_Ropp in C'.
    destruct (Rlt_bool _ _).
    - destruct C as (V & F & _), C' as (V' & F' & _). set (p := Bminus mode_NE a b) in *. set (q := Bminus mode_NE b a) in *.
      pose proof (Bmult_correct 53 1024 _ _ mode_NE p p) as M. pose proof (Bmult_correct 53 1024 _ _ mode_NE q q) as M'.
      assert (Q : B2R q * B2R q = B2R p * B2R p) by (rewrite V, V'; ring). rewrite Q in M'. clear Q.
      destruct (Rlt_bool (Rabs (rnd (B2R p * B2R p))) (bpow radix2 1024)).
      + destruct M as (M1 & M2 & M3), M' as (M1' & M2' & M3'). rewrite F in M2. rewrite F' in M2'. cbn [andb] in M2, M2'.
        assert (N : is_nan (Bmult mode_NE p p) = false) by now apply fin_number. assert (N' : is_nan (Bmult mode_NE q q) = false) by now apply fin_number.
        apply B2R_Bsign_inj; auto; [congruence|]. rewrite M3, M3' by auto. now rewrite !xorb_nilpotent.
      + rewrite xorb_nilpotent in M, M'. apply B2SF_inj. congruence.
    - destruct C as (V & _), C' as (V' & _). symmetry in V, V'. apply overflow_inf in V, V'. rewrite V, V'. destruct (Bsign a), (Bsign b); reflexivity.
  Qed.
  Lemma sqdist_sym (x y : mat double) i j : mc x = mc y -> sqdist x y i j = sqdist y x j i.
  Proof. intro H. unfold sqdist. rewrite H. f_equal. apply map_ext. intro d. apply sq_sym. Qed.
  Lemma prodf_ext (F G : nat -> double) D : (forall d, (d < D)%nat -> F d = G d) -> prodf F D = prodf G D.
  Proof. intro H. induction D as [|D IH]; [reflexivity|]. rewrite !prodf_S, IH, H by auto. reflexivity. Qed.

  (** C82.  The kernel matrix is symmetric to the last bit: exchanging the two point sets transposes it, for all doubles (infinities and
      NaN included), every exp and every summation order *)
  Theorem C82_symmetric K D x y l : rbf_kernel K -> d_args D x y l ->
    exists A B, K x y l = Ok A /\ K y x l = Ok B /\ mr A = mr x /\ mc A = mr y /\ mr B = mr y /\ mc B = mr x /\
      forall i j, (i < mr x)%nat -> (j < mr y)%nat -> get B j i = get A i j.
  Proof.
    intros HK (Hx & Hy & Hl). do 2 eexists. split; [apply (kernel_entries K D l dNaN x y HK Hx Hy Hl)|]. split; [apply (kernel_entries K D l dNaN y x HK Hy Hx Hl)|].
    repeat (split; [reflexivity|]). intros i j Hi Hj. rewrite !get_mk by auto. unfold kent. destruct l as [l0|ls].
    - f_equal. apply sqdist_sym. congruence.
    - apply prodf_ext. intros d _. f_equal. unfold sq1. f_equal. f_equal. apply sq_sym.
  Qed.

  (** ** values *)
  Lemma minus_number (a b : double) : finite a -> finite b -> number (Bminus mode_NE a b).
  Proof.
    intros Fa Fb. pose proof (Bminus_correct 53 1024 _ _ mode_NE a b Fa Fb) as C. destruct (Rlt_bool _ _).
    - destruct C as (_ & F & _). now apply fin_number.
    - destruct C as (V & _). symmetry in V. apply overflow_inf in V. now rewrite V.
  Qed.
  Lemma sq_nn (a : double) : number a -> nn (Bmult mode_NE a a).
  Proof.
    intro N. destruct (number_cases a N) as [F | [ -> | -> ]]; [|split; [reflexivity|cbn; pose proof big_pos; lra]|split; [reflexivity|cbn; pose proof big_pos; lra]].
    pose proof (Bmult_correct 53 1024 _ _ mode_NE a a) as M. rewrite xorb_nilpotent in M. destruct (Rlt_bool _ _).
    - destruct M as (V & F' & _). rewrite F in F'. cbn [andb] in F'. split; [now apply fin_number|]. rewrite ext_fin, V by auto. apply rnd_nonneg. apply Rle_0_sqr.
    - symmetry in M. apply overflow_inf in M. rewrite M. split; [reflexivity|cbn; pose proof big_pos; lra].
  Qed.
  Lemma two_ll l : usable l -> let q := nmul (nmul ntwo l) l in finite q /\ 0 < B2R q.
  Proof.
    intros (F & L & U). cbv zeta. unfold ntwo. cbn [nmul nlit KOps DoubleOps]. destruct (nofnat_ex fexp fsin fcos fsum 2 ltac:(cbn; lia)) as (F2 & V2).
    unfold nofnat in F2, V2. cbn [nlit DoubleQueries.QOps DoubleOps Z.of_nat Pos.of_succ_nat Pos.succ INR] in F2, V2. set (two := Bdiv mode_NE (dZ 2) (dZ 1)) in *.
    assert (A : rnd (B2R two * B2R l) = B2R two * B2R l).
    { rewrite V2. replace ((1 + 1) * B2R l) with (B2R l * bpow radix2 1) by (cbn; ring). apply round_generic; [apply valid_rnd_round_mode|].
      apply (mult_bpow_pos_exact_FLT radix2 (-1074) 53 (B2R l) 1 (format l)). lia. }
    pose proof (Bmult_correct 53 1024 _ _ mode_NE two l) as M. rewrite A in M.
    assert (Bd : Rabs (B2R two * B2R l) <= bpow radix2 501).
    { rewrite V2, Rabs_mult. replace (1 + 1) with 2 by ring. rewrite (Rabs_pos_eq 2) by lra. replace (bpow radix2 501) with (2 * bpow radix2 500); [apply Rmult_le_compat_l; lra|]. change 2 with (bpow radix2 1). rewrite <- bpow_plus. reflexivity. }
    rewrite Rlt_bool_true in M. 2: { eapply Rle_lt_trans; [exact Bd|]. apply bpow_lt. lia. }
    destruct M as (V & FM & _). rewrite F2, F in FM. cbn [andb] in FM. set (t := Bmult mode_NE two l) in *.
    pose proof (Bmult_correct 53 1024 _ _ mode_NE t l) as M. rewrite V in M. 
    assert (Lo : bpow radix2 (-1000) <= B2R two * B2R l * B2R l).
    { rewrite V2. replace ((1 + 1) * B2R l * B2R l) with (2 * (Rabs (B2R l) * Rabs (B2R l))). 2: { rewrite <- Rabs_mult, Rabs_pos_eq by apply Rle_0_sqr. ring. }
      assert (bpow radix2 (-1000) <= Rabs (B2R l) * Rabs (B2R l)). { change (-1000)%Z with (-500 + -500)%Z. rewrite bpow_plus. pose proof (bpow_ge_0 radix2 (-500)). apply Rmult_le_compat; auto. }
      pose proof (bpow_ge_0 radix2 (-1000)). lra. }
    assert (Hi : B2R two * B2R l * B2R l <= bpow radix2 1001).
    { eapply Rle_trans; [apply Rle_abs|]. rewrite Rabs_mult. change 1001%Z with (501 + 500)%Z. rewrite bpow_plus. apply Rmult_le_compat; auto using Rabs_pos. }
    pose proof (bpow_gt_0 radix2 (-1000)) as P.
    assert (R1 : bpow radix2 (-1000) <= rnd (B2R two * B2R l * B2R l)).
    { apply round_ge_generic; [apply fexp_correct; reflexivity|apply valid_rnd_round_mode|apply generic_format_bpow; cbn; lia|exact Lo]. }
    assert (R2 : rnd (B2R two * B2R l * B2R l) <= bpow radix2 1001).
    { apply round_le_generic; [apply fexp_correct; reflexivity|apply valid_rnd_round_mode|apply generic_format_bpow; cbn; lia|exact Hi]. }
    rewrite Rlt_bool_true in M. 2: { rewrite Rabs_pos_eq by lra. eapply Rle_lt_trans; [exact R2|]. apply bpow_lt. lia. }
    destruct M as (V' & F' & _). rewrite FM, F in F'. split; [exact F'|]. rewrite V'. lra.
  Qed.
  (** - v / q for v >= 0, q > 0 *)
  Lemma neg_quot (v q : double) : nn v -> finite q -> 0 < B2R q -> dle (Bdiv mode_NE (Bopp v) q) (dZ 0).
  Proof.
    intros Hv Fq Pq. apply dle_ext. change (ext (dZ 0)) with 0. destruct (nn_cases v Hv) as [(F & P) | -> ].
    - pose proof (Bdiv_correct 53 1024 _ _ mode_NE (Bopp v) q ltac:(lra)) as C. rewrite B2R_Bopp, is_finite_Bopp, F in C.
      assert (L : rnd (- B2R v / B2R q) <= 0). { rewrite <- rnd_0. apply rnd_le. unfold Rdiv. assert (0 < / B2R q) by now apply Rinv_0_lt_compat. assert (0 <= B2R v * / B2R q) by (apply Rmult_le_pos; lra). lra. }
      destruct (Rlt_bool_spec (Rabs (rnd (- B2R v / B2R q))) (bpow radix2 1024)) as [B|B].
      + destruct C as (V & F' & _). split; [now apply fin_number|]. split; [reflexivity|]. rewrite ext_fin, V by auto. exact L.
      + destruct (Bsign v) eqn:Sv.
        { exfalso. assert (Z : B2R v = 0) by (pose proof (neg_sign v F Sv); lra).
          rewrite Z in B. unfold Rdiv in B. rewrite Ropp_0, Rmult_0_l, rnd_0, Rabs_R0 in B. pose proof (bpow_gt_0 radix2 1024). lra. }
        assert (Sq : Bsign q = false) by (destruct (Bsign q) eqn:Sq; [pose proof (neg_sign q Fq Sq); lra|reflexivity]).
        assert (So : Bsign (Bopp v) = true). { rewrite Bsign_Bopp by now apply fin_number. now rewrite Sv. }
        rewrite So, Sq in C. symmetry in C. apply overflow_inf in C. rewrite C. split; [reflexivity|]. split; [reflexivity|]. cbn. pose proof big_pos. lra.
    - assert (Bdiv mode_NE (Bopp dinf) q = B754_infinity true) as ->.
      { assert (Sq : Bsign q = false) by (destruct (Bsign q) eqn:Sq; [pose proof (neg_sign q Fq Sq); lra|reflexivity]).
        destruct q as [sq| | |sq m e b]; try discriminate; [change (B2R (B754_zero sq)) with 0 in Pq; lra|]. cbn in Sq. subst sq. reflexivity. }
      split; [reflexivity|]. split; [reflexivity|]. cbn. pose proof big_pos. lra.
  Qed.
  Definition unitv (a : double) : Prop := finite a /\ 0 <= B2R a <= 1.
  Lemma unit_dle a : dle (dZ 0) a -> dle a (dZ 1) -> unitv a.
  Proof.
    intros A B. apply nn_dle in A. destruct dZ1 as (F1 & V1). destruct (nn_cases a A) as [(F & P) | -> ]; [|apply dle_ext in B; destruct B as (_ & _ & B); rewrite (ext_fin _ F1), V1, ext_inf in B; unfold big1024 in B; pose proof (bpow_lt radix2 0 1024 ltac:(lia)); cbn in *; lra].
    split; [exact F|]. apply dle_fin in B; auto. lra.
  Qed.
  Lemma rbf1_unit l v : exp_contract fexp -> usable l -> nn v -> unitv (rbf1 l v).
  Proof.
    intros He Hl Hv. destruct (two_ll l Hl) as (F & P). unfold rbf1. set (q := nmul (nmul ntwo l) l) in *. cbn [nexp ndiv nopp KOps DoubleOps].
    pose proof (neg_quot v q Hv F P) as D. apply unit_dle; [apply He; now apply leb_number in D|now apply He].
  Qed.
  Lemma mult_unit a b : unitv a -> unitv b -> unitv (Bmult mode_NE a b).
  Proof.
    intros (Fa & A) (Fb & B). pose proof (Bmult_correct 53 1024 _ _ mode_NE a b) as M. assert (L : 0 <= B2R a * B2R b <= 1) by nra.
    assert (V1 : rnd 1 = 1). { pose proof (rnd_id (dZ 1)) as I. destruct dZ1 as (_ & V). now rewrite V in I. }
    assert (L' : 0 <= rnd (B2R a * B2R b) <= 1) by (split; [apply rnd_nonneg; lra|rewrite <- V1; apply rnd_le; lra]).
    rewrite Rlt_bool_true in M. 2: { rewrite Rabs_pos_eq by lra. apply Rle_lt_trans with 1; [lra|]. change 1 with (bpow radix2 0). apply bpow_lt. lia. }
    destruct M as (V & F & _). rewrite Fa, Fb in F. split; [exact F|]. rewrite V. exact L'.
  Qed.
  Lemma prodf_unit (F : nat -> double) D : (forall d, (d < D)%nat -> unitv (F d)) -> unitv (prodf F D).
  Proof.
    intro H. induction D as [|D IH]. { destruct dZ1 as (F1 & V1). split; [exact F1|]. change (0 <= B2R (dZ 1) <= 1). rewrite V1. lra. }
    rewrite prodf_S. apply mult_unit; auto.
  Qed.
  Lemma mult_1 : Bmult mode_NE (dZ 1) (dZ 1) = dZ 1.
  Proof. apply B2SF_inj. reflexivity. Qed.
  Lemma rbf1_zero l v : exp_contract fexp -> usable l -> finite v -> B2R v = 0 -> rbf1 l v = dZ 1.
  Proof.
    intros He Hl Fv Vv. destruct (two_ll l Hl) as (F & P). unfold rbf1. set (q := nmul (nmul ntwo l) l) in *. cbn [nexp ndiv nopp KOps DoubleOps].
    destruct (zero_cases v Fv Vv) as (s & ->). assert (exists b, Bdiv mode_NE (Bopp (B754_zero s)) q = B754_zero b) as (b & ->).
    { destruct q as [| | |sq m e bq]; try discriminate; cbn in P; try lra. eexists. reflexivity. }
    apply He.
  Qed.
  Lemma sqs_nn (x y : mat double) i j d : finite (get x i d) -> finite (get y j d) -> nn (nsq (nsub (get x i d) (get y j d))).
  Proof. intros. apply sq_nn. now apply minus_number. Qed.
  Lemma sqdist_nn (x y : mat double) D i j : sum_contract fsum -> mc x = D -> (forall d, (d < D)%nat -> finite (get x i d) /\ finite (get y j d)) -> nn (sqdist x y i j).
  Proof.
    intros Hs <- H. unfold sqdist. cbn [nsum KOps DoubleOps]. eapply (proj1 (tree_nn _ _ (Hs _) _)). Unshelve.
    intros z Hz. apply in_map_iff in Hz. destruct Hz as (d & <- & Hd). apply in_seq in Hd. apply sqs_nn; apply H; lia.
  Qed.
  Lemma sq1_nn (x y : mat double) i j d : sum_contract fsum -> finite (get x i d) -> finite (get y j d) -> nn (sq1 x y i j d).
  Proof.
    intros Hs A B. unfold sq1. cbn [nsum KOps DoubleOps]. eapply (proj1 (tree_nn _ _ (Hs _) _)). Unshelve. intros z [ <- |[]]. now apply sqs_nn.
  Qed.
  Lemma sq_same (a b : double) : finite a -> finite b -> B2R a = B2R b -> finite (nsq (nsub a b)) /\ B2R (nsq (nsub a b)) = 0.
  Proof.
    intros Fa Fb V. unfold nsq. cbn [nsub nmul KOps DoubleOps]. pose proof (Bminus_correct 53 1024 _ _ mode_NE a b Fa Fb) as C. rewrite V in C. replace (B2R b - B2R b) with 0 in C by ring.
    rewrite rnd_0, Rabs_R0, Rlt_bool_true in C by apply bpow_gt_0. destruct C as (C1 & C2 & _). now apply mult_zero.
  Qed.

  (** finite points and usable lengthscales: every entry lies in [0,1], and is exactly 1 for coinciding points *)
  Theorem C82_values K D x y l : sum_contract fsum -> exp_contract fexp -> rbf_kernel K -> d_args D x y l ->
    match l with LScal v => usable v | LVec ls => forall d, (d < D)%nat -> usable (d_scale l d) end ->
    exists A, K x y l = Ok A /\ mr A = mr x /\ mc A = mr y /\
      forall i j, (i < mr x)%nat -> (j < mr y)%nat -> (forall d, (d < D)%nat -> finite (get x i d) /\ finite (get y j d)) ->
        finite (get A i j) /\ 0 <= B2R (get A i j) <= 1 /\
        ((forall d, (d < D)%nat -> B2R (get x i d) = B2R (get y j d)) -> get A i j = dZ 1).
  Proof.
    intros Hs He HK (Hx & Hy & Hl) Hu. eexists. split; [apply (kernel_entries K D l dNaN x y HK Hx Hy Hl)|]. split; [reflexivity|]. split; [reflexivity|].
    intros i j Hi Hj Hf. rewrite get_mk by auto. unfold kent. destruct l as [l0|ls].
    - pose proof (rbf1_unit l0 (sqdist x y i j) He Hu (sqdist_nn x y D i j Hs Hx Hf)) as (A & B). split; [exact A|]. split; [exact B|]. intro Eq.
      assert (Z : finite (sqdist x y i j) /\ B2R (sqdist x y i j) = 0); [|destruct Z; apply rbf1_zero; assumption].
      unfold sqdist. cbn [nsum KOps DoubleOps]. apply (tree_zeros _ _ (Hs _)). intros z Hz. apply in_map_iff in Hz. destruct Hz as (d & <- & Hd). apply in_seq in Hd.
      apply sq_same; try apply Hf; try apply Eq; lia.
    - assert (U : unitv (prodf (fun d => rbf1 (nth d ls dNaN) (sq1 x y i j d)) D)).
      { apply prodf_unit. intros d Hd. apply rbf1_unit; [exact He|exact (Hu d Hd)|]. apply sq1_nn; auto; now apply Hf. }
      destruct U as (A & B). split; [exact A|]. split; [exact B|]. intro Eq.
      assert (G : forall m, (m <= D)%nat -> prodf (fun d => rbf1 (nth d ls dNaN) (sq1 x y i j d)) m = dZ 1).
      { induction m as [|m IH]; intro Hm; [reflexivity|]. rewrite prodf_S, IH by lia. rewrite rbf1_zero; [apply mult_1|exact He|exact (Hu m Hm)| |].
        - unfold sq1. cbn [nsum KOps DoubleOps]. apply (tree_zeros _ _ (Hs _)). intros z [ <- |[]]. apply sq_same; try apply Hf; try apply Eq; lia.
        - unfold sq1. cbn [nsum KOps DoubleOps]. apply (tree_zeros _ _ (Hs _)). intros z [ <- |[]]. apply sq_same; try apply Hf; try apply Eq; lia. }
      now apply G.
  Qed.
  (** ** lengthscales that vanish *)
  Lemma two_ll_tiny l : finite l -> Rabs (B2R l) <= bpow radix2 (-540) -> let q := nmul (nmul ntwo l) l in finite q /\ B2R q = 0.
  Proof.
    intros F U. cbv zeta. unfold ntwo. cbn [nmul nlit KOps DoubleOps]. destruct (nofnat_ex fexp fsin fcos fsum 2 ltac:(cbn; lia)) as (F2 & V2).
    unfold nofnat in F2, V2. cbn [nlit DoubleQueries.QOps DoubleOps Z.of_nat Pos.of_succ_nat Pos.succ INR] in F2, V2. set (two := Bdiv mode_NE (dZ 2) (dZ 1)) in *.
    assert (A : rnd (B2R two * B2R l) = B2R two * B2R l).
    { rewrite V2. replace ((1 + 1) * B2R l) with (B2R l * bpow radix2 1) by (cbn; ring). apply round_generic; [apply valid_rnd_round_mode|].
      apply (mult_bpow_pos_exact_FLT radix2 (-1074) 53 (B2R l) 1 (format l)). lia. }
    pose proof (Bmult_correct 53 1024 _ _ mode_NE two l) as M. rewrite A in M.
    assert (Bd : Rabs (B2R two * B2R l) <= bpow radix2 (-539)).
    { rewrite V2, Rabs_mult. replace (1 + 1) with 2 by ring. rewrite (Rabs_pos_eq 2) by lra. replace (bpow radix2 (-539)) with (2 * bpow radix2 (-540)); [apply Rmult_le_compat_l; lra|]. change 2 with (bpow radix2 1). rewrite <- bpow_plus. reflexivity. }
    rewrite Rlt_bool_true in M. 2: { eapply Rle_lt_trans; [exact Bd|]. apply bpow_lt. lia. }
    destruct M as (V & FM & _). rewrite F2, F in FM. cbn [andb] in FM. set (t := Bmult mode_NE two l) in *.
    pose proof (Bmult_correct 53 1024 _ _ mode_NE t l) as M. rewrite V in M.
    assert (Z : rnd (B2R two * B2R l * B2R l) = 0).
    { apply rnd_tiny. split.
      - rewrite V2. replace ((1 + 1) * B2R l * B2R l) with (2 * (B2R l * B2R l)) by ring. pose proof (Rle_0_sqr (B2R l)) as Q. unfold Rsqr in Q. lra.
      - eapply Rle_trans; [apply Rle_abs|]. rewrite Rabs_mult. apply Rle_trans with (bpow radix2 (-539 + -540)); [rewrite bpow_plus; apply Rmult_le_compat; auto using Rabs_pos|apply bpow_le; lia]. }
    rewrite Z, Rabs_R0, Rlt_bool_true in M by apply bpow_gt_0. destruct M as (V' & F' & _). rewrite FM, F in F'. split; [exact F'|exact V'].
  Qed.
  Lemma rbf1_nan l v : fexp dNaN = dNaN -> finite l -> Rabs (B2R l) <= bpow radix2 (-540) -> finite v -> B2R v = 0 -> rbf1 l v = dNaN.
  Proof.
    intros He Fl Hl Fv Vv. destruct (two_ll_tiny l Fl Hl) as (F & P). unfold rbf1. set (q := nmul (nmul ntwo l) l) in *. cbn [nexp ndiv nopp KOps DoubleOps].
    rewrite div_zero; [exact He|unfold finite; now rewrite is_finite_Bopp|rewrite B2R_Bopp, Vv; apply Ropp_0|exact F|exact P].
  Qed.
  Lemma mult_nan_r (x : double) : Bmult mode_NE x dNaN = dNaN. Proof. now destruct x. Qed.
  Lemma prodf_nan (F : nat -> double) D d : (d < D)%nat -> F d = dNaN -> prodf F D = dNaN.
  Proof.
    intros Hd H. induction D as [|D IH]; [lia|]. rewrite prodf_S. destruct (Nat.eq_dec d D) as [ <- |N].
    - rewrite H. apply mult_nan_r.
    - rewrite IH by lia. reflexivity.
  Qed.
  (** a lengthscale that is zero (or so small that its square underflows) makes the kernel NaN at coinciding points: for a vector of
      lengthscales it is enough that the coordinate with the vanishing lengthscale coincides.  In particular the diagonal of the kernel
      matrix of the inducing points is NaN *)
  Theorem C82_vanishing_lengthscale K D x y l : sum_contract fsum -> exp_contract fexp -> rbf_kernel K -> d_args D x y l ->
    exists A, K x y l = Ok A /\ mr A = mr x /\ mc A = mr y /\
      forall i j, (i < mr x)%nat -> (j < mr y)%nat ->
        match l with
        | LScal v => finite v -> Rabs (B2R v) <= bpow radix2 (-540) ->
            (forall d, (d < D)%nat -> finite (get x i d) /\ finite (get y j d) /\ B2R (get x i d) = B2R (get y j d)) -> get A i j = dNaN
        | LVec ls => forall d, (d < D)%nat -> finite (nth d ls dNaN) -> Rabs (B2R (nth d ls dNaN)) <= bpow radix2 (-540) ->
            finite (get x i d) /\ finite (get y j d) /\ B2R (get x i d) = B2R (get y j d) -> get A i j = dNaN
        end.
  Proof.
    intros Hs He HK (Hx & Hy & Hl). eexists. split; [apply (kernel_entries K D l dNaN x y HK Hx Hy Hl)|]. split; [reflexivity|]. split; [reflexivity|].
    intros i j Hi Hj. rewrite get_mk by auto. unfold kent. destruct l as [l0|ls].
    - intros Fl Tl Eq. assert (Z : finite (sqdist x y i j) /\ B2R (sqdist x y i j) = 0).
      { unfold sqdist. cbn [nsum KOps DoubleOps]. apply (tree_zeros _ _ (Hs _)). intros z Hz. apply in_map_iff in Hz. destruct Hz as (d & <- & Hd). apply in_seq in Hd.
        apply sq_same; apply Eq; lia. }
      destruct Z. apply rbf1_nan; try assumption; now apply ex_nan.
    - intros d Hd Fl Tl (Fx & Fy & Eq). apply (prodf_nan _ D d Hd).
      assert (Z : finite (sq1 x y i j d) /\ B2R (sq1 x y i j d) = 0).
      { unfold sq1. cbn [nsum KOps DoubleOps]. apply (tree_zeros _ _ (Hs _)). intros z [ <- |[]]. apply sq_same; assumption. }
      destruct Z. apply rbf1_nan; try assumption; now apply ex_nan.
  Qed.

  (** ** the pytorch kernel (default signal variance 1.0) *)
  Lemma ll l : usable l -> finite (nsq l) /\ 0 < B2R (nsq l).
  Proof.
    intros (F & L & U). unfold nsq. cbn [nmul KOps DoubleOps]. pose proof (Bmult_correct 53 1024 _ _ mode_NE l l) as M.
    assert (Q : B2R l * B2R l = Rabs (B2R l) * Rabs (B2R l)) by (rewrite <- Rabs_mult, Rabs_pos_eq by apply Rle_0_sqr; ring).
    assert (Lo : bpow radix2 (-1000) <= B2R l * B2R l). { rewrite Q. change (-1000)%Z with (-500 + -500)%Z. rewrite bpow_plus. pose proof (bpow_ge_0 radix2 (-500)). apply Rmult_le_compat; auto. }
    assert (Hi : B2R l * B2R l <= bpow radix2 1000). { rewrite Q. change 1000%Z with (500 + 500)%Z. rewrite bpow_plus. apply Rmult_le_compat; auto using Rabs_pos. }
    pose proof (bpow_gt_0 radix2 (-1000)) as P.
    assert (R1 : bpow radix2 (-1000) <= rnd (B2R l * B2R l)).
    { apply round_ge_generic; [apply fexp_correct; reflexivity|apply valid_rnd_round_mode|apply generic_format_bpow; cbn; lia|exact Lo]. }
    rewrite rnd_small in M. 2: { rewrite Rabs_pos_eq by lra. exact Hi. }
    destruct M as (V' & F' & _). rewrite F in F'. split; [exact F'|]. rewrite V'. lra.
  Qed.
  Lemma quot_nn (v q : double) : nn v -> finite q -> 0 < B2R q -> nn (Bdiv mode_NE v q) /\ (finite v -> B2R v = 0 -> finite (Bdiv mode_NE v q) /\ B2R (Bdiv mode_NE v q) = 0).
  Proof.
    intros Hv Fq Pq. split.
    - pose proof (neg_quot v q Hv Fq Pq) as N. assert (E : Bdiv mode_NE (Bopp v) q = Bopp (Bdiv mode_NE v q)).
      { clear N. destruct (nn_cases v Hv) as [(F & P) | -> ].
        2: { destruct q as [| | |sq m e b]; try discriminate; [change (B2R (B754_zero s)) with 0 in Pq; lra|]. destruct sq; reflexivity. }
        pose proof (Bdiv_correct 53 1024 _ _ mode_NE v q ltac:(lra)) as C. pose proof (Bdiv_correct 53 1024 _ _ mode_NE (Bopp v) q ltac:(lra)) as C'.
        rewrite B2R_Bopp, is_finite_Bopp, F in C'. rewrite F in C. replace (- B2R v / B2R q) with (- (B2R v / B2R q)) in C' by (field; lra). rewrite rnd_opp, Rabs_Ropp in C'.
        destruct (Rlt_bool _ _).
        - destruct C as (V & F1 & S), C' as (V' & F1' & S'). apply B2R_Bsign_inj; [auto|now rewrite is_finite_Bopp|rewrite B2R_Bopp; congruence|].
          rewrite S' by now apply fin_number. rewrite !Bsign_Bopp by (now apply fin_number). rewrite S by now apply fin_number. now destruct (Bsign v), (Bsign q).
        - symmetry in C, C'. apply overflow_inf in C, C'. rewrite C, C'. rewrite Bsign_Bopp by now apply fin_number. cbn [Bopp]. now destruct (Bsign v), (Bsign q). }
      rewrite E in N. apply dle_ext in N. destruct N as (N1 & _ & N2). change (ext (dZ 0)) with 0 in N2.
      destruct (Bdiv mode_NE v q) as [s0|s0| |s0 m e b]; try discriminate; (split; [reflexivity|]); cbn [Bopp ext] in N2 |- *.
      + change (0 <= 0). lra.
      + pose proof big_pos. destruct s0; cbn [negb] in *; lra.
      + change (B754_finite (negb s0) m e b) with (Bopp (B754_finite s0 m e b)) in N2. rewrite B2R_Bopp in N2. lra.
    - intros F V. pose proof (Bdiv_correct 53 1024 _ _ mode_NE v q ltac:(lra)) as C. rewrite V in C. unfold Rdiv in C. rewrite Rmult_0_l, rnd_0, Rabs_R0, Rlt_bool_true in C by apply bpow_gt_0.
      destruct C as (C1 & C2 & _). rewrite F in C2. auto.
  Qed.
  Lemma half_spec : finite (nlit (-1) 2) /\ B2R (nlit (-1) 2) = - / 2 /\ exists m e b, nlit (-1) 2 = B754_finite true m e b.
  Proof.
    cbn [nlit KOps DoubleOps]. destruct (dZ_exact (-1) ltac:(cbn; lia)) as (A1 & V1). destruct (dZ_exact 2 ltac:(cbn; lia)) as (A2 & V2).
    pose proof (Bdiv_correct 53 1024 _ _ mode_NE (dZ (-1)) (dZ 2) ltac:(rewrite V2; lra)) as C. rewrite V1, V2 in C.
    assert (Q : rnd (-1 / 2) = - / 2). { replace (-1 / 2) with (- bpow radix2 (-1)) by (cbn; lra). rewrite rnd_opp. replace (/ 2) with (bpow radix2 (-1)) by (cbn; lra). f_equal. apply round_generic; [apply valid_rnd_round_mode|]. apply generic_format_bpow. cbn. lia. }
    rewrite Q, Rlt_bool_true in C. 2: { rewrite Rabs_Ropp, Rabs_pos_eq by lra. apply Rlt_trans with 1; [lra|]. change 1 with (bpow radix2 0). apply bpow_lt. lia. }
    destruct C as (C1 & C2 & _). rewrite A1 in C2. split; [exact C2|]. split; [exact C1|].
    set (h := Bdiv mode_NE (dZ (-1)) (dZ 2)) in *. destruct h as [s0|s0| |[|] m e b]; try discriminate; [change (B2R (B754_zero s0)) with 0 in C1; lra|eauto|].
    exfalso. change (F2R (Float radix2 (Zpos m) e) = - / 2) in C1. pose proof (F2R_gt_0 radix2 (Float radix2 (Zpos m) e) ltac:(cbn; lia)). lra.
  Qed.
  Lemma half_neg v : nn v -> dle (nmul (nlit (-1) 2) v) (dZ 0) /\ (finite v -> B2R v = 0 -> exists s, nmul (nlit (-1) 2) v = B754_zero s).
  Proof.
    intro Hv. destruct half_spec as (F & V & m & e & b & E). set (h := nlit (-1) 2) in *. cbn [nmul KOps DoubleOps]. split.
    - apply dle_ext. change (ext (dZ 0)) with 0. destruct (nn_cases v Hv) as [(Fv & P) | -> ].
      2: { rewrite E. split; [reflexivity|]. split; [reflexivity|]. change (- big1024 <= 0). pose proof big_pos. lra. }
      pose proof (Bmult_correct 53 1024 _ _ mode_NE h v) as C. rewrite V, F, Fv in C.
      assert (L : rnd (- / 2 * B2R v) <= 0) by (rewrite <- rnd_0; apply rnd_le; lra).
      rewrite Rlt_bool_true in C.
      + destruct C as (C1 & C2 & _). split; [now apply fin_number|]. split; [reflexivity|]. rewrite ext_fin, C1 by auto. exact L.
      + apply Rle_lt_trans with (B2R v); [|apply fin_lt]. apply Rabs_le. split; [|lra]. pose proof (rnd_le (- B2R v) (- / 2 * B2R v) ltac:(lra)) as Q. rewrite rnd_opp, rnd_id in Q. lra.
    - intros Fv Vv. destruct (zero_cases v Fv Vv) as (s & ->). rewrite E. eexists. reflexivity.
  Qed.
  Lemma exp_half v : exp_contract fexp -> nn v -> unitv (nexp (nmul (nlit (-1) 2) v)) /\ (finite v -> B2R v = 0 -> nexp (nmul (nlit (-1) 2) v) = dZ 1).
  Proof.
    intros He Hv. destruct (half_neg v Hv) as (D & Z). change (nexp (NumOps := KOps)) with fexp. split.
    - apply unit_dle; [apply He; apply leb_number in D; apply D|apply He; exact D].
    - intros F V. destruct (Z F V) as (s & ->). apply He.
  Qed.
  Lemma smul_1 (x : double) : unitv x -> unitv (nmul (dZ 1) x).
  Proof. intro H. apply mult_unit; auto. destruct dZ1 as (F & V). split; [exact F|]. rewrite V. lra. Qed.
  Theorem C82_torch_values D x y l : sum_contract fsum -> exp_contract fexp -> d_args D x y l ->
    match l with LScal v => usable v | LVec ls => forall d, (d < D)%nat -> usable (d_scale l d) end ->
    exists o A o' B o'', RBF_init l (dZ 1) (match l with LVec _ => true | _ => false end) = Ok o /\
      RBF_Kernel o x y = Ok (A, o') /\ RBF_Kernel o y x = Ok (B, o'') /\ mr A = mr x /\ mc A = mr y /\
      forall i j, (i < mr x)%nat -> (j < mr y)%nat -> get B j i = get A i j /\
        ((forall d, (d < D)%nat -> finite (get x i d) /\ finite (get y j d)) ->
         finite (get A i j) /\ 0 <= B2R (get A i j) <= 1 /\
         ((forall d, (d < D)%nat -> B2R (get x i d) = B2R (get y j d)) -> get A i j = dZ 1)).
  Proof.
    intros Hs He (Hx & Hy & Hl) Hu.
    assert (HR : RBF_init l (dZ 1) (match l with LVec _ => true | _ => false end) = Ok {| rb_l := l; rb_multil := (match l with LVec _ => true | _ => false end); rb_sv := dZ 1; rb_K := None |}) by now destruct l.
    set (ent := fun (x y : mat double) i j => nexp (nmul (nlit (-1) 2) match l with
        | LScal l0 => ndiv (nsum (map (fun k => nsq (nsub (get x i k) (get y j k))) (seq 0 D))) (nsq l0)
        | LVec ls => nsum (map (fun k => ndiv (nsq (nsub (get x i k) (get y j k))) (nsq (nth k ls dNaN))) (seq 0 D)) end)).
    assert (HK : forall x y, mc x = D -> mc y = D -> rbf_kvals (match l with LVec _ => true | _ => false end) l x y = Ok (mk (mr x) (mr y) (ent x y))).
    { intros a b Ha Hb. replace (rbf_kvals _ l a b) with (rbf_vals l a b) by now destruct l. unfold rbf_vals. rewrite Ha, Hb, bok_refl, bdim_refl.
      assert (DF : forall i j d, (d < D)%nat -> diff3 a b i j d = nsub (get a i d) (get b j d)) by (intros; unfold diff3; now rewrite !bidx_lt by lia).
      unfold ent. destruct l as [l0|ls]; cbn [andb].
      - f_equal. apply mk_ext. intros i j _ _. do 4 f_equal. apply map_ext_in. intros d Hd. apply in_seq in Hd. now rewrite DF by lia.
      - rewrite Hl, bok_refl, bdim_refl. f_equal. apply mk_ext. intros i j _ _. do 3 f_equal. apply map_ext_in. intros d Hd. apply in_seq in Hd. rewrite !bidx_lt by lia. rewrite DF by lia. rewrite (nth_indep ls nzero dNaN) by lia. reflexivity. }
    eexists. exists (smul (dZ 1) (mk (mr x) (mr y) (ent x y))). eexists. exists (smul (dZ 1) (mk (mr y) (mr x) (ent y x))). eexists.
    split; [exact HR|]. unfold RBF_Kernel. cbn [rb_l rb_sv rb_multil]. rewrite (HK x y), (HK y x) by auto. cbn [rbind]. split; [reflexivity|]. split; [reflexivity|].
    split; [reflexivity|]. split; [reflexivity|]. intros i j Hi Hj. unfold smul. rewrite !mmap1_mk, !get_mk by auto. split.
    { f_equal. unfold ent. do 2 f_equal. destruct l as [l0|ls]; [do 2 f_equal|f_equal]; apply map_ext; intro d; [|f_equal]; apply sq_sym. }
    intro Hf. assert (N : forall d, (d < D)%nat -> nn (nsq (nsub (get x i d) (get y j d)))) by (intros d Hd; apply sqs_nn; now apply Hf).
    assert (V : exists v, ent x y i j = nexp (nmul (nlit (-1) 2) v) /\ nn v /\ ((forall d, (d < D)%nat -> B2R (get x i d) = B2R (get y j d)) -> finite v /\ B2R v = 0)).
    { unfold ent. eexists. split; [reflexivity|]. destruct l as [l0|ls].
      - destruct (ll l0 Hu) as (Fq & Pq). set (q := nsq l0) in *. set (S := nsum (map (fun k => nsq (nsub (get x i k) (get y j k))) (seq 0 D))).
        assert (NS : nn S). { unfold S. cbn [nsum KOps DoubleOps]. eapply (proj1 (tree_nn _ _ (Hs _) _)). Unshelve. intros z Hz. apply in_map_iff in Hz. destruct Hz as (d & <- & Hd). apply in_seq in Hd. apply N; lia. }
        destruct (quot_nn S q NS Fq Pq) as (Q1 & Q2). split; [exact Q1|]. intro Eq.
        assert (Z : finite S /\ B2R S = 0). { unfold S. cbn [nsum KOps DoubleOps]. apply (tree_zeros _ _ (Hs _)). intros z Hz. apply in_map_iff in Hz. destruct Hz as (d & <- & Hd). apply in_seq in Hd. apply sq_same; try apply Hf; try apply Eq; lia. }
        destruct Z. apply Q2; assumption.
      - assert (Hq : forall d, (d < D)%nat -> finite (nsq (nth d ls dNaN)) /\ 0 < B2R (nsq (nth d ls dNaN))) by (intros d Hd; apply ll; exact (Hu d Hd)).
        split.
        + cbn [nsum KOps DoubleOps]. eapply (proj1 (tree_nn _ _ (Hs _) _)). Unshelve. intros z Hz. apply in_map_iff in Hz. destruct Hz as (d & <- & Hd). apply in_seq in Hd.
          destruct (Hq d ltac:(lia)) as (Fq & Pq). apply (quot_nn _ _ (N d ltac:(lia)) Fq Pq).
        + intro Eq. cbn [nsum KOps DoubleOps]. apply (tree_zeros _ _ (Hs _)). intros z Hz. apply in_map_iff in Hz. destruct Hz as (d & <- & Hd). apply in_seq in Hd.
          destruct (Hq d ltac:(lia)) as (Fq & Pq). apply (quot_nn _ _ (N d ltac:(lia)) Fq Pq); apply sq_same; try apply Hf; try apply Eq; lia. }
    destruct V as (v & -> & Nv & Zv). destruct (exp_half v He Nv) as (U & One). destruct (smul_1 _ U) as (A & B). split; [exact A|]. split; [exact B|].
    intro Eq. destruct (Zv Eq) as (F & V). rewrite (One F V). apply mult_1.
  Qed.
End K.
