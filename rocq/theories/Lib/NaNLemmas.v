(** Propagation of NaN through sums, products, kernels and estimators (no modelling content). *)
From Coq Require Import String List ZArith Reals Bool Lia Lra Permutation.
From Flocq Require Import Core BinarySingleNaN.
From Verif Require Import Base.Num Base.Py Base.Arr Lib.ArrLemmas Model.Ext Model.Cdist Model.Score Lib.ScoreLemmas Run.Double Spec.DoubleSpec.
From Verif Require Import Lib.DoubleLemmas Props.CdistProps Props.DoubleQueries Props.DoubleKernels.
Import ListNotations.
Local Open Scope nat_scope.

Lemma tree_nan l s : tree_sum l s -> In dNaN l -> s = dNaN.
Proof.
  induction 1 as [|x|l l1 l2 x y P T1 IH1 T2 IH2]; intro H; [destruct H|destruct H as [H|[]]; exact H|].
  apply (Permutation_in _ P) in H. apply in_app_or in H. destruct H as [H|H].
  - rewrite IH1 by auto. reflexivity.
  - rewrite IH2 by auto. now destruct x.
Qed.
Lemma mul_nan_r (x : double) : Bmult mode_NE x dNaN = dNaN. Proof. now destruct x. Qed.
Lemma div_nan_r (x : double) : Bdiv mode_NE x dNaN = dNaN. Proof. now destruct x. Qed.
Lemma add_nan_r (x : double) : Bplus mode_NE x dNaN = dNaN. Proof. now destruct x. Qed.
Lemma sub_nan_r (x : double) : Bminus mode_NE x dNaN = dNaN. Proof. now destruct x. Qed.

Section N.
  Context (fexp fsin fcos : double -> double) (fsum : list double -> double).
  #[local] Instance NOps : NumOps double := DoubleOps fexp fsin fcos fsum.
  Context (Hs : sum_contract fsum) (He : fexp dNaN = dNaN).
  Notation mat := (mat double).

  Lemma fsum_nan l : In dNaN l -> nsum l = dNaN.
  Proof. intro H. apply (tree_nan _ _ (Hs l) H). Qed.

  (** means and standard deviations *)
  Lemma mean_nan l : In dNaN l -> nmean l = dNaN.
  Proof. intro H. unfold nmean. rewrite fsum_nan by auto. reflexivity. Qed.
  Lemma ssd_nan l : In dNaN l -> ssd l = dNaN.
  Proof.
    intro H. unfold ssd. apply fsum_nan. apply in_map_iff. exists dNaN. split; [reflexivity|exact H].
  Qed.
  Lemma std_nan l : In dNaN l -> nstd l = dNaN.
  Proof. intro H. unfold nstd. rewrite ssd_nan by auto. reflexivity. Qed.
  Lemma tstd_nan l : In dNaN l -> tstd l = dNaN.
  Proof. intro H. unfold tstd. rewrite ssd_nan by auto. reflexivity. Qed.
  Lemma row_has_nan (x : mat) d : has_nan x d -> In dNaN (row x d).
  Proof. intros (n & Hn & Q). apply (in_row fexp fsin fcos fsum x d dNaN). eauto. Qed.

  (** kernels *)
  Lemma rbf1_nan_l (v : double) : rbf1 dNaN v = dNaN.
  Proof. unfold rbf1. cbn [nexp ndiv nopp nmul NOps DoubleOps]. rewrite !mul_nan_r, div_nan_r. exact He. Qed.
  Lemma rbf1_nan_v (l : double) : rbf1 l dNaN = dNaN.
  Proof. unfold rbf1. cbn [nexp ndiv nopp nmul NOps DoubleOps]. change (Bdiv mode_NE (Bopp dNaN) ?z) with dNaN. exact He. Qed.
  Lemma sq1_nan (x y : mat) i j d : get x i d = dNaN -> sq1 x y i j d = dNaN.
  Proof. intro H. unfold sq1. apply fsum_nan. left. unfold nsq. rewrite H. reflexivity. Qed.
  Lemma prodf_nan (F : nat -> double) D d : d < D -> F d = dNaN -> prodf F D = dNaN.
  Proof.
    induction D as [|D IH]; [lia|]. intros Hd H. rewrite prodf_S. destruct (Nat.eq_dec d D) as [ -> |]; [rewrite H; apply mul_nan_r|]. rewrite IH by (auto; lia). reflexivity.
  Qed.
  (** a NaN lengthscale makes every entry NaN *)
  Lemma K_nan_scale D (x y : mat) ls d A : mc x = D -> mc y = D -> List.length ls = D -> d < D -> nth d ls dNaN = dNaN -> K_sep x y (LVec ls) = Ok A ->
    mr A = mr x /\ mc A = mr y /\ forall i j, i < mr x -> j < mr y -> get A i j = dNaN.
  Proof.
    intros Hx Hy Hl Hd H HK. rewrite (kernel_entries K_sep D (LVec ls) dNaN x y rk_separate Hx Hy Hl) in HK. injection HK as <-. split; [reflexivity|]. split; [reflexivity|].
    intros i j Hi Hj. rewrite get_mk by auto. apply (prodf_nan _ D d Hd). rewrite H. apply rbf1_nan_l.
  Qed.
  (** the kernel of the returned function: a row with a NaN coordinate, or a NaN lengthscale *)
  Definition nan_at (A : mat) i : Prop := forall j, j < mc A -> get A i j = dNaN.
  Lemma nan_bc2 (A B C : mat) r c i : is A r c -> is B r c -> bc2 nmul A B = Ok C -> i < r -> nan_at A i \/ nan_at B i -> nan_at C i.
  Proof.
    intros (_ & RA & CA) (_ & RB & CB) H Hi HH. apply bc2_ok in H. destruct H as (_ & _ & _ & R & Cc & G). rewrite RA, RB, bdim_refl in R. rewrite CA, CB, bdim_refl in Cc.
    intros j Hj. rewrite G by lia. rewrite !bget_in by lia. cbn [nmul NOps DoubleOps]. destruct HH as [HH|HH].
    - rewrite (HH j) by lia. reflexivity.
    - rewrite (HH j) by lia. apply mul_nan_r.
  Qed.
  Lemma Ksz_nan_factor Zp ls (x : mat) A i d : Ksz_vec Zp ls x = Ok A -> i < mr x -> d < mc x ->
    (forall li j, pyget ls (Z.of_nat d) = Ok li -> j < mr Zp -> rbf1 li (sq1 x Zp i j d) = dNaN) -> is A (mr x) (mr Zp) /\ nan_at A i.
  Proof.
    intros H Hi Hd Hn. unfold Ksz_vec in H. invok. destruct a as [|f0 fr]; [discriminate|]. apply rmapM_ok in E. destruct E as (Hl & Hf). rewrite seq_length in Hl.
    assert (Hall : forall t f, nth_error (f0 :: fr) t = Some f -> is f (mr x) (mr Zp) /\ (t = d -> nan_at f i)).
    { intros t f Hft. assert (Ht : t < mc x) by (rewrite <- Hl; apply nth_error_Some; congruence).
      destruct (Hf t t) as (b & Hb & Q). { rewrite (nth_error_nth' _ 0) by (rewrite seq_length; lia). rewrite seq_nth by lia. reflexivity. }
      assert (b = f) by congruence. subst b. apply rbind_ok in Q; destruct Q as (cx & E & Q); apply rbind_ok in Q; destruct Q as (cz & E0 & Q); apply rbind_ok in Q; destruct Q as (sq & E1 & Q); apply rbind_ok in Q; destruct Q as (li & E2 & Q). injection Q as <-.
      pose proof E as E'. pose proof E0 as E0'. apply is_column in E', E0'. destruct E' as (_ & R1 & C1), E0' as (_ & R2 & C2). pose proof E1 as E1'. apply is_cdist_sq in E1'. rewrite R1, R2 in E1'. split; [now apply is_rbf|].
      intros ->. intros j Hj. assert (Hj' : j < mr Zp) by (destruct E1' as (_ & _ & Q); cbn in Hj; lia).
      unfold cdist_sq in E1. rewrite C1, C2 in E1. cbn [Nat.eqb] in E1. injection E1 as <-. rewrite rbf_mk_gen, get_mk by lia.
      assert (Q : sqdist cx cz i j = sq1 x Zp i j d).
      { unfold sqdist, sq1. rewrite C1. unfold column in E, E0. destruct (d <? mc x); [|discriminate]. destruct (d <? mc Zp); [|discriminate]. injection E as <-. injection E0 as <-. cbn [seq map]. rewrite !get_mk by lia. reflexivity. }
      etransitivity; [apply f_equal; exact Q|]. now apply Hn. }
    clear Hf.
    assert (K : forall fr f0, is f0 (mr x) (mr Zp) -> (forall f, In f fr -> is f (mr x) (mr Zp)) -> (nan_at f0 i \/ exists f, In f fr /\ nan_at f i) -> rfold (fun acc f => bc2 nmul acc f) fr f0 = Ok A -> is A (mr x) (mr Zp) /\ nan_at A i).
    { clear -Hi. intro fr. induction fr as [|f fr IH]; cbn [rfold]; intros f0 I0 If Hn H. { injection H as <-. split; [exact I0|]. destruct Hn as [Hn|(f & [] & _)]. exact Hn. }
      invok. apply (IH a); [eapply is_bc2; [exact I0| |exact E]; apply If; now left|intros g Hg; apply If; now right| |exact H].
      destruct Hn as [Hn|(g & [ <- |Hg] & Hn)]; [left|left|right; eauto]; apply (nan_bc2 _ _ _ _ _ i I0 (If f (or_introl eq_refl)) E Hi); auto. }
    apply (K fr f0); [now apply (Hall 0)| | |exact H].
    - intros f Hf'. apply In_nth_error in Hf'. destruct Hf' as (t & Ht). now apply (Hall (Datatypes.S t)).
    - destruct d as [|d]; [left; now apply (Hall 0 f0)|]. right. cbn [List.length] in Hl. exists (nth d fr f0). split; [apply nth_In; lia|]. apply (Hall (Datatypes.S d)); [|reflexivity]. cbn. apply nth_error_nth'. lia.
  Qed.
  Lemma Ksz_nan Zp l (x : mat) A i d : Ksz Zp (LVec l) x = Ok A -> i < mr x -> d < mc x -> get x i d = dNaN \/ pyget l (Z.of_nat d) = Ok dNaN -> is A (mr x) (mr Zp) /\ nan_at A i.
  Proof.
    intros H Hi Hd Hn. apply (Ksz_nan_factor Zp l x A i d H Hi Hd). intros li j Hli Hj. destruct Hn as [Hn|Hn].
    - rewrite sq1_nan by auto. apply rbf1_nan_v.
    - assert (li = dNaN) as -> by congruence. apply rbf1_nan_l.
  Qed.
  Lemma Ksz_zero Zp l (x : mat) A i d li : Ksz Zp (LVec l) x = Ok A -> i < mr x -> d < mc x -> pyget l (Z.of_nat d) = Ok li -> finite li -> B2R li = 0%R ->
    (forall j, j < mr Zp -> finite (get x i d) /\ finite (get Zp j d) /\ B2R (get x i d) = B2R (get Zp j d)) -> is A (mr x) (mr Zp) /\ nan_at A i.
  Proof.
    intros H Hi Hd Hl Fl Vl He'. apply (Ksz_nan_factor Zp l x A i d H Hi Hd). intros li' j Hli Hj. assert (li' = li) as -> by congruence. destruct (He' j Hj) as (F & F' & Q).
    assert (Z : finite (sq1 x Zp i j d) /\ B2R (sq1 x Zp i j d) = 0%R).
    { unfold sq1. apply (tree_zeros _ _ (Hs _)). intros z [ <- |[]]. apply sq_same; auto. }
    destruct Z. apply (rbf1_nan fexp fsin fcos fsum); try assumption. rewrite Vl, Rabs_R0. apply bpow_ge_0.
  Qed.

  (** matrix products *)
  Lemma mmul_nan (A B C : mat) i : mmul A B = Ok C -> i < mr A -> 1 <= mc A -> nan_at A i -> nan_at C i.
  Proof.
    intros H Hi H1 Hn. apply mmul_ok in H. destruct H as (_ & _ & _ & Cc & G). intros j Hj. rewrite G by lia. apply fsum_nan. apply in_map_iff. exists 0. split; [|apply in_seq; lia]. rewrite (Hn 0) by lia. reflexivity.
  Qed.
  Context {S : Type} (X : Ext double S).
  Lemma inv_square (A B : mat) : linalg_inv X A = Ok B -> mc B = mr B.
  Proof. unfold linalg_inv. destruct (_ =? _); [|discriminate]. destruct (x_inv X A); [|discriminate]. intro H. injection H as <-. reflexivity. Qed.
  Lemma reg_inv_square K m (B : mat) : reg_inv X K m = Ok B -> mc B = mr B.
  Proof. unfold reg_inv. intro H. invok. eapply inv_square; eauto. Qed.
  Lemma inner_square C m K A (B : mat) : inner_inv X C m K A = Ok B -> mc B = mr B.
  Proof. unfold inner_inv. intro H. invok. eapply inv_square; eauto. Qed.
  Lemma nan_opp (A : mat) i : i < mr A -> nan_at A i -> nan_at (mopp A) i.
  Proof. intros Hi H j Hj. cbn in Hj. unfold mopp, mmap1. rewrite get_mk by auto. rewrite H by auto. reflexivity. Qed.
  (** a NaN row of the kernel gives a NaN entry of the estimate *)
  Lemma eval_fun_nan Kf C m Ks A s x k R i : eval_fun X Kf C m Ks A s x = Ok R -> Kf x = Ok k -> i < mr k -> 1 <= mc k -> mc Ks = mr Ks -> nan_at k i -> mr R = mr k /\ mc R = mc s /\ nan_at R i.
  Proof.
    unfold eval_fun. intros H Hk Hi H1 Hsq Hn. rewrite Hk in H. cbn [rbind] in H. apply rbind_ok in H. destruct H as (inn & Hi' & H). apply rbind_ok in H. destruct H as (a & Ha & H). apply rbind_ok in H. destruct H as (b & Hb & H).
    pose proof (inner_square _ _ _ _ _ Hi') as Sq. pose proof (mmul_nan _ _ _ i Ha Hi H1 Hn) as N1. pose proof (mmul_ok _ _ _ Ha) as (M1 & _ & Ra & Ca & _). cbn in M1, Ca.
    pose proof (mmul_ok _ _ _ Hb) as (M2 & _ & Rb & Cb & _). pose proof (mmul_nan _ _ _ i Hb ltac:(lia) ltac:(lia) N1) as N2. pose proof (mmul_ok _ _ _ H) as (M3 & _ & Rc & Cc & _). split; [lia|]. split; [lia|]. apply (mmul_nan _ _ _ i H); [lia|lia|exact N2].
  Qed.
  Lemma eval_at_nan k C m Ks A s R i : eval_at_samples X C m k Ks A s = Ok R -> i < mr k -> 1 <= mc k -> mc Ks = mr Ks -> nan_at k i -> mr R = mr k /\ mc R = mc s /\ nan_at R i.
  Proof.
    unfold eval_at_samples. intros H Hi H1 Hsq Hn. apply rbind_ok in H. destruct H as (inn & Hi' & H). apply rbind_ok in H. destruct H as (a & Ha & H). apply rbind_ok in H. destruct H as (b & Hb & H).
    pose proof (inner_square _ _ _ _ _ Hi') as Sq. pose proof (mmul_nan _ _ _ i Ha Hi H1 (nan_opp k i Hi Hn)) as N1. pose proof (mmul_ok _ _ _ Ha) as (M1 & _ & Ra & Ca & _). cbn in M1, Ra.
    pose proof (mmul_ok _ _ _ Hb) as (M2 & _ & Rb & Cb & _). pose proof (mmul_nan _ _ _ i Hb ltac:(lia) ltac:(lia) N1) as N2. pose proof (mmul_ok _ _ _ H) as (M3 & _ & Rc & Cc & _). split; [lia|]. split; [lia|]. apply (mmul_nan _ _ _ i H); [lia|lia|exact N2].
  Qed.
  Lemma flat_nan (R : mat) i : i < mr R -> mc R = 1 -> nan_at R i -> nth i (flat R) (dZ 0) = dNaN.
  Proof. intros Hi Hc H. unfold flat, col. rewrite nth_map_seq by auto. apply H. lia. Qed.
  (** the numpy estimator with the RBF kernel (any other name of a kernel than 'periodic' raises) *)
  Lemma score_fun_nan Xs Zp C kern ls w fn x sc i : kern <> "periodic"%string -> score_function_multid_seperate_fun X Xs Zp C kern (LVec ls) w = Ok fn -> fn x = Ok sc -> i < mr x -> 1 <= mr Zp ->
    (forall k, Ksz Zp (LVec ls) x = Ok k -> is k (mr x) (mr Zp) /\ nan_at k i) -> nth i sc (dZ 0) = dNaN.
  Proof.
    intros Hk H Hf Hi HM Hn. unfold score_function_multid_seperate_fun, prep, K_of, Ksz_of in H. destruct (String.eqb_spec kern "RBF"); [|destruct (String.eqb_spec kern "periodic"); [contradiction|discriminate]].
    apply rbind_ok in H. destruct H as ([[[K Ks] A] s] & H & Q). injection Q as <-.
    apply rbind_ok in H. destruct H as (K' & _ & H). apply rbind_ok in H. destruct H as (K2 & _ & H). apply rbind_ok in H. destruct H as (Ks' & HKs & H). apply rbind_ok in H. destruct H as (A' & _ & H). apply rbind_ok in H. destruct H as (G & _ & H). injection H as <- <- <- <-.
    unfold rmap in Hf. apply rbind_ok in Hf. destruct Hf as (R & HR & Q). injection Q as <-.
    destruct (Ksz Zp (LVec ls) x) as [k|] eqn:Hkk; [|unfold eval_fun in HR; rewrite Hkk in HR; discriminate]. destruct (Hn k eq_refl) as ((_ & Rk & Ck) & Nk).
    destruct (eval_fun_nan _ _ _ _ _ _ _ k R i HR Hkk ltac:(lia) ltac:(lia) (reg_inv_square _ _ _ HKs) Nk) as (RR & CR & NR). apply flat_nan; [lia|exact CR|exact NR].
  Qed.
  Lemma score_self_nan Xs Zp C kern ls w sc i : kern <> "periodic"%string -> score_function_multid_seperate X Xs Zp C kern (LVec ls) w = Ok sc -> i < mr Xs -> 1 <= mr Zp ->
    (forall k, K_sep Xs Zp (LVec ls) = Ok k -> is k (mr Xs) (mr Zp) /\ nan_at k i) -> nth i sc (dZ 0) = dNaN.
  Proof.
    intros Hk H Hi HM Hn. unfold score_function_multid_seperate, prep, K_of in H. destruct (String.eqb_spec kern "RBF"); [|destruct (String.eqb_spec kern "periodic"); [contradiction|discriminate]].
    apply rbind_ok in H. destruct H as ([[[K Ks] A] s] & H & Q).
    apply rbind_ok in H. destruct H as (K' & HK & H). apply rbind_ok in H. destruct H as (K2 & _ & H). apply rbind_ok in H. destruct H as (Ks' & HKs & H). apply rbind_ok in H. destruct H as (A' & _ & H). apply rbind_ok in H. destruct H as (G & _ & H). injection H as <- <- <- <-.
    unfold rmap in Q. apply rbind_ok in Q. destruct Q as (R & HR & Q). injection Q as <-. destruct (Hn K' HK) as ((_ & Rk & Ck) & Nk).
    destruct (eval_at_nan _ _ _ _ _ _ R i HR ltac:(lia) ltac:(lia) (reg_inv_square _ _ _ HKs) Nk) as (RR & CR & NR). apply flat_nan; [lia|exact CR|exact NR].
  Qed.
End N.
