(** Shapes of kernel matrices and score estimates (no modelling content). *)
From Coq Require Import String List ZArith Lia Bool.
From Verif Require Import Base.Num Base.Py Base.Arr Lib.ArrLemmas Model.Ext Model.Cdist Model.Score.
Import ListNotations.

Section ScoreLemmas.
  Context {T S : Type} {O : NumOps T} (E : Ext T S).
  Notation mat := (mat T).

  Definition is (A : mat) (r c : nat) : Prop := wf A /\ mr A = r /\ mc A = c.
  Lemma is_mk r c f : is (mk r c f) r c. Proof. split; [apply wf_mk|auto]. Qed.

  Lemma is_bc2 op A B C r c : is A r c -> is B r c -> bc2 op A B = Ok C -> is C r c.
  Proof.
    intros (WA & RA & CA) (WB & RB & CB) H. apply bc2_ok in H.
    destruct H as (_ & _ & W & R & Cc & _). rewrite RA, RB, bdim_refl in R. rewrite CA, CB, bdim_refl in Cc.
    split; auto.
  Qed.
  Lemma is_mmap1 f A r c : is A r c -> is (mmap1 f A) r c.
  Proof. intros (W & <- & <-). apply is_mk. Qed.
  Lemma is_cdist_sq x y C : cdist_sq x y = Ok C -> is C (mr x) (mr y).
  Proof. unfold cdist_sq. destruct (mc x =? mc y); intro H; inversion H. apply is_mk. Qed.
  Lemma is_cdist_l1 x y C : cdist_l1 x y = Ok C -> is C (mr x) (mr y).
  Proof. unfold cdist_l1. destruct (mc x =? mc y); intro H; inversion H. apply is_mk. Qed.
  Lemma is_cdist_l2 x y C : cdist_l2 x y = Ok C -> is C (mr x) (mr y).
  Proof. unfold cdist_l2. destruct (mc x =? mc y); intro H; inversion H. apply is_mk. Qed.

  Lemma is_writes val l out r c : is out r c -> is (fold_left (write val) l out) r c.
  Proof. revert out. induction l; simpl; intros out H; auto. apply IHl. destruct H as (W & <- & <-). apply is_mk. Qed.
  Lemma is_my_cdist x y out d C r c : is out r c -> my_cdist x y out d = Ok C -> is C r c.
  Proof.
    intros H. unfold my_cdist, my_cdist_sched.
    destruct (String.eqb d "euclidean"); [|destruct (String.eqb d "sqeuclidean"); [|destruct (String.eqb d "l1")]];
      try (destruct (_ && _); [|discriminate]); intro Q; inversion Q; subst; auto; apply is_writes; auto.
  Qed.

  Lemma is_column x i c : column x i = Ok c -> is c (mr x) 1.
  Proof. unfold column. destruct (i <? mc x); intro H; inversion H. apply is_mk. Qed.
  Lemma colslice_mr x i : mr (colslice x i) = mr x.
  Proof. unfold colslice. now destruct (i <? mc x). Qed.

  Lemma rfold_is {A} (f : mat -> A -> res mat) l B C r c :
    (forall B a C, is B r c -> f B a = Ok C -> is C r c) -> is B r c -> rfold f l B = Ok C -> is C r c.
  Proof.
    intro Hf. revert B. induction l; simpl; intros B HB H; invok; auto. eapply IHl; [|exact H]. eapply Hf; [exact HB|exact E0].
  Qed.

  Lemma is_rbf l A r c : is A r c -> is (rbf_of_sq l A) r c. Proof. apply is_mmap1. Qed.
  Lemma is_per l A r c : is A r c -> is (per_of_l1 l A) r c. Proof. apply is_mmap1. Qed.

  Lemma is_K_sep x y l K : K_sep x y l = Ok K -> is K (mr x) (mr y).
  Proof.
    destruct l; simpl; intro H; invok.
    - apply is_rbf. exact (is_my_cdist _ _ _ _ _ _ _ (is_mk _ _ _) E0).
    - eapply rfold_is in H; eauto; [|apply is_mk]. intros B [ii li] C HB Q. invok.
      eapply is_bc2 in Q; eauto. apply is_rbf. apply is_cdist_sq in E0. now rewrite !colslice_mr in E0.
  Qed.
  Lemma is_K_all x y l K : K_all x y l = Ok K -> is K (mr x) (mr y).
  Proof.
    destruct l; simpl; intro H; invok.
    - apply is_rbf. exact (is_my_cdist _ _ _ _ _ _ _ (is_mk _ _ _) E0).
    - eapply rfold_is in H; eauto; [|apply is_mk]. intros B [ii li] C HB Q. invok.
      eapply is_bc2 in Q; eauto. apply is_rbf. exact (is_my_cdist _ _ _ _ _ _ _ (is_mk _ _ _) E2).
  Qed.
  Lemma is_K_old x y l K : K_old x y l = Ok K -> is K (mr x) (mr y).
  Proof.
    destruct l; simpl; intro H; invok.
    - apply is_rbf. now apply is_cdist_sq in E0.
    - eapply rfold_is in H; eauto; [|apply is_mk]. intros B [ii li] C HB Q. invok.
      eapply is_bc2 in Q; eauto. apply is_rbf. apply is_cdist_sq in E2.
      apply is_column in E0, E1. destruct E0 as (_ & <- & _), E1 as (_ & <- & _). exact E2.
  Qed.
  Lemma is_K_per x y l K : K_per x y l = Ok K -> is K (mr x) (mr y).
  Proof.
    destruct l; simpl; intro H; invok.
    - apply is_per. now apply is_cdist_l1 in E0.
    - apply is_mmap1. eapply rfold_is in E0; eauto; [|apply is_mk]. intros B [ii li] C HB Q. invok.
      eapply is_bc2 in Q; eauto. apply is_per. apply is_cdist_l1 in E3.
      apply is_column in E1, E2. destruct E1 as (_ & <- & _), E2 as (_ & <- & _). exact E3.
  Qed.
  Lemma is_K_of kern x y l K : K_of kern x y l = Ok K -> is K (mr x) (mr y).
  Proof.
    unfold K_of. destruct (String.eqb kern "RBF"); [apply is_K_sep|].
    destruct (String.eqb kern "periodic"); [apply is_K_per|discriminate].
  Qed.

  Lemma is_Ksz_vec Zp ls x K : Ksz_vec Zp ls x = Ok K -> is K (mr x) (mr Zp).
  Proof.
    unfold Ksz_vec. intro H. invok. destruct a as [|f0 fr]; [discriminate|].
    apply rmapM_ok in E0. destruct E0 as (Hl & Hn).
    assert (Hall : forall i f, nth_error (f0 :: fr) i = Some f -> is f (mr x) (mr Zp)).
    { intros i f Hf. assert (i < List.length (f0 :: fr)) by (apply nth_error_Some; congruence).
      rewrite Hl in H0. destruct (nth_error (seq 0 (mc x)) i) as [j|] eqn:Ej.
      - apply Hn in Ej. destruct Ej as (b & Hb & Q). assert (b = f) by congruence. subst b. invok.
        apply is_rbf. apply is_cdist_sq in E2. apply is_column in E0, E1.
        destruct E0 as (_ & <- & _), E1 as (_ & <- & _). exact E2.
      - apply nth_error_None in Ej. lia. }
    clear Hn Hl. assert (H0 : is f0 (mr x) (mr Zp)) by (apply (Hall 0); reflexivity).
    assert (Hfr : forall f, In f fr -> is f (mr x) (mr Zp)).
    { intros f Hf. apply In_nth_error in Hf. destruct Hf as (i & Hi). apply (Hall (Datatypes.S i)). exact Hi. }
    clear Hall. revert f0 H0 H. induction fr; simpl; intros; invok; auto.
    apply (IHfr (fun f Hf => Hfr f (or_intror Hf)) a0); [|exact H].
    eapply is_bc2; [exact H0| |exact E0]. apply Hfr; simpl; auto.
  Qed.
  Lemma is_Ksz Zp l x K : Ksz Zp l x = Ok K -> is K (mr x) (mr Zp).
  Proof.
    destruct l; simpl; [|apply is_Ksz_vec]. unfold Ksz_scal. intro H. invok. apply is_rbf. now apply is_cdist_sq.
  Qed.
  Lemma is_Ksz_per Zp l x K : Ksz_per Zp l x = Ok K -> is K (mr x) (mr Zp).
  Proof.
    destruct l; simpl; intro H; invok.
    - apply is_per. now apply is_cdist_l1.
    - assert (Hc : forall xx i c, column xx i = Ok c -> mr c = mr xx) by (intros ? ? ? Q; apply is_column in Q; apply Q).
      repeat match goal with Q : column _ _ = Ok _ |- _ => apply Hc in Q end.
      eapply is_bc2; [| |exact H]; apply is_mmap1;
      match goal with
      | Q : cdist_l2 _ _ = Ok ?c |- is ?c _ _ => apply is_cdist_l2 in Q
      | Q : cdist_sq _ _ = Ok ?c |- is ?c _ _ => apply is_cdist_sq in Q end; congruence.
  Qed.
  Lemma is_Ksz_of kern Zp l x K : Ksz_of kern Zp l x = Ok K -> is K (mr x) (mr Zp).
  Proof.
    unfold Ksz_of. destruct (String.eqb kern "RBF"); [apply is_Ksz|].
    destruct (String.eqb kern "periodic"); [apply is_Ksz_per|discriminate].
  Qed.

  Lemma eval_at_samples_rows C M K_xz Ksinv A s R : eval_at_samples E C M K_xz Ksinv A s = Ok R ->
    mr R = mr K_xz /\ mc R = mc s.
  Proof.
    unfold eval_at_samples. intro H. invok.
    apply mmul_ok in H, E1, E2. destruct H as (_ & _ & -> & -> & _), E2 as (_ & _ & -> & _ & _), E1 as (_ & _ & -> & _ & _).
    auto.
  Qed.
  Lemma eval_fun_rows K_sz C M Ksinv A s x R : eval_fun E K_sz C M Ksinv A s x = Ok R ->
    exists k, K_sz x = Ok k /\ mr R = mr k /\ mc R = mc s.
  Proof.
    unfold eval_fun. intro H. invok. exists a. split; auto.
    apply mmul_ok in H, E2, E3. destruct H as (_ & _ & -> & -> & _), E3 as (_ & _ & -> & _ & _), E2 as (_ & _ & -> & _ & _).
    auto.
  Qed.

  Lemma score_length X Zp C kern l w r :
    score_function_multid_seperate E X Zp C kern l w = Ok r -> List.length r = mr X.
  Proof.
    unfold score_function_multid_seperate. intro H. apply rbind_ok in H.
    destruct H as ([[[K_xz Ksinv] A] s] & E0 & H). apply rmap_ok in H. destruct H as (R & E1 & ->).
    apply eval_at_samples_rows in E1. unfold flat. rewrite col_length. destruct E1 as (-> & _).
    unfold prep in E0. apply rbind_ok in E0. destruct E0 as (K & HK & E0).
    do 4 (apply rbind_ok in E0; destruct E0 as (? & _ & E0)). injection E0 as <- _ _ _.
    now apply is_K_of in HK as (_ & -> & _).
  Qed.
  Lemma score_fun_length X Zp C kern l w fn x r :
    score_function_multid_seperate_fun E X Zp C kern l w = Ok fn -> fn x = Ok r -> List.length r = mr x.
  Proof.
    unfold score_function_multid_seperate_fun. intros H Hx. apply rbind_ok in H.
    destruct H as ([[[K_xz Ksinv] A] s] & E0 & H). injection H as <-. apply rmap_ok in Hx. destruct Hx as (R & E1 & ->).
    apply eval_fun_rows in E1. destruct E1 as (k & Hk & HR & _).
    unfold flat. rewrite col_length, HR. now apply is_Ksz_of in Hk as (_ & -> & _).
  Qed.
End ScoreLemmas.
