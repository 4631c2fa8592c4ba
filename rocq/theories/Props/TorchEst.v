(** C46, C48: the torch estimator against the numpy one; variants that cannot work. *)
From Coq Require Import String List ZArith Reals Lra Lia Bool.
From Verif Require Import Base.Num Base.Py Base.Arr Lib.ArrLemmas Model.Ext Model.Cdist Model.Score Model.ScoreTorch Lib.ScoreLemmas.
From Verif Require Import Spec.RealSpec Spec.Contracts Spec.KernelSpec Lib.RSum Lib.RMat Lib.Gauss Lib.KernelForms Lib.Estimator Lib.EstForms Props.Kernels Props.Estimators.
Import ListNotations.
Local Open Scope string_scope.
Local Open Scope R_scope.

(** the lengthscale argument of the numpy estimator that corresponds to a lengthscale argument of the torch one:
    a tensor with one entry counts as a number *)
Definition numpy_length (l : tlen R) : lscale R :=
  match l with TFloat v => LScal v | TSeq ls => LVec ls | TTens1 [v] => LScal v | TTens1 ls => LVec ls | TTens0 v => LScal v end.
(** a 0-d or an empty lengthscale tensor is not accepted *)
Definition torch_length_ok (l : tlen R) : Prop := match l with TTens0 _ => False | TTens1 [] => False | _ => True end.
(** torch reports a shape mismatch or a singular matrix as RuntimeError where numpy raises ValueError or LinAlgError *)
Definition as_torch {A} (m : res A) : res A :=
  match m with Err ValueError => Err RuntimeError | Err LinAlgError => Err RuntimeError | _ => m end.

Lemma tor_bind {A B} (m : res A) (f : A -> res B) : tor (rbind m f) = rbind (tor m) (fun x => tor (f x)).
Proof. destruct m as [a|[]]; reflexivity. Qed.
Lemma tor_tor {A} (m : res A) : tor (tor m) = tor m.
Proof. destruct m as [a|[]]; reflexivity. Qed.
Lemma rmapM_err {A B} (f : A -> res B) e l : l <> [] -> (forall a, In a l -> f a = Err e) -> rmapM f l = Err e.
Proof. destruct l as [|a l]; [congruence|]. intros _ H. cbn. rewrite H by now left. reflexivity. Qed.
Lemma smul_1 r c (f : nat -> nat -> R) : smul 1 (mk r c f) = mk r c f.
Proof. unfold smul. rewrite mmap1_mk. apply mk_ext. intros. cbn. ring. Qed.
Lemma init_len l : torch_length_ok l -> exists b, tl_multil l = Ok b /\
  RBF_init (tl_lscale l) none1 b = Ok {| rb_l := numpy_length l; rb_multil := b; rb_sv := 1; rb_K := None |}.
Proof. destruct l as [v|ls|[|v [|w ls]]|v]; cbn; intro H; try contradiction; eexists; split; reflexivity. Qed.

Section T.
  Context {S : Type} (E : Ext R S).
  Context (D : nat) (X Zp : mat R) (l : tlen R) (HL : torch_length_ok l) (HA : kernel_args D X Zp (numpy_length l)).
  Let L := numpy_length l.

  Lemma gradient_R o : rb_l o = L -> rb_K o = Some (Kmat D L X Zp) ->
    exists W, RBF_gradient_X o X Zp = Ok (Arr3 (mr X) (mr Zp) D (map W (seq 0 D))) /\ forall d, (d < D)%nat -> W d = Gmat D L X Zp d.
  Proof.
    intros HL' HK. destruct HA as (Hx & Hy & Hl). fold L in Hl. unfold RBF_gradient_X. rewrite Hx, Hy, bok_refl, bdim_refl, HL', HK. cbv zeta.
    set (W := fun k => mk (mr X) (mr Zp) (fun i j => (get X i k - get Zp j k) / (lsc L k * lsc L k))).
    match goal with |- context [let! sl := ?m in _] => assert (HS : m = Ok (map W (seq 0 D))) end.
    { destruct L as [l0|ls]; cbn in Hl.
      - f_equal. apply map_seq_ext. intros k Hk. apply mk_ext. intros i j Hi Hj. unfold diff3, nsq. cbn. now rewrite Hx, Hy, !(bidx_lt D k Hk).
      - rewrite Hl, bok_refl, bdim_refl. f_equal. apply map_seq_ext. intros k Hk. apply mk_ext. intros i j Hi Hj. unfold diff3, nsq. cbn. now rewrite Hx, Hy, !(bidx_lt D k Hk). }
    rewrite HS. cbn [rbind]. unfold Kmat at 1 2 3 4. cbn [mk mr mc]. rewrite !bok_refl, !bdim_refl. cbn [andb].
    rewrite map_map, map_length, seq_length. exists (fun d => mk (mr X) (mr Zp) (fun i j => nmul (bget (W d) i j) (bget (Kmat D L X Zp) i j))). split.
    - reflexivity.
    - intros d Hd. unfold Gmat. apply mk_ext. intros i j Hi Hj. rewrite !bget_in by assumption. unfold W, Kmat. rewrite !get_mk by auto. cbn. unfold Rdiv. ring.
  Qed.

  Lemma tprep_R : (1 <= D)%nat -> exists b, tl_multil l = Ok b /\
    tprep E X Zp l = (let! (K_xz, Ksinv, A, s) := tor (prep_all E (K_of_all "RBF") (grdx_of_all "RBF") X Zp L) in Ok (b, K_xz, Ksinv, A, s)).
  Proof.
    intro HD. destruct (init_len l HL) as (b & Hb & Hi). exists b. split; [auto|]. unfold tprep. rewrite Hb. cbn [rbind]. rewrite Hi. cbn [rbind].
    destruct HA as (Hx & Hy & Hl). fold L in Hl. unfold RBF_Kernel. cbn [rb_l rb_sv rb_multil]. fold L.
    assert (HV : forall x y, rbf_kvals b L x y = rbf_vals L x y). { clear -Hb HL. unfold L. destruct l as [v|ls|[|v [|w ls]]|v]; cbn in *; try contradiction; injection Hb as <-; reflexivity. }
    rewrite !HV. rewrite (rbf_vals_R D X Zp L), (rbf_vals_R D Zp Zp L) by auto. cbn [rbind].
    assert (K1 : smul 1 (Kmat D L X Zp) = Kmat D L X Zp) by apply smul_1. assert (K2 : smul 1 (Kmat D L Zp Zp) = Kmat D L Zp Zp) by apply smul_1. rewrite K1, K2.
    unfold prep_all, K_of_all, grdx_of_all. cbn [String.eqb Ascii.eqb Bool.eqb]. rewrite (K_all_R D X Zp L), (K_all_R D Zp Zp L) by auto. cbn [rbind].
    unfold reg_inv, tbc2, tinv. destruct (bc2 nadd (Kmat D L Zp Zp) (smul nmilli (eye (mr Zp)))) as [a|e]; cbn [rbind tor]; [|destruct e; reflexivity].
    destruct (linalg_inv E a) as [Ki|e]; cbn [rbind tor]; [|destruct e; reflexivity].
    unfold tmmul. rewrite A_mk. cbn [rbind tor].
    destruct (gradient_R {| rb_l := L; rb_multil := b; rb_sv := 1; rb_K := Some (Kmat D L X Zp) |} eq_refl eq_refl) as (W & -> & HW). cbn [rbind a_d a_n a_k a_s].
    assert (HG : grdx_K_all K_all X Zp L = Ok (Arr3 (mr X) (mr Zp) D (map W (seq 0 D)))).
    { unfold grdx_K_all. rewrite Hx, Hy, bok_refl. rewrite (rmapM_intro _ W); [reflexivity|]. intros d Hd. apply in_seq in Hd. rewrite HW by lia. apply grdx_R; auto; [lia|]. now apply K_all_R. }
    rewrite HG. reflexivity.
  Qed.

  (** C46: whatever C and kern it is given, the torch estimator has the outcome of the numpy all-dims estimator with C = 0.001 *)
  Theorem C46_samples C kern : (1 <= D)%nat ->
    torched_score_function_multid_seperate_all_dims E X Zp l C kern = as_torch (score_function_multid_seperate_all_dims E X Zp 0.001 "RBF" (numpy_length l)).
  Proof.
    intro HD. unfold torched_score_function_multid_seperate_all_dims, score_function_multid_seperate_all_dims. fold L.
    change @as_torch with @tor. destruct (tprep_R HD) as (b & _ & ->).
    destruct (preps E D X Zp L HA 0 ltac:(lia)) as [(e & _ & ->)|(K_xz & Ki & A & _ & Q)].
    { cbn [rbind tor]. destruct e; reflexivity. }
    pose proof (prep_all_K_xz E D X Zp L (K_of_all "RBF") (grdx_of_all "RBF") K_xz Ki A (S3 D X Zp L) ltac:(destruct HA as (?&?&?); now apply K_all_R) Q) as ->.
    rewrite Q. cbn [rbind tor]. unfold eval_at_samples. destruct HA as (Hx & Hy & Hl). rewrite Hy.
    assert (HT : tinner E (mr Zp) Ki A = tor (inner_inv E 0.001 (mr Zp) Ki A)).
    { unfold tinner, inner_inv, tmmul, tbc2, tinv. rewrite nmilli_R. rewrite !tor_bind. destruct (tor (mmul Ki A)); cbn [rbind]; auto.
      rewrite !tor_bind. destruct (tor (bc2 nadd _ a)); cbn [rbind]; auto. rewrite !tor_bind. destruct (tor (bc2 nadd a0 _)); reflexivity. }
    rewrite HT. rewrite !tor_bind. destruct (tor (inner_inv E 0.001 (mr Zp) Ki A)) as [inn|e] eqn:QI.
    2:{ cbn [rbind]. rewrite (rmapM_err _ e); [reflexivity| |reflexivity]. destruct D; [lia|discriminate]. }
    cbn [rbind]. unfold tmmul. rewrite !tor_bind. destruct (mmul (mopp (Kmat D L X Zp)) inn) as [a|e] eqn:Qa.
    2:{ assert (HE : tor (Err (A := mat R) e) = Err RuntimeError). { unfold mmul in Qa. destruct (_ =? _)%nat; inversion Qa. reflexivity. } rewrite HE. cbn [rbind].
        rewrite (rmapM_err _ RuntimeError); [reflexivity| |reflexivity]. destruct D; [lia|discriminate]. }
    cbn [tor rbind]. rewrite !tor_bind. destruct (mmul a Ki) as [bm|e] eqn:Qb.
    2:{ assert (HE : tor (Err (A := mat R) e) = Err RuntimeError). { unfold mmul in Qb. destruct (_ =? _)%nat; inversion Qb. reflexivity. } rewrite HE. cbn [rbind].
        rewrite (rmapM_err _ RuntimeError); [reflexivity| |reflexivity]. destruct D; [lia|discriminate]. }
    cbn [tor rbind].
    assert (Hcol : forall di, (di < D)%nat -> tcolumn (S3 D X Zp L) di = Ok (mk (mr Zp) 1 (fun m _ => Sgrad (mr X) D (lsc L) (get X) (get Zp) di m))).
    { intros di Hdi. unfold tcolumn. rewrite column_in by exact Hdi. f_equal. unfold S3. cbn [mk mr]. apply mk_ext. intros m j Hm Hj. now rewrite get_mk. }
    pose proof (mmul_ok _ _ _ Qa) as (Ra & _). pose proof (mmul_ok _ _ _ Qb) as (Rb & _).
    destruct (mmul bm (S3 D X Zp L)) as [P|e] eqn:QP.
    - rewrite (rmapM_intro _ (fun di => col P di)).
      2:{ intros di Hdi. apply in_seq in Hdi. rewrite Hcol by lia. cbn [rbind].
          pose proof (mmul_col bm (S3 D X Zp L) D di (fun m d => Sgrad (mr X) D (lsc L) (get X) (get Zp) d m) eq_refl ltac:(lia)) as Q2. rewrite QP in Q2.
          change (mr (S3 D X Zp L)) with (mr Zp) in Q2. destruct (mmul bm (mk (mr Zp) 1 _)) as [c|]; cbn [rmap rbind] in Q2; [|discriminate]. cbn [tor rbind]. congruence. }
      cbn [rbind tor]. f_equal. unfold mmul in QP. destruct (_ =? _)%nat; inversion QP as [QP']. clear QP. 
      assert (RX : mr bm = mr X). { unfold mmul in Qb, Qa. destruct (mc a =? mr Ki)%nat; inversion Qb. destruct (mc (mopp (Kmat D L X Zp)) =? mr inn)%nat; inversion Qa. reflexivity. }
      cbn [mk mr mc S3]. rewrite RX. apply mk_ext. intros i di Hi Hdi. rewrite nth_map_seq by auto. unfold S3. cbn [mk mc]. rewrite col_mk by exact Hdi. rewrite nth_map_seq by exact Hi. reflexivity.
    - rewrite (rmapM_err _ RuntimeError).
      + unfold mmul in QP. destruct (_ =? _)%nat; inversion QP. reflexivity.
      + destruct D; [lia|discriminate].
      + intros di Hdi. apply in_seq in Hdi. rewrite Hcol by lia. cbn [rbind].
        unfold mmul in QP. cbn [S3 mk mr] in QP. unfold mmul. cbn [mk mr]. destruct (_ =? _)%nat; inversion QP. reflexivity.
  Qed.

  (** the arguments on which the returned function can be evaluated: with several lengthscales in a tensor, anything; with a
      single lengthscale, numpy arrays only; with a list of lengthscales, nothing *)
  Definition can_evaluate (l : tlen R) (is_tensor : bool) : Prop :=
    match l with TTens1 (_ :: _ :: _) => True | TFloat _ | TTens1 [_] => is_tensor = false | _ => False end.

  (** C46 for func_out=True: on those arguments the torch function has the outcome of the numpy one with C = 0.001 *)
  Theorem C46_functions C : (1 <= D)%nat ->
    match torched_score_function_multid_seperate_all_dims_fun E X Zp l C "RBF", score_function_multid_seperate_all_dims_fun E X Zp 0.001 "RBF" (numpy_length l) with
    | Ok f, Ok F => forall is_tensor x, mc x = D -> can_evaluate l is_tensor -> f is_tensor x = as_torch (F x)
    | Err e, Err e' => Err (A := unit) e = as_torch (Err e')
    | _, _ => False
    end.
  Proof.
    intro HD. unfold torched_score_function_multid_seperate_all_dims_fun, score_function_multid_seperate_all_dims_fun. fold L.
    change @as_torch with @tor. destruct (tprep_R HD) as (b & Hb & ->).
    destruct (preps E D X Zp L HA 0 ltac:(lia)) as [(e & _ & ->)|(K_xz & Ki & A & _ & Q)].
    { cbn [rbind tor]. destruct e; reflexivity. }
    rewrite Q. cbn [rbind tor]. intros is_tensor x Hxx Hc. destruct HA as (Hx & Hy & Hl). fold L in Hl.
    assert (HK : tKsz b Zp l "RBF" is_tensor x = Ok (Kmat D L x Zp)).
    { unfold tKsz. cbn [String.eqb Ascii.eqb Bool.eqb]. destruct l as [v|ls|[|v [|w ls]]|v]; cbn in Hb, Hc; try contradiction; inversion Hb; subst b.
      - rewrite Hc. cbn [tl_lscale]. now apply rbf_vals_R.
      - rewrite Hc. cbn [tl_lscale]. now apply (rbf_vals_R D x Zp (LScal v)).
      - cbn [tl_lscale]. now apply (rbf_vals_R D x Zp (LVec (v :: w :: ls))). }
    rewrite HK. cbn [rbind]. unfold eval_fun. change (Ksz_of "RBF" Zp L x) with (Ksz Zp L x). rewrite (Ksz_R D) by auto. cbn [rbind].
    assert (HT : tinner E (mr Zp) Ki A = tor (inner_inv E 0.001 (mr Zp) Ki A)).
    { unfold tinner, inner_inv, tmmul, tbc2, tinv. rewrite nmilli_R. rewrite !tor_bind. destruct (tor (mmul Ki A)); cbn [rbind]; auto.
      rewrite !tor_bind. destruct (tor (bc2 nadd _ a)); cbn [rbind]; auto. rewrite !tor_bind. destruct (tor (bc2 nadd a0 _)); reflexivity. }
    rewrite HT, !tor_bind. destruct (tor (inner_inv E 0.001 (mr Zp) Ki A)); cbn [rbind]; auto. unfold tmmul. rewrite !tor_bind.
    destruct (tor (mmul (Kmat D L x Zp) (mopp a))); cbn [rbind]; auto. now rewrite !tor_bind.
  Qed.
End T.

(** C48: a torch function that was returned but cannot be called *)
Section Unusable.
  Context {T S : Type} {O : NumOps T} (E : Ext T S).
  Lemma tprep_multil X Zp l b K_xz Ki A s : tprep E X Zp l = Ok (b, K_xz, Ki, A, s) -> tl_multil l = Ok b.
  Proof.
    unfold tprep. intro H. destruct (tl_multil l) as [b'|]; [|discriminate]. cbn [rbind] in H. destruct (RBF_init _ _ b') as [o|]; [|discriminate]. cbn [rbind] in H.
    destruct (RBF_Kernel o X Zp) as [[K1 o1]|]; [|discriminate]. cbn [rbind] in H. destruct (RBF_Kernel o Zp Zp) as [[K2 o2]|]; [|discriminate]. cbn [rbind] in H.
    destruct (tbc2 _ _ _); [|discriminate]. cbn [rbind] in H. destruct (tinv _ _); [|discriminate]. cbn [rbind] in H. destruct (tmmul _ _); [|discriminate]. cbn [rbind] in H.
    destruct (RBF_gradient_X _ _ _); [|discriminate]. cbn [rbind] in H. congruence.
  Qed.
  Theorem C48_torch_single_lengthscale X Zp l C f x : torched_score_function_multid_seperate_all_dims_fun E X Zp l C "RBF" = Ok f ->
    match l with TFloat _ | TTens1 [_] => True | _ => False end -> f true x = Err UnboundLocalError.
  Proof.
    unfold torched_score_function_multid_seperate_all_dims_fun. intros H Hl. apply rbind_ok in H. destruct H as (((((b & K_xz) & Ki) & A) & s) & H1 & H2).
    apply tprep_multil in H1. destruct l as [v|ls|[|v [|w ls]]|v]; try contradiction; inversion H1; subst b; inversion H2; reflexivity.
  Qed.
  Theorem C48_torch_list_lengthscales X Zp ls C f b x : torched_score_function_multid_seperate_all_dims_fun E X Zp (TSeq ls) C "RBF" = Ok f -> f b x = Err TypeError.
  Proof.
    unfold torched_score_function_multid_seperate_all_dims_fun. intros H. apply rbind_ok in H. destruct H as (((((b' & K_xz) & Ki) & A) & s) & H1 & H2).
    apply tprep_multil in H1. inversion H1; subst b'; inversion H2; reflexivity.
  Qed.
  Theorem C48_torch_unknown_kernel X Zp l C kern f b x : torched_score_function_multid_seperate_all_dims_fun E X Zp l C kern = Ok f -> kern <> "RBF" -> f b x = Err NameError.
  Proof.
    unfold torched_score_function_multid_seperate_all_dims_fun. intros H Hk. apply rbind_ok in H. destruct H as (((((b' & K_xz) & Ki) & A) & s) & H1 & H2).
    inversion H2. subst. unfold tKsz. apply String.eqb_neq in Hk. now rewrite Hk.
  Qed.
  (** the numpy all-dims estimator with the periodic kernel raises on every input *)
  Theorem C48_periodic_all_dims X Zp C l :
    (exists e, score_function_multid_seperate_all_dims E X Zp C "periodic" l = Err e) /\
    (exists e, score_function_multid_seperate_all_dims_fun E X Zp C "periodic" l = Err e).
  Proof.
    assert (H : exists e, prep_all E (K_of_all "periodic") (grdx_of_all "periodic") X Zp l = Err e).
    { unfold prep_all. destruct (K_of_all "periodic" X Zp l); cbn [rbind]; [|eauto]. destruct (K_of_all "periodic" Zp Zp l); cbn [rbind]; [|eauto].
      destruct (reg_inv E a0 (mr Zp)); cbn [rbind]; [|eauto]. destruct (mmul (mT a) a); cbn [rbind]; [|eauto]. eexists. reflexivity. }
    destruct H as (e & H). unfold score_function_multid_seperate_all_dims, score_function_multid_seperate_all_dims_fun. rewrite H. cbn. eauto.
  Qed.
  (** score.py's function output looks at two coordinates only: points that agree on these get the same value ... *)
  Theorem C48_two_coordinates X Zp C kern ls w f x x' : score_function_multid_seperate2_fun E X Zp C kern (LVec ls) w = Ok f ->
    mr x' = mr x -> mc x' = mc x -> (forall i, i < mr x -> get x' i 0 = get x i 0 /\ get x' i 1 = get x i 1)%nat -> f x' = f x.
  Proof.
    unfold score_function_multid_seperate2_fun. intros H Hr Hc Hg. apply rbind_ok in H. destruct H as ((((K_xz & Ki) & A) & s) & H1 & H2). inversion H2. subst.
    f_equal. unfold eval_fun. assert (Q : Ksz_two Zp (LVec ls) x' = Ksz_two Zp (LVec ls) x); [|now rewrite Q].
    assert (Q0 : column x' 0 = column x 0). { unfold column. rewrite Hr, Hc. destruct (_ <? _)%nat; auto. f_equal. apply mk_ext. intros. now apply Hg. }
    assert (Q1 : column x' 1 = column x 1). { unfold column. rewrite Hr, Hc. destruct (_ <? _)%nat; auto. f_equal. apply mk_ext. intros. now apply Hg. }
    cbn [Ksz_two]. now rewrite Q0, Q1.
  Qed.
  (** ... and on one-dimensional points it raises IndexError *)
  Theorem C48_one_dimension X Zp C kern ls w f x : score_function_multid_seperate2_fun E X Zp C kern (LVec ls) w = Ok f ->
    mc x = 1%nat -> mc Zp = 1%nat -> length ls = 1%nat -> f x = Err IndexError.
  Proof.
    unfold score_function_multid_seperate2_fun. intros H Hc Hz Hl. apply rbind_ok in H. destruct H as ((((K_xz & Ki) & A) & s) & H1 & H2). inversion H2. subst.
    unfold eval_fun. cbn [Ksz_two]. unfold column. rewrite Hc, Hz. cbn [Nat.ltb Nat.leb rbind]. unfold cdist_sq. cbn [mk mc mr Nat.eqb rbind].
    destruct ls as [|v [|]]; try discriminate. reflexivity.
  Qed.
End Unusable.

(** what the function of score.py computes instead: the D-dimensional coefficients with the kernel of the first two coordinates *)
Section Two.
  Context {S : Type} (E : Ext R S) (HI : inv_contract E).
  Lemma Ksz_two_R D x Zp ls : mc x = D -> mc Zp = D -> length ls = D -> (2 <= D)%nat ->
    Ksz_two Zp (LVec ls) x = Ok (mk (mr x) (mr Zp) (fun i j => gaussk 2 (fun d => nth d ls 0) (get x i) (get Zp j))).
  Proof.
    intros Hx Hz Hl HD. cbn [Ksz_two]. rewrite !column_in by lia. cbn [rbind]. rewrite !cdist_sq_col. cbn [rbind].
    rewrite (pyget_nat ls 0 0), (pyget_nat ls 1 0) by lia. cbn [rbind]. rewrite !rbf_mk, bc2_mk. f_equal. apply mk_ext. intros i j Hi Hj.
    rewrite <- prodn_gauss. cbn [prodn]. cbn [nmul ROps]. ring.
  Qed.
  Theorem C48_two_coordinate_values D X Zp ls C d : estimator_args D X Zp (LVec ls) C -> (2 <= D)%nat -> (d < D)%nat ->
    exists a f, minimises (mr X) (mr Zp) D (fun d => nth d ls 0) (get X) (get Zp) d (C + 0.001) 0.001 a /\
      score_function_multid_seperate2_fun E X Zp C "RBF" (LVec ls) (Z.of_nat d + 1) = Ok f /\
      forall x, mc x = D -> f x = Ok (map (fun i => sumn (mr Zp) (fun m => a m * gaussk 2 (fun d => nth d ls 0) (get x i) (get Zp m))) (seq 0 (mr x))).
  Proof.
    intros HA HD Hd. pose proof HA as ((Hx & Hy & Hl) & Hn & HC).
    destruct (coeffs_exist (mr X) (mr Zp) D (lsc (LVec ls)) (get X) (get Zp) Hn (C + 0.001) d ltac:(lra)) as (a & Ha). exists a.
    destruct (prep_R E HI D X Zp (LVec ls) Hn (K_of_old "RBF") (grdx_K K_old) d) as (Ki & HK & Q); auto; try (now apply K_old_R).
    { apply grdx_R; auto. now apply K_old_R. }
    destruct (inner_inv_R E HI (mr X) (mr Zp) D (lsc (LVec ls)) (get X) (get Zp) Hn C ltac:(lra) Ki HK) as (Hi & H4 & H5).
    eexists. split; [apply coeffs_minimise; auto; lra|]. split; [unfold score_function_multid_seperate2_fun; rewrite Q; reflexivity|].
    intros x Hxx. cbv beta.
    destruct (eval_mk E (mr x) (mr Zp) 1 (fun i j => gaussk 2 (fun d => nth d ls 0) (get x i) (get Zp j)) Hi Ki (fun m _ => Sgrad (mr X) D (lsc (LVec ls)) (get X) (get Zp) d m) C _ H4) as (_ & Q2).
    rewrite (Q2 (Ksz_two Zp (LVec ls)) x) by (now apply (Ksz_two_R D)). cbn [rmap rbind]. rewrite flat_mk. f_equal. apply map_seq_ext. intros i Hi'.
    apply sumn_ext. intros m Hm. f_equal. exact (alpha_is D X Zp (LVec ls) Hn C ltac:(lra) d a Ki Hi Ha HK H5 m Hm).
  Qed.
  (** so for every dim >= 3 there are samples on which it differs from func_out=False *)
  Theorem C48_disagrees D C d : (3 <= D)%nat -> (d < D)%nat -> - 0.001 < C -> exists X Zp ls f v v',
    estimator_args D X Zp (LVec ls) C /\ score_function_multid_seperate2_fun E X Zp C "RBF" (LVec ls) (Z.of_nat d + 1) = Ok f /\
    score_function_multid_seperate2 E X Zp C "RBF" (LVec ls) (Z.of_nat d + 1) = Ok v /\ f X = Ok v' /\ v <> v'.
  Proof.
    intros HD Hd HC. set (X := mk 1 D (fun _ _ => 1)). set (Zp := mk 1 D (fun _ _ => 0)). set (ls := repeat 1 D).
    assert (HN : forall j, (j < D)%nat -> nth j ls 0 = 1). { intros j Hj. unfold ls. rewrite (nth_indep _ 0 1) by (now rewrite repeat_length). apply nth_repeat. }
    assert (HA : estimator_args D X Zp (LVec ls) C).
    { split; [split; [reflexivity|split; [reflexivity|apply repeat_length]]|]. split; [|auto]. intros j Hj. cbn. rewrite HN by auto. lra. }
    destruct (C48_two_coordinate_values D X Zp ls C d HA ltac:(lia) Hd) as (a & f & Ha & Hf & Hv).
    destruct (C43_samples E HI _ D X Zp (LVec ls) C d (se_two E) HA Hd) as (b & Hb & Hs).
    change (scale_of (LVec ls)) with (fun d => nth d ls 0) in Hb, Hs.
    pose proof (minimises_unique _ _ _ _ _ _ _ _ _ _ _ Hd Ha Hb O ltac:(cbn; lia)) as Hab.
    exists X, Zp, ls, f. eexists. eexists. split; [exact HA|]. split; [exact Hf|]. split; [exact Hs|]. split; [now apply Hv|].
    change (mr X) with 1%nat. change (mr Zp) with 1%nat. cbn [seq map expansion sumn]. unfold expansion. cbn [sumn]. rewrite Hab. intro Q. injection Q as Q.
    (* the coefficient is not zero *)
    destruct (coeffs_exist 1 1 D (fun d => nth d ls 0) (get X) (get Zp) (proj1 (proj2 HA)) (C + 0.001) d ltac:(lra)) as (c & Hc).
    pose proof (coeffs_minimise 1 1 D (fun d => nth d ls 0) (get X) (get Zp) (proj1 (proj2 HA)) (C + 0.001) d c ltac:(lra) Hd Hc) as Hm.
    pose proof (minimises_unique _ _ _ _ _ _ _ _ _ _ _ Hd Hb Hm O ltac:(cbn; lia)) as Hbc.
    specialize (Hc O ltac:(lia)). unfold mv, Sgrad in Hc. cbn [sumn] in Hc.
    assert (Hb0 : b O <> 0).
    { intro H0. rewrite Hbc in H0. rewrite H0 in Hc. unfold dgauss in Hc. rewrite HN in Hc by auto.
      assert (EX : get X 0 d = 1) by (unfold X; now rewrite get_mk by lia). assert (EZ : get Zp 0 d = 0) by (unfold Zp; now rewrite get_mk by lia). rewrite EX, EZ in Hc.
      pose proof (gaussk_pos D (fun d => nth d ls 0) (get X 0) (get Zp 0)). lra. }
    assert (Q' : gaussk D (fun d => nth d ls 0) (get X 0) (get Zp 0) = gaussk 2 (fun d => nth d ls 0) (get X 0) (get Zp 0)).
    { apply (Rmult_eq_reg_l (b O)); [lra|auto]. }
    unfold gaussk in Q'. apply exp_inv in Q'.
    assert (Hsum : forall n, (n <= D)%nat -> sumn n (fun d0 => (get X 0 d0 - get Zp 0 d0) ^ 2 / (2 * nth d0 ls 0 ^ 2)) = INR n * / 2).
    { intros n Hn. rewrite <- sumn_const. apply sumn_ext. intros j Hj. rewrite HN by lia. unfold X, Zp. rewrite !get_mk by lia. field. }
    rewrite !Hsum in Q' by lia. assert (H3 : INR 3 <= INR D) by now apply le_INR. cbn in H3, Q'. lra.
  Qed.
End Two.
