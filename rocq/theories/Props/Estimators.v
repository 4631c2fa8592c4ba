(** C42-C45, C47: the RBF score estimators over exact reals. *)
From Coq Require Import String List ZArith Reals Lra Lia Bool Permutation.
From Verif Require Import Base.Num Base.Py Base.Arr Lib.ArrLemmas Model.Ext Model.Cdist Model.Score Model.ScoreTorch Lib.ScoreLemmas.
From Verif Require Import Spec.RealSpec Spec.Contracts Spec.KernelSpec Lib.RSum Lib.RMat Lib.Gauss Lib.KernelForms Lib.Estimator Lib.EstForms Props.Kernels.
Import ListNotations.
Local Open Scope string_scope.
Local Open Scope R_scope.

(** ** algebra of the final products *)
Lemma mmul_opp (A B : mat R) : mmul (mopp A) B = mmul A (mopp B).
Proof.
  unfold mmul. cbn [mopp mmap1 mk mr mc]. destruct (Nat.eqb_spec (mc A) (mr B)) as [Hd|]; [|reflexivity]. f_equal. apply mk_ext. intros i j Hi Hj.
  f_equal. apply map_ext_in. intros k Hk. apply in_seq in Hk. unfold mopp. rewrite !get_mmap1 by lia. cbn. ring.
Qed.
Lemma mmul_col (b s : mat R) D d (f : nat -> nat -> R) : s = mk (mr s) D f -> (d < D)%nat ->
  rmap flat (mmul b (mk (mr s) 1 (fun m _ => f m d))) = rmap (fun A => col A d) (mmul b s).
Proof.
  intros -> Hd. cbn [mk mr]. unfold mmul. cbn [mk mr mc]. destruct (Nat.eqb_spec (mc b) (mr s)) as [Hm|]; [|reflexivity]. cbn [rmap rbind]. f_equal.
  unfold flat. rewrite !col_mk by lia. apply map_seq_ext. intros i Hi. f_equal. apply map_ext_in. intros k Hk. apply in_seq in Hk.
  fold (mk (T := R) (mr s) 1 (fun m _ => f m d)) (mk (T := R) (mr s) D f).
  f_equal. etransitivity; [apply (get_mk (mr s) 1 (fun m _ => f m d)); lia|]. symmetry. apply (get_mk (mr s) D f); lia.
Qed.

Section Free.
  Context {S : Type} (E : Ext R S).
  (** two-dimensional arguments: N samples, M inducing points in R^D, one lengthscale per coordinate or a single one *)
  Context (D : nat) (X Zp : mat R) (l : lscale R) (HA : kernel_args D X Zp l).

  Lemma eval_same K_sz x K_xz C M Ksinv A s : K_sz x = Ok K_xz -> eval_fun E K_sz C M Ksinv A s x = eval_at_samples E C M K_xz Ksinv A s.
  Proof. intro H. unfold eval_fun, eval_at_samples. rewrite H. cbn [rbind]. destruct (inner_inv E C M Ksinv A); cbn [rbind]; auto. now rewrite mmul_opp. Qed.
  Lemma prep_K_xz K grd w K_xz Ki A s : K X Zp l = Ok (Kmat D l X Zp) -> prep E K grd X Zp l w = Ok (K_xz, Ki, A, s) -> K_xz = Kmat D l X Zp.
  Proof.
    intros HK H. unfold prep in H. rewrite HK in H. cbn [rbind] in H. destruct (K Zp Zp l); cbn [rbind] in H; [|discriminate].
    destruct (reg_inv E _ _); cbn [rbind] in H; [|discriminate]. destruct (mmul _ _); cbn [rbind] in H; [|discriminate].
    destruct (grd _ _ _ _); cbn [rbind] in H; [|discriminate]. congruence.
  Qed.
  Lemma prep_all_K_xz K grd K_xz Ki A s : K X Zp l = Ok (Kmat D l X Zp) -> prep_all E K grd X Zp l = Ok (K_xz, Ki, A, s) -> K_xz = Kmat D l X Zp.
  Proof.
    intros HK H. unfold prep_all in H. rewrite HK in H. cbn [rbind] in H. destruct (K Zp Zp l); cbn [rbind] in H; [|discriminate].
    destruct (reg_inv E _ _); cbn [rbind] in H; [|discriminate]. destruct (mmul _ _); cbn [rbind] in H; [|discriminate].
    destruct (grd _ _ _); cbn [rbind] in H; [|discriminate]. congruence.
  Qed.

  (** C44: calling the function returned with func_out=True on the samples gives exactly the outcome of func_out=False,
      for every C, lengthscale and which_dim and whatever np.linalg.inv does (also when it raises) *)
  Theorem C44_separate C w : (1 <= D)%nat ->
    (let! fn := score_function_multid_seperate_fun E X Zp C "RBF" l w in fn X) = score_function_multid_seperate E X Zp C "RBF" l w.
  Proof.
    intro HD. destruct HA as (Hx & Hy & Hl). unfold score_function_multid_seperate_fun, score_function_multid_seperate.
    destruct (prep E (K_of "RBF") (grdx_of "RBF") X Zp l w) as [[[[K_xz Ki] A] s]|e] eqn:Q; [|reflexivity]. cbn [rbind].
    apply prep_K_xz in Q; [|now apply K_sep_R]. subst. f_equal. apply eval_same. now apply Ksz_R.
  Qed.
  Theorem C44_all_dims C : (1 <= D)%nat ->
    (let! fn := score_function_multid_seperate_all_dims_fun E X Zp C "RBF" l in fn X) = score_function_multid_seperate_all_dims E X Zp C "RBF" l.
  Proof.
    intro HD. destruct HA as (Hx & Hy & Hl). unfold score_function_multid_seperate_all_dims_fun, score_function_multid_seperate_all_dims.
    destruct (prep_all E (K_of_all "RBF") (grdx_of_all "RBF") X Zp l) as [[[[K_xz Ki] A] s]|e] eqn:Q; [|reflexivity]. cbn [rbind].
    apply prep_all_K_xz in Q; [|now apply K_all_R]. subst. apply eval_same. now apply Ksz_R.
  Qed.
  Theorem C44_old C w : (1 <= D)%nat ->
    (let! fn := score_function_multid_seperate_old_fun E X Zp C "RBF" l w in fn X) = score_function_multid_seperate_old E X Zp C "RBF" l w.
  Proof.
    intro HD. destruct HA as (Hx & Hy & Hl). unfold score_function_multid_seperate_old_fun, score_function_multid_seperate_old.
    destruct (prep E (K_of_old "RBF") (grdx_K K_old) X Zp l w) as [[[[K_xz Ki] A] s]|e] eqn:Q; [|reflexivity]. cbn [rbind].
    apply prep_K_xz in Q; [|now apply K_old_R]. subst. f_equal. apply eval_same. now apply Ksz_R.
  Qed.

  (** C45: the old estimator and the current one have the same outcome for every C and which_dim, also as functions *)
  Lemma prep_old w : prep E (K_of_old "RBF") (grdx_K K_old) X Zp l w = prep E (K_of "RBF") (grdx_of "RBF") X Zp l w.
  Proof.
    destruct HA as (Hx & Hy & Hl). unfold prep, K_of_old, K_of, grdx_of, grdx_K. cbn [String.eqb Ascii.eqb Bool.eqb].
    now rewrite !(K_old_R D), !(K_sep_R D) by auto.
  Qed.
  Theorem C45_old C w :
    score_function_multid_seperate_old E X Zp C "RBF" l w = score_function_multid_seperate E X Zp C "RBF" l w /\
    score_function_multid_seperate_old_fun E X Zp C "RBF" l w = score_function_multid_seperate_fun E X Zp C "RBF" l w.
  Proof.
    unfold score_function_multid_seperate_old, score_function_multid_seperate, score_function_multid_seperate_old_fun, score_function_multid_seperate_fun.
    rewrite prep_old. split; reflexivity.
  Qed.
  Lemma preps d : (d < D)%nat ->
    (exists e, prep E (K_of "RBF") (grdx_of "RBF") X Zp l (Z.of_nat d + 1) = Err e /\ prep_all E (K_of_all "RBF") (grdx_of_all "RBF") X Zp l = Err e) \/
    exists K_xz Ki A, prep E (K_of "RBF") (grdx_of "RBF") X Zp l (Z.of_nat d + 1) = Ok (K_xz, Ki, A, mk (mr Zp) 1 (fun m _ => Sgrad (mr X) D (lsc l) (get X) (get Zp) d m)) /\
      prep_all E (K_of_all "RBF") (grdx_of_all "RBF") X Zp l = Ok (K_xz, Ki, A, S3 D X Zp l).
  Proof.
    intro Hd. destruct HA as (Hx & Hy & Hl). unfold prep, prep_all. unfold K_of, K_of_all, grdx_of, grdx_of_all. cbn [String.eqb Ascii.eqb Bool.eqb].
    rewrite (K_sep_R D X Zp l), (K_sep_R D Zp Zp l), (K_all_R D X Zp l), (K_all_R D Zp Zp l) by auto. cbn [rbind].
    destruct (reg_inv E (Kmat D l Zp Zp) (mr Zp)) as [Ki|e]; cbn [rbind]; [|left; eauto]. right.
    exists (Kmat D l X Zp), Ki, (mk (mr Zp) (mr Zp) (Agram (mr X) D (lsc l) (get X) (get Zp))).
    rewrite A_mk. cbn [rbind]. split.
    - rewrite (grdx_R _ D) by (auto; now apply K_sep_R). cbn [rbind]. now rewrite sum0_G.
    - unfold grdx_K_all. rewrite Hx, Hy, bok_refl.
      rewrite (rmapM_intro _ (Gmat D l X Zp)). 2:{ intros d' Hd'. apply in_seq in Hd'. apply grdx_R; auto; [lia|]. now apply K_all_R. }
      cbn [rbind a_d a_n a_k a_s]. f_equal. f_equal. unfold sum0_3, S3. cbn [a_n a_k]. apply mk_ext. intros m d' Hm Hd'.
      unfold slice. cbn [a_s]. rewrite map_map, nth_map_seq by auto. change (nsum (col (mopp (Gmat D l X Zp d')) m) = Sgrad (mr X) D (lsc l) (get X) (get Zp) d' m).
      pose proof (sum0_G D X Zp l d' Hd') as Q. apply (f_equal (fun A => get A m 0)) in Q. rewrite get_mk in Q by lia. rewrite <- Q. unfold sum0. rewrite get_mk; [reflexivity| |lia]. exact Hm.
  Qed.
  (** C45: column d of the all-dims estimate is the separate estimate with which_dim = d+1 *)
  Theorem C45_columns C d : (d < D)%nat ->
    score_function_multid_seperate E X Zp C "RBF" l (Z.of_nat d + 1) = rmap (fun A => col A d) (score_function_multid_seperate_all_dims E X Zp C "RBF" l).
  Proof.
    intro Hd. unfold score_function_multid_seperate, score_function_multid_seperate_all_dims.
    destruct (preps d Hd) as [(e & -> & ->)|(K_xz & Ki & A & -> & ->)]; [reflexivity|]. cbn [rbind].
    unfold eval_at_samples. destruct (inner_inv E C (mr Zp) Ki A); cbn [rbind rmap]; auto. destruct (mmul (mopp K_xz) a); cbn [rbind rmap]; auto.
    destruct (mmul a0 Ki); cbn [rbind rmap]; auto. apply (mmul_col a1 (S3 D X Zp l) D d (fun m d => Sgrad (mr X) D (lsc l) (get X) (get Zp) d m)); auto.
  Qed.
  Theorem C45_function_columns C d : (d < D)%nat ->
    match score_function_multid_seperate_fun E X Zp C "RBF" l (Z.of_nat d + 1), score_function_multid_seperate_all_dims_fun E X Zp C "RBF" l with
    | Ok f, Ok F => forall x, f x = rmap (fun A => col A d) (F x)
    | Err e, Err e' => e = e'
    | _, _ => False
    end.
  Proof.
    intro Hd. unfold score_function_multid_seperate_fun, score_function_multid_seperate_all_dims_fun.
    destruct (preps d Hd) as [(e & -> & ->)|(K_xz & Ki & A & -> & ->)]; cbn [rbind]; [reflexivity|]. intro x.
    unfold eval_fun. destruct (Ksz_of "RBF" Zp l x); cbn [rbind rmap]; auto. destruct (inner_inv E C (mr Zp) Ki A); cbn [rbind rmap]; auto.
    destruct (mmul a (mopp a0)); cbn [rbind rmap]; auto.
    destruct (mmul a1 Ki); cbn [rbind rmap]; auto. apply (mmul_col a2 (S3 D X Zp l) D d (fun m d => Sgrad (mr X) D (lsc l) (get X) (get Zp) d m)); auto.
  Qed.
End Free.

(** ** With a correct matrix inverse *)
(** the estimators with one output dimension, on samples; and those returning a function *)
Inductive sample_estimator {S} (E : Ext R S) : (mat R -> mat R -> R -> lscale R -> Z -> res (list R)) -> Prop :=
| se_separate : sample_estimator E (fun X Zp C l w => score_function_multid_seperate E X Zp C "RBF" l w)
| se_old : sample_estimator E (fun X Zp C l w => score_function_multid_seperate_old E X Zp C "RBF" l w)
| se_two : sample_estimator E (fun X Zp C l w => score_function_multid_seperate2 E X Zp C "RBF" l w).
Inductive function_estimator {S} (E : Ext R S) : (mat R -> mat R -> R -> lscale R -> Z -> res (mat R -> res (list R))) -> Prop :=
| fe_separate : function_estimator E (fun X Zp C l w => score_function_multid_seperate_fun E X Zp C "RBF" l w)
| fe_old : function_estimator E (fun X Zp C l w => score_function_multid_seperate_old_fun E X Zp C "RBF" l w).

Definition estimator_args (D : nat) (X Zp : mat R) (l : lscale R) (C : R) : Prop :=
  kernel_args D X Zp l /\ (forall d, (d < D)%nat -> scale_of l d <> 0) /\ - 0.001 < C.

Section Contract.
  Context {S : Type} (E : Ext R S) (HI : inv_contract E).

  Lemma est_solves D X Zp l C d a : estimator_args D X Zp l C -> (d < D)%nat -> solves D X Zp l C d a ->
    score_function_multid_seperate E X Zp C "RBF" l (Z.of_nat d + 1) = Ok (values (mr Zp) D (lsc l) (get Zp) a X) /\
    exists fn, score_function_multid_seperate_fun E X Zp C "RBF" l (Z.of_nat d + 1) = Ok fn /\
      forall x, mc x = D -> fn x = Ok (values (mr Zp) D (lsc l) (get Zp) a x).
  Proof.
    intros ((Hx & Hy & Hl) & Hn & HC) Hd Ha.
    destruct (est_one E HI D X Zp l Hn C ltac:(lra) (K_of "RBF") (grdx_of "RBF") d a) as (H1 & H2); auto; [now apply K_sep_R|now apply K_sep_R| |].
    { apply grdx_R; auto. now apply K_sep_R. }
    split; [exact H1|]. destruct (H2 (Ksz_of "RBF")) as (fn & F1 & F2 & _). exists fn. split; [exact F1|]. intros x Hxx. apply F2. apply Ksz_R; auto; lia.
  Qed.
  Lemma est_all_solves D X Zp l C a : estimator_args D X Zp l C -> (forall d, (d < D)%nat -> solves D X Zp l C d (a d)) ->
    score_function_multid_seperate_all_dims E X Zp C "RBF" l = Ok (values_all (mr Zp) D (lsc l) (get Zp) a X) /\
    exists fn, score_function_multid_seperate_all_dims_fun E X Zp C "RBF" l = Ok fn /\
      forall x, mc x = D -> (1 <= D)%nat -> fn x = Ok (values_all (mr Zp) D (lsc l) (get Zp) a x).
  Proof.
    intros ((Hx & Hy & Hl) & Hn & HC) Ha.
    destruct (est_all E HI D X Zp l Hx Hy Hl Hn C ltac:(lra) K_all a) as (H1 & H2); auto; [now apply K_all_R|now apply K_all_R|].
    split; [exact H1|]. destruct (H2 (Ksz_of "RBF")) as (fn & F1 & F2 & _). exists fn. split; [exact F1|]. intros x Hxx HD. apply F2. now apply Ksz_R.
  Qed.
  Lemma sample_sep est D X Zp l C w : sample_estimator E est -> kernel_args D X Zp l -> est X Zp C l w = score_function_multid_seperate E X Zp C "RBF" l w.
  Proof. intros H HA. destruct H; [reflexivity| |]; apply (C45_old E D X Zp l HA C w). Qed.
  Lemma fun_sep est D X Zp l C w : function_estimator E est -> kernel_args D X Zp l -> est X Zp C l w = score_function_multid_seperate_fun E X Zp C "RBF" l w.
  Proof. intros H HA. destruct H; [reflexivity|]. apply (C45_old E D X Zp l HA C w). Qed.

  (** C43: the estimate at the samples is the kernel expansion, with the coefficients that minimise regularised score matching *)
  Theorem C43_samples est D X Zp l C d : sample_estimator E est -> estimator_args D X Zp l C -> (d < D)%nat ->
    exists a, minimises (mr X) (mr Zp) D (scale_of l) (get X) (get Zp) d (C + 0.001) 0.001 a /\
      est X Zp C l (Z.of_nat d + 1)%Z = Ok (map (fun n => expansion (mr Zp) D (scale_of l) (get Zp) a (get X n)) (seq 0 (mr X))).
  Proof.
    intros He HA Hd. pose proof HA as ((Hx & Hy & Hl) & Hn & HC).
    destruct (coeffs_exist (mr X) (mr Zp) D (lsc l) (get X) (get Zp) Hn (C + 0.001) d ltac:(lra)) as (a & Ha). exists a. split.
    - apply coeffs_minimise; auto. lra.
    - rewrite (sample_sep est D) by (auto; apply HA). now destruct (est_solves D X Zp l C d a HA Hd Ha) as (-> & _).
  Qed.
  (** ... and so is the returned function, at every point of R^D *)
  Theorem C43_functions est D X Zp l C d : function_estimator E est -> estimator_args D X Zp l C -> (d < D)%nat ->
    exists a fn, minimises (mr X) (mr Zp) D (scale_of l) (get X) (get Zp) d (C + 0.001) 0.001 a /\ est X Zp C l (Z.of_nat d + 1)%Z = Ok fn /\
      forall x, mc x = D -> fn x = Ok (map (fun i => expansion (mr Zp) D (scale_of l) (get Zp) a (get x i)) (seq 0 (mr x))).
  Proof.
    intros He HA Hd. pose proof HA as ((Hx & Hy & Hl) & Hn & HC).
    destruct (coeffs_exist (mr X) (mr Zp) D (lsc l) (get X) (get Zp) Hn (C + 0.001) d ltac:(lra)) as (a & Ha).
    destruct (est_solves D X Zp l C d a HA Hd Ha) as (_ & fn & F1 & F2). exists a, fn. split; [|split].
    - apply coeffs_minimise; auto. lra.
    - rewrite (fun_sep est D) by (auto; apply HA). exact F1.
    - exact F2.
  Qed.
  (** all dimensions at once: an N x D array whose column d belongs to coordinate d *)
  Theorem C43_all_dims D X Zp l C : estimator_args D X Zp l C -> (1 <= D)%nat ->
    exists a A fn, (forall d, (d < D)%nat -> minimises (mr X) (mr Zp) D (scale_of l) (get X) (get Zp) d (C + 0.001) 0.001 (a d)) /\
      score_function_multid_seperate_all_dims E X Zp C "RBF" l = Ok A /\ score_function_multid_seperate_all_dims_fun E X Zp C "RBF" l = Ok fn /\
      (forall x, mc x = D -> exists F, fn x = Ok F /\ mr F = mr x /\ mc F = D /\
         forall i d, (i < mr x)%nat -> (d < D)%nat -> get F i d = expansion (mr Zp) D (scale_of l) (get Zp) (a d) (get x i)) /\
      mr A = mr X /\ mc A = D /\ forall n d, (n < mr X)%nat -> (d < D)%nat -> get A n d = expansion (mr Zp) D (scale_of l) (get Zp) (a d) (get X n).
  Proof.
    intros HA HD. pose proof HA as ((Hx & Hy & Hl) & Hn & HC).
    set (a := fun d => solve (mr Zp) (Nmat (mr X) D (lsc l) (get X) (get Zp) (C + 0.001)) (fun m => - Sgrad (mr X) D (lsc l) (get X) (get Zp) d m)).
    assert (Ha : forall d, (d < D)%nat -> solves D X Zp l C d (a d)). { intros d Hd m Hm. apply solve_ok; auto. apply Nmat_pd; auto. lra. }
    destruct (est_all_solves D X Zp l C a HA Ha) as (H1 & fn & F1 & F2).
    exists a, (values_all (mr Zp) D (lsc l) (get Zp) a X), fn. split; [|split; [|split; [|split]]]; auto.
    - intros d Hd. apply coeffs_minimise; auto. lra. now apply Ha.
    - intros x Hxx. eexists. split; [now apply F2|]. split; [reflexivity|]. split; [reflexivity|]. intros. unfold values_all. now rewrite get_mk.
    - split; [reflexivity|]. split; [reflexivity|]. intros. unfold values_all. now rewrite get_mk.
  Qed.
  (** the minimising coefficients are unique *)
  Theorem C43_unique N M D l x z d lam rho a b : (d < D)%nat -> minimises N M D l x z d lam rho a -> minimises N M D l x z d lam rho b ->
    forall m, (m < M)%nat -> a m = b m.
  Proof. apply minimises_unique. Qed.
End Contract.

(** C42: the Gram matrix is positive semidefinite ... *)
Theorem C42_gram K D Zp l : numpy_kernel K -> kernel_args D Zp Zp l -> (forall d, (d < D)%nat -> scale_of l d <> 0) ->
  exists A, K Zp Zp l = Ok A /\ forall v, 0 <= sumn (mr Zp) (fun i => sumn (mr Zp) (fun j => v i * v j * get A i j)).
Proof.
  intros HK Ha Hn. destruct (C39_numpy_kernels K D Zp Zp l HK Ha) as (A & HA & _ & _ & G). exists A. split; [auto|]. intro v.
  rewrite (sumn_ext _ _ (fun i => sumn (mr Zp) (fun j => v i * v j * gaussk D (scale_of l) (get Zp i) (get Zp j)))).
  2:{ intros i Hi. apply sumn_ext. intros j Hj. now rewrite G. }
  now apply (gaussk_psd (mr Zp) D (scale_of l) (get Zp) Hn v).
Qed.

Section Never.
  Context {S : Type} (E : Ext R S) (HI : inv_contract E).
  (** which_dim counts from 1; Python's negative indexing makes 0, -1, ... mean the last, last but one, ... *)
  Lemma pyidx_neg n z : (- Z.of_nat n <= z < 0)%Z -> pyidx n z = pyidx n (z + Z.of_nat n).
  Proof.
    intro H. unfold pyidx. destruct (Z.leb_spec 0 z); [lia|]. destruct (Z.leb_spec (- Z.of_nat n) z); [|lia].
    destruct (Z.leb_spec 0 (z + Z.of_nat n)); [|lia]. destruct (Z.ltb_spec (z + Z.of_nat n) (Z.of_nat n)); [|lia]. f_equal. lia.
  Qed.
  Lemma grdx_neg K D X Zp l w : kernel_args D X Zp l -> (1 - Z.of_nat D <= w <= 0)%Z -> grdx_K K X Zp l w = grdx_K K X Zp l (w + Z.of_nat D).
  Proof.
    intros (Hx & Hy & Hl) Hw. unfold grdx_K. cbv zeta.
    assert (Q1 : diffs_at X Zp (w - 1) = diffs_at X Zp (w + Z.of_nat D - 1)).
    { unfold diffs_at. rewrite Hx, Hy, bok_refl, bdim_refl. rewrite (pyidx_neg D (w - 1)) by lia. now replace (w - 1 + Z.of_nat D)%Z with (w + Z.of_nat D - 1)%Z by lia. }
    assert (Q2 : lsq_at l (w - 1) = lsq_at l (w + Z.of_nat D - 1)).
    { destruct l as [|ls]; [reflexivity|]. cbn in Hl. cbn [lsq_at]. unfold pyget. rewrite Hl, (pyidx_neg D (w - 1)) by lia. now replace (w - 1 + Z.of_nat D)%Z with (w + Z.of_nat D - 1)%Z by lia. }
    now rewrite Q1, Q2.
  Qed.
  Lemma prep_neg D X Zp l w : kernel_args D X Zp l -> (1 - Z.of_nat D <= w <= 0)%Z ->
    prep E (K_of "RBF") (grdx_of "RBF") X Zp l w = prep E (K_of "RBF") (grdx_of "RBF") X Zp l (w + Z.of_nat D).
  Proof. intros HA Hw. unfold prep. unfold grdx_of. cbn [String.eqb Ascii.eqb Bool.eqb]. now rewrite (grdx_neg K_sep D X Zp l w HA Hw). Qed.
  Lemma prep_out D X Zp l w : estimator_args D X Zp l 1 -> (w < 1 - Z.of_nat D \/ Z.of_nat D < w)%Z ->
    prep E (K_of "RBF") (grdx_of "RBF") X Zp l w = Err IndexError.
  Proof.
    intros ((Hx & Hy & Hl) & Hn & _) Hw. unfold prep, K_of, grdx_of. cbn [String.eqb Ascii.eqb Bool.eqb].
    rewrite (K_sep_R D X Zp l), (K_sep_R D Zp Zp l) by auto. cbn [rbind].
    destruct (reg_inv_R E HI (mr Zp) D (lsc l) (get Zp) Hn) as (Ki & K1 & _). unfold Kmat at 1. rewrite K1. cbn [rbind]. rewrite A_mk. cbn [rbind].
    rewrite (grdx_out _ D) by auto. reflexivity.
  Qed.
  (** ... so no estimator ever reports a singular matrix: with which_dim in range it returns, otherwise it raises IndexError *)
  Theorem C42_never_singular est D X Zp l C w : sample_estimator E est -> estimator_args D X Zp l C ->
    ((1 - Z.of_nat D <= w <= Z.of_nat D)%Z -> exists v, est X Zp C l w = Ok v /\ length v = mr X) /\
    (~ (1 - Z.of_nat D <= w <= Z.of_nat D)%Z -> est X Zp C l w = Err IndexError).
  Proof.
    intros He HA. pose proof HA as (Hk & Hn & HC). rewrite (sample_sep E est D) by auto.
    assert (Pos : forall d, (d < D)%nat -> exists v, score_function_multid_seperate E X Zp C "RBF" l (Z.of_nat d + 1) = Ok v /\ length v = mr X).
    { intros d Hd. destruct (C43_samples E HI _ D X Zp l C d (se_separate E) HA Hd) as (a & _ & ->). eexists. split; [reflexivity|]. now rewrite map_length, seq_length. }
    split; intro Hw.
    - destruct (Z_lt_le_dec 0 w) as [Hp|Hp].
      + destruct (Pos (Z.to_nat (w - 1)) ltac:(lia)) as (v & Hv). exists v. now replace (Z.of_nat (Z.to_nat (w - 1)) + 1)%Z with w in Hv by lia.
      + destruct (Pos (Z.to_nat (w + Z.of_nat D - 1)) ltac:(lia)) as (v & Hv). exists v. replace (Z.of_nat (Z.to_nat (w + Z.of_nat D - 1)) + 1)%Z with (w + Z.of_nat D)%Z in Hv by lia.
        unfold score_function_multid_seperate in *. now rewrite (prep_neg D X Zp l w Hk) by lia.
    - unfold score_function_multid_seperate. rewrite (prep_out D); [reflexivity| |lia]. split; [auto|]. split; [auto|lra].
  Qed.
  Theorem C42_never_singular_all_dims D X Zp l C : estimator_args D X Zp l C -> (1 <= D)%nat ->
    (exists A, score_function_multid_seperate_all_dims E X Zp C "RBF" l = Ok A) /\
    exists fn, score_function_multid_seperate_all_dims_fun E X Zp C "RBF" l = Ok fn /\ forall x, mc x = D -> exists F, fn x = Ok F.
  Proof.
    intros HA HD. destruct (C43_all_dims E HI D X Zp l C HA HD) as (a & A & fn & _ & H1 & H2 & H3 & _). split; [eauto|]. exists fn. split; [auto|].
    intros x Hx. destruct (H3 x Hx) as (F & HF & _). eauto.
  Qed.
  Theorem C42_functions_never_singular est D X Zp l C d : function_estimator E est -> estimator_args D X Zp l C -> (d < D)%nat ->
    exists fn, est X Zp C l (Z.of_nat d + 1)%Z = Ok fn /\ forall x, mc x = D -> exists v, fn x = Ok v /\ length v = mr x.
  Proof.
    intros He HA Hd. destruct (C43_functions E HI est D X Zp l C d He HA Hd) as (a & fn & _ & H1 & H2). exists fn. split; [auto|].
    intros x Hx. eexists. split; [now apply H2|]. now rewrite map_length, seq_length.
  Qed.
  (** the hypothesis on C is needed: with C = -0.001 and no samples the inner matrix is zero *)
  Theorem C42_boundary M : (1 <= M)%nat ->
    score_function_multid_seperate E (mk 0 1 (fun _ _ => 0)) (mk M 1 (fun m _ => INR m)) (-0.001) "RBF" (LScal 1) 1 = Err LinAlgError.
  Proof.
    intro HM. unfold score_function_multid_seperate. set (X := mk 0 1 (fun _ _ => 0)). set (Zp := mk M 1 (fun m _ => INR m)).
    assert (Hn : forall d, (d < 1)%nat -> lsc (LScal 1) d <> 0) by (intros; cbn; lra).
    destruct (prep_R E HI 1 X Zp (LScal 1) Hn (K_of "RBF") (grdx_of "RBF") 0) as (Ki & HK & Q); [now apply K_sep_R|now apply K_sep_R| |lia|].
    { apply grdx_R; [reflexivity|reflexivity|exact I|lia|]. now apply K_sep_R. }
    replace (Z.of_nat 0 + 1)%Z with 1%Z in Q by lia. rewrite Q. cbn [rbind]. unfold eval_at_samples. change (mr Zp) with M.
    assert (HE : inner_inv E (-0.001) M (mk M M Ki) (mk M M (Agram 0 1 (lsc (LScal 1)) (get X) (get Zp))) = Err LinAlgError).
    { unfold inner_inv. rewrite mmul_mk_R. cbn [rbind]. rewrite eye_mk. unfold smul. rewrite !mmap1_mk, bc2_mk. cbn [rbind]. rewrite bc2_mk. cbn [rbind].
      rewrite (mk_ext M M _ (fun _ _ => 0)).
      2:{ intros. rewrite nmilli_R. cbn. rewrite sumn_0 by (intros; ring). lra. }
      unfold linalg_inv. cbn [mk mr mc]. rewrite Nat.eqb_refl. specialize (HI (mk M M (fun _ _ => 0)) eq_refl). cbn [mk mr] in HI.
      change {| mr := M; mc := M; md := _ |} with (mk M M (fun _ _ => 0)) in *. destruct (x_inv E (mk M M (fun _ _ => 0))) as [h|]; [|reflexivity]. exfalso.
      destruct (HI O O ltac:(lia) ltac:(lia)) as (H1 & _). rewrite sumn_0 in H1. { unfold delta in H1. cbn in H1. lra. }
      intros i Hi. rewrite get_mk by lia. ring. }
    change (mr X) with O. rewrite HE. reflexivity.
  Qed.
End Never.
