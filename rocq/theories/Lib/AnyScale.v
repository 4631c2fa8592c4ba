(** The two matrices the estimators invert are invertible for EVERY lengthscale, also when one of them is zero (over the
    reals x/0 = 0, so a zero lengthscale only drops the coordinate from the kernel; numpy produces nan there). *)
From Coq Require Import String List ZArith Reals Lra Lia Bool.
From Verif Require Import Base.Num Base.Py Base.Arr Lib.ArrLemmas Model.Ext Model.Cdist Model.Score Lib.ScoreLemmas.
From Verif Require Import Spec.RealSpec Spec.Contracts Spec.KernelSpec Lib.RSum Lib.RMat Lib.Gauss Lib.KernelForms Lib.Estimator Lib.EstForms Lib.TotalLemmas.
Import ListNotations.
Local Open Scope R_scope.

Lemma gaussk_factor_any D l x y :
  gaussk D l x y = exp (- sumn D (fun d => (x d / l d) ^ 2 / 2)) * exp (- sumn D (fun d => (y d / l d) ^ 2 / 2)) * exp (sumn D (fun d => x d / l d * (y d / l d))).
Proof.
  unfold gaussk. rewrite <- !exp_plus. f_equal. rewrite <- !sumn_opp, <- !sumn_plus. apply sumn_ext. intros d Hd.
  destruct (Req_dec (l d) 0) as [->|Hn]; [|field; auto]. unfold Rdiv. rewrite Rinv_0. replace (2 * 0 ^ 2) with 0 by ring. rewrite Rinv_0. ring.
Qed.
Lemma gaussk_psd_any n D l (z : nat -> nat -> R) : psd n (fun i j => gaussk D l (z i) (z j)).
Proof.
  intros v. set (e := fun i => exp (- sumn D (fun d => (z i d / l d) ^ 2 / 2))).
  replace (qf n _ v) with (qf n (fun i j => exp (sumn D (fun d => z i d / l d * (z j d / l d)))) (fun i => v i * e i)).
  - apply (psd_exp n D (fun i d => z i d / l d)).
  - unfold qf. apply sumn_ext. intros i _. apply sumn_ext. intros j _. rewrite gaussk_factor_any. unfold e. ring.
Qed.
Lemma Kreg_pd_any M D l z : pd M (Kreg D l z).
Proof. apply pd_plus; [apply gaussk_psd_any|]. apply pd_scal; [lra|apply pd_delta]. Qed.
Lemma Nmat_pd_any N M D l x z c : 0 < c -> pd M (Nmat N D l x z c).
Proof. intro Hc. apply pd_plus; [|apply pd_scal; [auto|apply Kreg_pd_any]]. apply (psd_gram M N (fun n m => gaussk D l (x n) (z m))). Qed.

Section Any.
  Context {S : Type} (E : Ext R S) (HI : inv_contract E).
  Lemma reg_inv_any M D l z : exists Ki, reg_inv E (mk M M (fun i j => gaussk D l (z i) (z j))) M = Ok (mk M M Ki) /\ inverse_of M (Kreg D l z) Ki.
  Proof.
    unfold reg_inv. rewrite eye_mk. unfold smul. rewrite mmap1_mk, bc2_mk. cbn [rbind].
    rewrite (mk_ext M M _ (Kreg D l z)). 2:{ intros. unfold Kreg. rewrite nmilli_R. reflexivity. }
    apply (inv_R E HI). exists (pdinv M (Kreg D l z)). apply pd_inverse. apply Kreg_pd_any.
  Qed.
  Lemma inner_inv_any N M D l x z C Ki : 0 < C + 0.001 -> inverse_of M (Kreg D l z) Ki ->
    exists Hi, inner_inv E C M (mk M M Ki) (mk M M (Agram N D l x z)) = Ok (mk M M Hi).
  Proof.
    intros HC HK. unfold inner_inv. rewrite mmul_mk_R. cbn [rbind]. rewrite eye_mk. unfold smul. rewrite !mmap1_mk, bc2_mk. cbn [rbind]. rewrite bc2_mk. cbn [rbind].
    rewrite (mk_ext M M _ (fun i j => (C + 0.001) * delta i j + mm M Ki (Agram N D l x z) i j)).
    2:{ intros. rewrite nmilli_R. unfold mm. cbn. ring. }
    edestruct (inv_R E HI) as (Hi & H1 & _); [|eauto]. exists (mm M (pdinv M (Nmat N D l x z (C + 0.001))) (Kreg D l z)).
    apply (inverse_of_ext M (mm M Ki (Nmat N D l x z (C + 0.001)))).
    2:{ apply inverse_mm. { now apply inverse_of_sym. } apply pd_inverse. now apply Nmat_pd_any. }
    intros i j Hi Hj. destruct (HK i j Hi Hj) as (_ & H2). unfold mm, Nmat.
    rewrite (sumn_ext M _ (fun k => Ki i k * Agram N D l x z k j + (C + 0.001) * (Ki i k * Kreg D l z k j))) by (intros; ring).
    rewrite sumn_plus, sumn_scal, H2. ring.
  Qed.

  Lemma scores_ok_R dim : scores_ok E dim.
  Proof.
    intros X Zp ls d HX HZ Hls Hd.
    assert (Hlk : lok dim (LVec ls)) by exact Hls.
    destruct (reg_inv_any (mr Zp) dim (lsc (LVec ls)) (get Zp)) as (Ki & K1 & K2).
    destruct (inner_inv_any (mr X) (mr Zp) dim (lsc (LVec ls)) (get X) (get Zp) nmilli Ki) as (Hi & H4); auto. { rewrite nmilli_R. lra. }
    assert (HP : exists s, prep E (K_of "RBF") (grdx_of "RBF") X Zp (LVec ls) (Z.of_nat d + 1) =
       Ok (Kmat dim (LVec ls) X Zp, mk (mr Zp) (mr Zp) Ki, mk (mr Zp) (mr Zp) (Agram (mr X) dim (lsc (LVec ls)) (get X) (get Zp)), s) /\ s = mk (mr Zp) 1 (fun m _ => Sgrad (mr X) dim (lsc (LVec ls)) (get X) (get Zp) d m)).
    { eexists. split; [|reflexivity]. unfold prep, K_of, grdx_of. cbn [String.eqb Ascii.eqb Bool.eqb].
      rewrite (K_sep_R dim X Zp (LVec ls)) by auto. cbn [rbind]. rewrite (K_sep_R dim Zp Zp (LVec ls)) by auto. cbn [rbind].
      unfold Kmat at 1. rewrite K1. cbn [rbind]. rewrite (A_mk dim X Zp (LVec ls)). cbn [rbind]. rewrite (grdx_R K_sep dim X Zp (LVec ls)); auto.
      - cbn [rbind]. now rewrite (sum0_G dim X Zp (LVec ls)) by auto.
      - now apply K_sep_R. }
    destruct HP as (s & HP & ->). split.
    - unfold score_function_multid_seperate. rewrite HP. cbn [rbind]. unfold Kmat.
      edestruct (eval_mk E (mr X) (mr Zp) 1 (fun i j => gaussk dim (lsc (LVec ls)) (get X i) (get Zp j)) Hi Ki (fun m _ => Sgrad (mr X) dim (lsc (LVec ls)) (get X) (get Zp) d m) nmilli _ H4) as (-> & _).
      cbn [rmap]. eauto.
    - unfold score_function_multid_seperate_fun. rewrite HP. cbn [rbind]. eexists. split; [reflexivity|]. intros x Hx. cbv beta.
      edestruct (eval_mk E (mr x) (mr Zp) 1 (fun i j => gaussk dim (lsc (LVec ls)) (get x i) (get Zp j)) Hi Ki (fun m _ => Sgrad (mr X) dim (lsc (LVec ls)) (get X) (get Zp) d m) nmilli _ H4) as (_ & Q).
      rewrite (Q (Ksz_of "RBF" Zp (LVec ls)) x). { cbn [rmap]. eauto. }
      apply (Ksz_R dim x Zp (LVec ls)); auto. lia.
  Qed.
End Any.
