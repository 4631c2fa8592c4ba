(** Every RBF estimator of the code is the kernel expansion with the coefficients of the normal equations. *)
From Coq Require Import String List ZArith Reals Lra Lia Bool.
From Verif Require Import Base.Num Base.Py Base.Arr Lib.ArrLemmas Model.Ext Model.Cdist Model.Score Model.ScoreTorch Lib.ScoreLemmas.
From Verif Require Import Spec.RealSpec Spec.Contracts Spec.KernelSpec Lib.RSum Lib.RMat Lib.Gauss Lib.KernelForms Lib.Estimator.
Import ListNotations.
Local Open Scope R_scope.

Definition values (M D : nat) (l : nat -> R) (z : nat -> nat -> R) (a : nat -> R) (x : mat R) : list R :=
  map (fun i => expansion M D l z a (get x i)) (seq 0 (mr x)).
Definition values_all (M D : nat) (l : nat -> R) (z : nat -> nat -> R) (a : nat -> nat -> R) (x : mat R) : mat R :=
  mk (mr x) D (fun i d => expansion M D l z (a d) (get x i)).
Lemma flat_mk r (f : nat -> nat -> R) : flat (mk r 1 f) = map (fun i => f i O) (seq 0 r).
Proof. unfold flat. rewrite col_mk by lia. reflexivity. Qed.

Section F.
  Context {S : Type} (E : Ext R S) (HI : inv_contract E).
  Context (D : nat) (X Zp : mat R) (l : lscale R) (HX : mc X = D) (HZ : mc Zp = D) (Hlk : lok D l) (Hl : forall d, (d < D)%nat -> lsc l d <> 0).
  Context (C : R) (HC : 0 < C + 0.001).
  Let N := mr X. Let M := mr Zp.
  Let L := lsc l.

  Definition solves (d : nat) (a : nat -> R) : Prop := coeffs N M D L (get X) (get Zp) d (C + 0.001) a.

  Lemma sum0_G d : (d < D)%nat -> sum0 (mopp (Gmat D l X Zp d)) = mk M 1 (fun m _ => Sgrad N D L (get X) (get Zp) d m).
  Proof.
    intro Hd. unfold sum0, mopp, Gmat. rewrite mmap1_mk. cbn [mk mc]. apply mk_ext. intros m j Hm _.
    fold (mk (T := R) (mr X) (mr Zp)). change {| mr := ?r; mc := ?c; md := ?m |} with {| mr := r; mc := c; md := m |}.
    match goal with |- nsum (col ?A m) = _ => change A with (mk (mr X) (mr Zp) (fun i j => nopp ((get X i d - get Zp j d) * gaussk D (lsc l) (get X i) (get Zp j) / (lsc l d * lsc l d)))) end.
    rewrite col_mk by exact Hm. rewrite nsum_seq. unfold Sgrad. apply sumn_ext. intros n Hn. unfold dgauss. fold L. cbn. unfold Rdiv. ring.
  Qed.
  Lemma A_mk : mmul (mT (Kmat D l X Zp)) (Kmat D l X Zp) = Ok (mk M M (Agram N D L (get X) (get Zp))).
  Proof. unfold Kmat. rewrite mT_mk, mmul_mk_R. reflexivity. Qed.

  Lemma prep_R K grd d : K X Zp l = Ok (Kmat D l X Zp) -> K Zp Zp l = Ok (Kmat D l Zp Zp) -> grd X Zp l (Z.of_nat d + 1)%Z = Ok (Gmat D l X Zp d) -> (d < D)%nat ->
    exists Ki, inverse_of M (Kreg D L (get Zp)) Ki /\
    prep E K grd X Zp l (Z.of_nat d + 1) = Ok (Kmat D l X Zp, mk M M Ki, mk M M (Agram N D L (get X) (get Zp)), mk M 1 (fun m _ => Sgrad N D L (get X) (get Zp) d m)).
  Proof.
    intros H1 H2 H3 Hd. destruct (reg_inv_R E HI M D L (get Zp) Hl) as (Ki & K1 & K2). exists Ki. split; [auto|].
    unfold prep. rewrite H1. cbn [rbind]. rewrite H2. cbn [rbind]. fold M. change (Kmat D l Zp Zp) with (mk M M (fun i j => gaussk D L (get Zp i) (get Zp j))). rewrite K1. cbn [rbind].
    rewrite A_mk. cbn [rbind]. rewrite H3. cbn [rbind]. now rewrite sum0_G.
  Qed.

  Lemma alpha_is d a Ki Hi : solves d a -> inverse_of M (Kreg D L (get Zp)) Ki ->
    inverse_of M (fun i j => (C + 0.001) * delta i j + mm M Ki (Agram N D L (get X) (get Zp)) i j) Hi ->
    forall m, (m < M)%nat -> - mv M Hi (mv M Ki (fun t => Sgrad N D L (get X) (get Zp) d t)) m = a m.
  Proof.
    intros Ha HK HH. apply (coeffs_unique N M D L (get X) (get Zp) Hl (C + 0.001) d); auto.
    intros m Hm. now apply (alpha_normal N M D L (get X) (get Zp) C Ki Hi).
  Qed.
  Lemma kernel_sum d a Ki Hi x i : solves d a -> inverse_of M (Kreg D L (get Zp)) Ki ->
    inverse_of M (fun i j => (C + 0.001) * delta i j + mm M Ki (Agram N D L (get X) (get Zp)) i j) Hi ->
    sumn M (fun m => - mv M Hi (mv M Ki (fun t => Sgrad N D L (get X) (get Zp) d t)) m * gaussk D L (get x i) (get Zp m)) = expansion M D L (get Zp) a (get x i).
  Proof. intros Ha HK HH. unfold expansion. apply sumn_ext. intros m Hm. now rewrite (alpha_is d a Ki Hi). Qed.

  (** estimators with one output dimension *)
  Theorem est_one K grd d a : K X Zp l = Ok (Kmat D l X Zp) -> K Zp Zp l = Ok (Kmat D l Zp Zp) -> grd X Zp l (Z.of_nat d + 1)%Z = Ok (Gmat D l X Zp d) -> (d < D)%nat ->
    solves d a ->
    (let! (K_xz, Ksinv, A, s) := prep E K grd X Zp l (Z.of_nat d + 1) in rmap flat (eval_at_samples E C (mr Zp) K_xz Ksinv A s)) = Ok (values M D L (get Zp) a X) /\
    forall Ks, exists fn,
      (let! (K_xz, Ksinv, A, s) := prep E K grd X Zp l (Z.of_nat d + 1) in Ok (fun x => rmap flat (eval_fun E (Ks Zp l) C (mr Zp) Ksinv A s x))) = Ok fn /\
      (forall x, Ks Zp l x = Ok (Kmat D l x Zp) -> fn x = Ok (values M D L (get Zp) a x)) /\
      (forall x e, Ks Zp l x = Err e -> fn x = Err e).
  Proof.
    intros H1 H2 H3 Hd Ha. destruct (prep_R K grd d H1 H2 H3 Hd) as (Ki & HK & ->). cbn [rbind]. fold M.
    destruct (inner_inv_R E HI N M D L (get X) (get Zp) Hl C HC Ki HK) as (Hi & H4 & H5). split.
    - unfold Kmat. fold M. destruct (eval_mk E (mr X) M 1 (fun i j => gaussk D (lsc l) (get X i) (get Zp j)) Hi Ki (fun m _ => Sgrad N D L (get X) (get Zp) d m) C _ H4) as (-> & _).
      cbn [rmap]. rewrite flat_mk. unfold values. f_equal. apply map_seq_ext. intros i Hi'. now apply kernel_sum.
    - intro Ks. eexists. split; [reflexivity|]. split.
      + intros x Hx.
        destruct (eval_mk E (mr x) M 1 (fun i j => gaussk D (lsc l) (get x i) (get Zp j)) Hi Ki (fun m _ => Sgrad N D L (get X) (get Zp) d m) C _ H4) as (_ & Q).
        rewrite (Q (Ks Zp l) x) by exact Hx. cbn [rmap]. rewrite flat_mk. unfold values. f_equal. apply map_seq_ext. intros i Hi'. now apply kernel_sum.
      + intros x e Hx. unfold eval_fun. now rewrite Hx.
  Qed.

  (** all output dimensions at once *)
  Definition S3 : mat R := mk M D (fun m d => Sgrad N D L (get X) (get Zp) d m).
  Lemma prep_all_R K : K X Zp l = Ok (Kmat D l X Zp) -> K Zp Zp l = Ok (Kmat D l Zp Zp) ->
    exists Ki, inverse_of M (Kreg D L (get Zp)) Ki /\
    prep_all E K (grdx_K_all K) X Zp l = Ok (Kmat D l X Zp, mk M M Ki, mk M M (Agram N D L (get X) (get Zp)), S3).
  Proof.
    intros H1 H2. destruct (reg_inv_R E HI M D L (get Zp) Hl) as (Ki & K1 & K2). exists Ki. split; [auto|].
    unfold prep_all. rewrite H1. cbn [rbind]. rewrite H2. cbn [rbind]. fold M. change (Kmat D l Zp Zp) with (mk M M (fun i j => gaussk D L (get Zp i) (get Zp j))). rewrite K1. cbn [rbind].
    rewrite A_mk. cbn [rbind]. unfold grdx_K_all. rewrite HX, HZ, bok_refl.
    rewrite (rmapM_intro _ (Gmat D l X Zp)). 2:{ intros d Hd. apply in_seq in Hd. apply grdx_R; auto. lia. }
    cbn [rbind a_d a_n a_k a_s]. f_equal. f_equal. unfold sum0_3, S3. cbn [a_n a_k]. apply mk_ext. intros m d Hm Hd.
    unfold slice. cbn [a_s]. rewrite map_map, nth_map_seq by auto. change (nsum (col (mopp (Gmat D l X Zp d)) m) = Sgrad N D L (get X) (get Zp) d m).
    pose proof (sum0_G d Hd) as Q. apply (f_equal (fun A => get A m 0)) in Q. rewrite get_mk in Q by lia. rewrite <- Q. unfold sum0. rewrite get_mk; [reflexivity| |lia]. exact Hm.
  Qed.
  Theorem est_all K a : K X Zp l = Ok (Kmat D l X Zp) -> K Zp Zp l = Ok (Kmat D l Zp Zp) -> (forall d, (d < D)%nat -> solves d (a d)) ->
    (let! (K_xz, Ksinv, A, s) := prep_all E K (grdx_K_all K) X Zp l in eval_at_samples E C (mr Zp) K_xz Ksinv A s) = Ok (values_all M D L (get Zp) a X) /\
    forall Ks, exists fn,
      (let! (K_xz, Ksinv, A, s) := prep_all E K (grdx_K_all K) X Zp l in Ok (eval_fun E (Ks Zp l) C (mr Zp) Ksinv A s)) = Ok fn /\
      (forall x, Ks Zp l x = Ok (Kmat D l x Zp) -> fn x = Ok (values_all M D L (get Zp) a x)) /\
      (forall x e, Ks Zp l x = Err e -> fn x = Err e).
  Proof.
    intros H1 H2 Ha. destruct (prep_all_R K H1 H2) as (Ki & HK & ->). cbn [rbind]. fold M.
    destruct (inner_inv_R E HI N M D L (get X) (get Zp) Hl C HC Ki HK) as (Hi & H4 & H5). split.
    - unfold Kmat, S3. fold M.
      destruct (eval_mk E (mr X) M D (fun i j => gaussk D (lsc l) (get X i) (get Zp j)) Hi Ki (fun m d => Sgrad N D L (get X) (get Zp) d m) C _ H4) as (-> & _).
      unfold values_all. f_equal. apply mk_ext. intros i d Hi' Hd. apply kernel_sum; auto.
    - intro Ks. eexists. split; [reflexivity|]. split.
      + intros x Hx. unfold S3.
        destruct (eval_mk E (mr x) M D (fun i j => gaussk D (lsc l) (get x i) (get Zp j)) Hi Ki (fun m d => Sgrad N D L (get X) (get Zp) d m) C _ H4) as (_ & Q).
        rewrite (Q (Ks Zp l) x) by exact Hx. unfold values_all. f_equal. apply mk_ext. intros i d Hi' Hd. apply kernel_sum; auto.
      + intros x e Hx. unfold eval_fun. now rewrite Hx.
  Qed.
End F.
