(** C76: the Gaussian scores and the moment equations of the example scripts. *)
From Coq Require Import String List ZArith Reals Lia Lra Bool.
From Verif Require Import Base.Num Base.Py Base.Arr Lib.ArrLemmas Model.Ext Model.DPFC Model.Examples Spec.ExampleSpec Spec.RealSpec Spec.Contracts.
From Verif Require Import Lib.RBase Lib.RSum Lib.RMat Lib.Estimator.
Import ListNotations.
Local Open Scope R_scope.

Lemma sumn_delta_l n f d : (d < n)%nat -> sumn n (fun i => delta i d * f i) = f d.
Proof. intro H. pose proof (mv_delta n f d H) as Q. unfold mv in Q. rewrite <- Q. apply sumn_ext. intros i _. now rewrite (delta_sym i d). Qed.
Lemma at_coord_delta x d s i : at_coord x d s i = x i + (s - x d) * delta i d.
Proof. unfold at_coord, delta. destruct (Nat.eqb_spec i d) as [ -> |]; ring. Qed.
Lemma log_gauss_gradient n J m x d : (d < n)%nat ->
  gradient_at (log_gauss n J m) x d (- (1 / 2) * sumn n (fun j => (J d j + J j d) * (x j - m j))).
Proof.
  intro Hd. set (b := sumn n (fun j => (J d j + J j d) * (x j - m j))).
  set (q := sumn n (fun i => sumn n (fun j => (x i - m i) * J i j * (x j - m j)))).
  assert (F : forall s, log_gauss n J m (at_coord x d s) = - (1 / 2) * (q + (s - x d) * b + (s - x d) ^ 2 * J d d)).
  { intro s. unfold log_gauss. f_equal. set (t := s - x d).
    assert (I : forall i, (i < n)%nat -> sumn n (fun j => (at_coord x d s i - m i) * J i j * (at_coord x d s j - m j))
       = sumn n (fun j => (x i - m i) * J i j * (x j - m j)) + t * ((x i - m i) * J i d) + t * (delta i d * sumn n (fun j => J i j * (x j - m j))) + t ^ 2 * (delta i d * J i d)).
    { intros i Hi.
      transitivity (sumn n (fun j => (x i - m i) * J i j * (x j - m j)) + t * sumn n (fun j => delta j d * ((x i - m i) * J i j))
         + t * (delta i d * sumn n (fun j => J i j * (x j - m j))) + t ^ 2 * (delta i d * sumn n (fun j => delta j d * J i j))).
      - rewrite <- !sumn_scal, <- !sumn_plus. apply sumn_ext. intros j Hj. rewrite !at_coord_delta. fold t. ring.
      - rewrite !sumn_delta_l by exact Hd. reflexivity. }
    rewrite (sumn_ext n _ _ I), !sumn_plus, !sumn_scal. fold q.
    rewrite (sumn_delta_l n (fun i => sumn n (fun j => J i j * (x j - m j))) d Hd), (sumn_delta_l n (fun i => J i d) d Hd).
    unfold b. assert (B : sumn n (fun j => (J d j + J j d) * (x j - m j)) = sumn n (fun i => (x i - m i) * J i d) + sumn n (fun j => J d j * (x j - m j))).
    { rewrite <- sumn_plus. apply sumn_ext. intros; ring. } rewrite B. ring. }
  unfold gradient_at.
  assert (P : derivable_pt_lim (fun s => - (1 / 2) * (q + (s - x d) * b + (s - x d) ^ 2 * J d d)) (x d) (- (1 / 2) * b)).
  { intros eps He. destruct (Req_dec (J d d) 0) as [Z0|N0].
    - exists (mkposreal 1 ltac:(lra)). intros h Hh _. rewrite Z0. match goal with |- Rabs ?v < _ => replace v with 0 by (field; exact Hh) end. rewrite Rabs_R0. exact He.
    - assert (Pj : 0 < Rabs (J d d)) by now apply Rabs_pos_lt.
      exists (mkposreal (2 * eps / Rabs (J d d)) ltac:(apply Rdiv_lt_0_compat; lra)). intros h Hh Hd'. cbn [pos] in Hd'.
      match goal with |- Rabs ?v < _ => replace v with (- (1 / 2) * (h * J d d)) by (field; exact Hh) end.
      rewrite !Rabs_mult. replace (Rabs (- (1 / 2))) with (1 / 2) by (rewrite Rabs_Ropp, Rabs_pos_eq; lra).
      apply (Rmult_lt_compat_r (Rabs (J d d))) in Hd'; [|exact Pj]. replace (2 * eps / Rabs (J d d) * Rabs (J d d)) with (2 * eps) in Hd' by (field; lra). lra. }
  intros eps He. destruct (P eps He) as (dl & Hdl). exists dl. intros h Hh Hd'. rewrite !F. apply Hdl; assumption.
Qed.

Lemma mmul_R (A B : mat R) a b c : mr A = a -> mc A = b -> mr B = b -> mc B = c ->
  mmul A B = Ok (mk a c (fun i j => sumn b (fun l => get A i l * get B l j))).
Proof.
  intros <- <- HB <-. unfold mmul. rewrite HB, Nat.eqb_refl. f_equal. apply mk_ext. intros. rewrite nsum_seq. apply sumn_ext. intros. reflexivity.
Qed.
Lemma transpose_inverse n A J : inverse_of n A J -> inverse_of n (tr A) (tr J).
Proof.
  intros H i j Hi Hj. destruct (H j i Hj Hi) as (H1 & H2). rewrite (delta_sym i j).
  split; [rewrite <- H2 | rewrite <- H1]; apply sumn_ext; intros; unfold tr; ring.
Qed.

Section Scores.
  Context {S : Type} (E : Ext R S) (HI : inv_contract E).
  Lemma inv_gen (C : mat R) n : mr C = n -> mc C = n -> (exists h, inverse_of n (get C) h) ->
    exists g, linalg_inv E C = Ok (mk n n g) /\ inverse_of n (get C) g.
  Proof.
    intros Hr Hc (h & Hh). unfold linalg_inv. rewrite Hr, Hc, Nat.eqb_refl. specialize (HI C ltac:(congruence)). rewrite Hr in HI.
    destruct (x_inv E C) as [g|]; [exists g; split; auto|]. exfalso. apply HI. exists h. exact Hh.
  Qed.

  (** nonconservative script: the score function of the linearised dynamics is the gradient of the Gaussian log density with the mean and
      the (invertible, not necessarily symmetric) covariance it is given, at every column of x *)
  Theorem C76_linearised_score n c (C : mat R) (m : list R) (x : mat R) :
    mr C = n -> mc C = n -> List.length m = n -> mr x = n -> mc x = c -> (exists h, inverse_of n (get C) h) ->
    exists G J, nc_grad_log_p E C m x = Ok G /\ mr G = n /\ mc G = c /\ inverse_of n (get C) J
      /\ forall d j, (d < n)%nat -> (j < c)%nat ->
           gradient_at (log_gauss n J (fun i => nth i m 0)) (fun i => get x i j) d (get G d j).
  Proof.
    intros Hr Hc Hm Rx Cx HJ. destruct (inv_gen C n Hr Hc HJ) as (J & H1 & I1).
    assert (HJ' : exists h, inverse_of n (get (mT C)) h).
    { exists (tr J). apply (inverse_of_ext n (tr (get C))); [|now apply transpose_inverse]. intros i j Hi Hj. unfold tr, mT. rewrite get_mk by lia. reflexivity. }
    destruct (inv_gen (mT C) n ltac:(cbn; auto) ltac:(cbn; auto) HJ') as (J2 & H2 & I2).
    assert (EQ : forall i j, (i < n)%nat -> (j < n)%nat -> J2 i j = J j i).
    { intros i j Hi Hj. apply (inverse_of_unique n (get (mT C)) J2 (tr J)); auto.
      apply (inverse_of_ext n (tr (get C))); [|now apply transpose_inverse]. intros a b Ha Hb. unfold tr, mT. rewrite get_mk by lia. reflexivity. }
    unfold nc_grad_log_p. rewrite H1, H2. cbn [rbind]. rewrite (bc2_same nadd _ _ n n) by reflexivity. cbn [rbind].
    assert (D : bc2 nsub (mT x) (vec m) = Ok (mk c n (fun a b => get x b a - nth b m 0))).
    { unfold bc2. cbn [mT vec mk mr mc]. rewrite Rx, Cx, Hm. replace (bok c 1) with true by (symmetry; apply bok_spec; auto). replace (bok n n) with true by (symmetry; apply bok_spec; auto).
      cbn [andb]. f_equal. replace (bdim c 1) with c by (unfold bdim; destruct (Nat.eqb_spec c 1); congruence). rewrite bdim_refl. apply mk_ext. intros a b Ha Hb.
      unfold bget. change (mr (mT x)) with (mc x). change (mc (mT x)) with (mr x). change (mr (vec m)) with 1%nat. change (mc (vec m)) with (List.length m). rewrite Hm, Rx, Cx, !bidx_lt by (assumption || lia). unfold mT, vec. rewrite ?bidx_1. rewrite !get_mk by lia. reflexivity. }
    rewrite D. cbn [rbind]. rewrite (mmul_R _ _ n n c) by reflexivity.
    eexists _, J. split; [reflexivity|]. split; [reflexivity|]. split; [reflexivity|]. split; [exact I1|]. intros d j Hd Hj. rewrite get_mk by lia.
    pose proof (log_gauss_gradient n J (fun i => nth i m 0) (fun i => get x i j) d Hd) as Gd.
    eapply eq_ind; [exact Gd|]. rewrite <- sumn_scal. apply sumn_ext. intros l Hl. unfold smul, mT. rewrite get_mmap1 by (cbn; lia). rewrite !get_mk by lia.
    cbn [nadd nmul nlit ROps]. rewrite EQ by lia. rewrite !get_mk by (cbn; lia). lra.
  Qed.

  (** evolutionary script: for a symmetric positive semidefinite covariance the call succeeds, and it is the gradient of the Gaussian log density
      whose covariance is the given one plus 1e-6 times the identity *)
  Definition regularised (C : mat R) (i j : nat) : R := get C i j + 1 / 1000000 * delta i j.
  Definition covariance (n : nat) (C : mat R) : Prop :=
    mr C = n /\ mc C = n /\ (forall i j, (i < n)%nat -> (j < n)%nat -> get C i j = get C j i) /\ psd n (get C).
  Lemma regularised_inv n C : covariance n C -> exists h, inverse_of n (regularised C) h.
  Proof.
    intros (_ & _ & _ & P). eexists. apply pd_inverse. unfold regularised. apply pd_plus; [exact P|]. apply pd_scal; [lra|apply pd_delta].
  Qed.
  Lemma ev_score_form n c (C : mat R) (m : list R) (x : mat R) : covariance n C -> List.length m = n -> mr x = n -> mc x = c ->
    exists J, inverse_of n (regularised C) J /\
      ev_grad_log_p E x m C = Ok (mk n c (fun d j => sumn n (fun l => - J d l * (get x l j - nth l m 0)))).
  Proof.
    intros HC Hm Rx Cx. pose proof HC as (Hr & Hc & Hs & _). unfold ev_grad_log_p.
    rewrite (bc2_same nadd (mT C) (smul (nlit 1 1000000) (eye (mr C))) n n) by (cbn; auto). cbn [rbind].
    destruct (regularised_inv n C HC) as (h & Hh).
    assert (EX : forall i j, (i < n)%nat -> (j < n)%nat -> regularised C i j = nadd (get (mT C) i j) (get (smul (nlit 1 1000000) (eye (mr C))) i j)).
    { intros i j Hi Hj. unfold regularised, smul, mT, eye, delta. rewrite get_mmap1, !get_mk by (cbn; lia). cbn [nadd nmul nlit none1 nzero ROps]. rewrite (Hs i j Hi Hj). destruct (i =? j)%nat; reflexivity. }
    destruct (inv_R E HI n (fun i j => nadd (get (mT C) i j) (get (smul (nlit 1 1000000) (eye (mr C))) i j))) as (J & HJ & IJ).
    { exists h. exact (inverse_of_ext n _ _ h EX Hh). }
    exists J. split; [apply (inverse_of_ext n _ _ J (fun i j Hi Hj => eq_sym (EX i j Hi Hj)) IJ)|]. rewrite HJ. cbn [rbind].
    assert (D : bc2 nsub x (mT (vec m)) = Ok (mk n c (fun a b => get x a b - nth a m 0))).
    { unfold bc2. cbn [mT vec mk mr mc]. rewrite Rx, Cx, Hm. replace (bok c 1) with true by (symmetry; apply bok_spec; auto). replace (bok n n) with true by (symmetry; apply bok_spec; auto).
      cbn [andb]. f_equal. replace (bdim c 1) with c by (unfold bdim; destruct (Nat.eqb_spec c 1); congruence). rewrite bdim_refl. apply mk_ext. intros a b Ha Hb.
      unfold bget. change (mr (mT (vec m))) with (List.length m). change (mc (mT (vec m))) with 1%nat. rewrite Hm, Rx, Cx, !bidx_lt by (assumption || lia). unfold mT. rewrite ?bidx_1. rewrite get_mk by (cbn; lia). unfold vec. rewrite get_mk by lia. reflexivity. }
    rewrite D. cbn [rbind]. rewrite (mmul_R _ _ n n c) by reflexivity. f_equal. apply mk_ext. intros d j Hd Hj. apply sumn_ext. intros l Hl.
    unfold mopp. rewrite get_mmap1 by (cbn; lia). rewrite !get_mk by lia. reflexivity.
  Qed.
  Lemma inverse_symmetric n A J : (forall i j, (i < n)%nat -> (j < n)%nat -> A i j = A j i) -> inverse_of n A J -> forall i j, (i < n)%nat -> (j < n)%nat -> J i j = J j i.
  Proof.
    intros Hs HJ i j Hi Hj. apply (inverse_of_unique n A J (tr J)); auto. apply (inverse_of_ext n (tr A)); [|now apply transpose_inverse]. intros. unfold tr. auto.
  Qed.
  Theorem C76_regularised_score n c (C : mat R) (m : list R) (x : mat R) :
    covariance n C -> List.length m = n -> mr x = n -> mc x = c ->
    exists G J, ev_grad_log_p E x m C = Ok G /\ mr G = n /\ mc G = c /\ inverse_of n (regularised C) J
      /\ forall d j, (d < n)%nat -> (j < c)%nat ->
           gradient_at (log_gauss n J (fun i => nth i m 0)) (fun i => get x i j) d (get G d j).
  Proof.
    intros HC Hm Rx Cx. destruct (ev_score_form n c C m x HC Hm Rx Cx) as (J & IJ & ->). eexists _, J. split; [reflexivity|]. split; [reflexivity|]. split; [reflexivity|]. split; [exact IJ|].
    intros d j Hd Hj. rewrite get_mk by lia. pose proof (log_gauss_gradient n J (fun i => nth i m 0) (fun i => get x i j) d Hd) as Gd.
    eapply eq_ind; [exact Gd|]. rewrite <- sumn_scal. apply sumn_ext. intros l Hl. rewrite (inverse_symmetric n (regularised C) J) with (i := l) (j := d); auto; [lra|].
    intros i k Hi Hk. unfold regularised. destruct HC as (_ & _ & Hs & _). rewrite (Hs i k Hi Hk), (delta_sym i k). reflexivity.
  Qed.
End Scores.
