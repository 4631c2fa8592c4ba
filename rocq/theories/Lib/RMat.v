(** Linear algebra over R on index functions: positive definite systems are solvable (elimination), inverses. *)
From Coq Require Import List ZArith Reals Lra Lia Bool.
From Verif Require Import Base.Num Spec.RealSpec Spec.Contracts Lib.RSum.
Import ListNotations.
Local Open Scope R_scope.

Definition mv (n : nat) (A : nat -> nat -> R) (v : nat -> R) (i : nat) : R := sumn n (fun j => A i j * v j).
Definition mm (n : nat) (A B : nat -> nat -> R) (i j : nat) : R := sumn n (fun l => A i l * B l j).
Definition tr (A : nat -> nat -> R) (i j : nat) : R := A j i.
Definition dot (n : nat) (u v : nat -> R) : R := sumn n (fun i => u i * v i).
(** v^T A v *)
Definition qf (n : nat) (A : nat -> nat -> R) (v : nat -> R) : R := sumn n (fun i => sumn n (fun j => v i * v j * A i j)).
Definition pd (n : nat) (A : nat -> nat -> R) : Prop := forall v, (exists i, (i < n)%nat /\ v i <> 0) -> 0 < qf n A v.
Definition psd (n : nat) (A : nat -> nat -> R) : Prop := forall v, 0 <= qf n A v.

Lemma qf_dot n A v : qf n A v = dot n v (mv n A v).
Proof. unfold qf, dot, mv. apply sumn_ext. intros i _. rewrite <- sumn_scal. apply sumn_ext. intros. ring. Qed.
Lemma qf_ext n A v w : (forall i, (i < n)%nat -> v i = w i) -> qf n A v = qf n A w.
Proof. intro H. unfold qf. apply sumn_ext. intros i Hi. apply sumn_ext. intros j Hj. now rewrite (H i Hi), (H j Hj). Qed.
Lemma qf_ext_m n A B v : (forall i j, (i < n)%nat -> (j < n)%nat -> A i j = B i j) -> qf n A v = qf n B v.
Proof. intro H. unfold qf. apply sumn_ext. intros i Hi. apply sumn_ext. intros j Hj. now rewrite (H i j Hi Hj). Qed.
Lemma qf_tr n A v : qf n (tr A) v = qf n A v.
Proof. unfold qf, tr. rewrite sumn_swap. apply sumn_ext. intros i _. apply sumn_ext. intros. ring. Qed.
Lemma pd_tr n A : pd n A -> pd n (tr A).
Proof. intros H v Hv. rewrite qf_tr. auto. Qed.
Lemma pd_ext n A B : (forall i j, (i < n)%nat -> (j < n)%nat -> A i j = B i j) -> pd n A -> pd n B.
Proof. intros H HA v Hv. rewrite <- (qf_ext_m n A B v H). auto. Qed.
Lemma mv_ext n A v w i : (forall j, (j < n)%nat -> v j = w j) -> mv n A v i = mv n A w i.
Proof. intro H. unfold mv. apply sumn_ext. intros. now rewrite H. Qed.
Lemma mm_ext n A B A' B' i j : (forall l, (l < n)%nat -> A i l = A' i l) -> (forall l, (l < n)%nat -> B l j = B' l j) -> mm n A B i j = mm n A' B' i j.
Proof. intros H1 H2. unfold mm. apply sumn_ext. intros. now rewrite H1, H2. Qed.
Lemma mm_assoc n A B C i j : mm n (mm n A B) C i j = mm n A (mm n B C) i j.
Proof.
  unfold mm. rewrite (sumn_ext n _ (fun l => sumn n (fun k => A i k * B k l * C l j))) by (intros; rewrite <- sumn_scal_r; reflexivity).
  rewrite sumn_swap. apply sumn_ext. intros k _. rewrite <- sumn_scal. apply sumn_ext. intros. ring.
Qed.
Lemma mv_mm n A B v i : mv n (mm n A B) v i = mv n A (mv n B v) i.
Proof.
  unfold mv, mm. rewrite (sumn_ext n _ (fun l => sumn n (fun k => A i k * B k l * v l))) by (intros; rewrite <- sumn_scal_r; reflexivity).
  rewrite sumn_swap. apply sumn_ext. intros k _. rewrite <- sumn_scal. apply sumn_ext. intros. ring.
Qed.
Lemma delta_l n A i j : (i < n)%nat -> mm n delta A i j = A i j.
Proof.
  intro H. unfold mm, delta. rewrite <- (sumn_delta n i (fun l => A l j) H). apply sumn_ext. intros l _.
  rewrite Nat.eqb_sym. destruct (l =? i)%nat; ring.
Qed.
Lemma delta_r n A i j : (j < n)%nat -> mm n A delta i j = A i j.
Proof.
  intro H. unfold mm, delta. rewrite <- (sumn_delta n j (fun l => A i l) H). apply sumn_ext. intros l _.
  destruct (l =? j)%nat; ring.
Qed.
Lemma mv_delta n v i : (i < n)%nat -> mv n delta v i = v i.
Proof.
  intro H. unfold mv, delta. rewrite <- (sumn_delta n i v H). apply sumn_ext. intros l _.
  rewrite Nat.eqb_sym. destruct (l =? i)%nat; ring.
Qed.
Lemma delta_sym i j : delta i j = delta j i.
Proof. unfold delta. now rewrite Nat.eqb_sym. Qed.

(** elimination *)
Fixpoint solve (n : nat) (A : nat -> nat -> R) (b : nat -> R) : nat -> R :=
  match n with
  | O => fun _ => 0
  | S m =>
      let w := solve m A (fun i => A i m) in
      let y := solve m A b in
      let s := A m m - sumn m (fun j => A m j * w j) in
      let t := (b m - sumn m (fun j => A m j * y j)) / s in
      fun j => if (j =? m)%nat then t else y j - t * w j
  end.
Lemma pd_pred n A : pd (S n) A -> pd n A.
Proof.
  intros H v (i & Hi & Hv). specialize (H (fun j => if (j <? n)%nat then v j else 0)).
  assert (Q : qf (S n) A (fun j => if (j <? n)%nat then v j else 0) = qf n A v).
  { unfold qf. cbn [sumn]. rewrite Nat.ltb_irrefl. rewrite (sumn_0 n (fun j => 0 * _ * _)) by (intros; ring).
    replace (_ + (0 + 0 * 0 * A n n)) with (sumn n (fun i0 => sumn n (fun j => (if (i0 <? n)%nat then v i0 else 0) * (if (j <? n)%nat then v j else 0) * A i0 j) + (if (i0 <? n)%nat then v i0 else 0) * 0 * A i0 n)) by ring.
    apply sumn_ext. intros a Ha. apply Nat.ltb_lt in Ha. rewrite Ha. rewrite Rmult_0_r, Rmult_0_l, Rplus_0_r. apply sumn_ext. intros b Hb. apply Nat.ltb_lt in Hb. now rewrite Hb. }
  rewrite <- Q. apply H. exists i. split; [lia|]. apply Nat.ltb_lt in Hi. now rewrite Hi.
Qed.
Theorem solve_ok n A : pd n A -> forall b i, (i < n)%nat -> mv n A (solve n A b) i = b i.
Proof.
  revert A. induction n as [|n IH]; intros A HA b i Hi; [lia|].
  pose proof (pd_pred n A HA) as HA'. specialize (IH A HA').
  set (w := solve n A (fun i => A i n)). set (y := solve n A b).
  set (s := A n n - sumn n (fun j => A n j * w j)).
  set (t := (b n - sumn n (fun j => A n j * y j)) / s).
  assert (Hw : forall i, (i < n)%nat -> sumn n (fun j => A i j * w j) = A i n) by (intros; apply (IH (fun i => A i n)); auto).
  assert (Hy : forall i, (i < n)%nat -> sumn n (fun j => A i j * y j) = b i) by (intros; apply IH; auto).
  assert (Hs : 0 < s).
  { set (v := fun j => if (j =? n)%nat then -1 else w j).
    assert (Q : qf (S n) A v = s).
    { rewrite qf_dot. unfold dot. cbn [sumn]. assert (M : forall a, mv (S n) A v a = sumn n (fun j => A a j * w j) - A a n).
      { intro a. unfold mv. cbn [sumn]. unfold v at 2. rewrite Nat.eqb_refl. rewrite (sumn_ext n _ (fun j => A a j * w j)); [ring|].
        intros j Hj. unfold v. destruct (Nat.eqb_spec j n); [lia|auto]. }
      rewrite (sumn_0 n (fun i0 => v i0 * mv (S n) A v i0)).
      - rewrite M. unfold v. rewrite Nat.eqb_refl. unfold s. ring.
      - intros a Ha. rewrite M, Hw by auto. ring. }
    rewrite <- Q. apply HA. exists n. split; [lia|]. unfold v. rewrite Nat.eqb_refl. lra. }
  assert (M : forall a, mv (S n) A (solve (S n) A b) a = sumn n (fun j => A a j * y j) - t * sumn n (fun j => A a j * w j) + A a n * t).
  { intro a. unfold mv. cbn [solve sumn]. fold w y. fold s. fold t. rewrite Nat.eqb_refl. f_equal.
    rewrite <- sumn_scal, <- sumn_minus. apply sumn_ext. intros j Hj. destruct (Nat.eqb_spec j n); [lia|]. ring. }
  rewrite M. destruct (Nat.eq_dec i n) as [->|Hne].
  - replace (sumn n (fun j => A n j * w j)) with (A n n - s) by (unfold s; ring). unfold t. field. lra.
  - rewrite Hw, Hy by lia. ring.
Qed.
(** uniqueness *)
Lemma pd_unique n A u v : pd n A -> (forall i, (i < n)%nat -> mv n A u i = mv n A v i) -> forall i, (i < n)%nat -> u i = v i.
Proof.
  intros HA H i Hi. destruct (Req_dec (u i) (v i)) as [|Hne]; [auto|]. exfalso.
  assert (0 < qf n A (fun j => u j - v j)). { apply HA. exists i. split; [auto|lra]. }
  rewrite qf_dot in H0. unfold dot in H0. rewrite sumn_0 in H0; [lra|]. intros a Ha. unfold mv.
  replace (sumn n _) with (mv n A u a - mv n A v a). { rewrite H by auto. ring. }
  unfold mv. rewrite <- sumn_minus. apply sumn_ext. intros. ring.
Qed.

Lemma inverse_of_unique n A h h' : inverse_of n A h -> inverse_of n A h' -> forall i j, (i < n)%nat -> (j < n)%nat -> h i j = h' i j.
Proof.
  intros H H' i j Hi Hj. rewrite <- (delta_r n h i j Hj).
  rewrite (mm_ext n h delta h (mm n A h') i j); auto.
  2:{ intros l Hl. symmetry. now apply H'. }
  rewrite <- mm_assoc. rewrite (mm_ext n (mm n h A) h' delta h' i j); auto.
  - now apply delta_l.
  - intros l Hl. now apply H.
Qed.
Lemma inverse_of_ext n A B h : (forall i j, (i < n)%nat -> (j < n)%nat -> A i j = B i j) -> inverse_of n A h -> inverse_of n B h.
Proof.
  intros H HA i j Hi Hj. destruct (HA i j Hi Hj) as (H1 & H2). split.
  - rewrite <- H1. apply sumn_ext. intros. now rewrite H.
  - rewrite <- H2. apply sumn_ext. intros. now rewrite H.
Qed.
Lemma inverse_of_ext_r n A h g : (forall i j, (i < n)%nat -> (j < n)%nat -> h i j = g i j) -> inverse_of n A h -> inverse_of n A g.
Proof.
  intros H HA i j Hi Hj. destruct (HA i j Hi Hj) as (H1 & H2). split.
  - rewrite <- H1. apply sumn_ext. intros. now rewrite H.
  - rewrite <- H2. apply sumn_ext. intros. now rewrite H.
Qed.
Lemma inverse_of_sym n A h : inverse_of n A h -> inverse_of n h A.
Proof. intros H i j Hi Hj. destruct (H i j Hi Hj). auto. Qed.

Definition pdinv (n : nat) (A : nat -> nat -> R) (i j : nat) : R := solve n A (fun l => delta l j) i.
Lemma pdinv_right n A : pd n A -> forall i j, (i < n)%nat -> mm n A (pdinv n A) i j = delta i j.
Proof. intros H i j Hi. unfold mm, pdinv. exact (solve_ok n A H (fun l => delta l j) i Hi). Qed.
Theorem pd_inverse n A : pd n A -> inverse_of n A (pdinv n A).
Proof.
  intros H. assert (L : forall i j, (i < n)%nat -> (j < n)%nat -> mm n (tr (pdinv n (tr A))) A i j = delta i j).
  { intros i j Hi Hj. rewrite (delta_sym i j), <- (pdinv_right n (tr A) (pd_tr n A H) j i Hj). unfold mm, tr. apply sumn_ext. intros. ring. }
  assert (Q : forall i j, (i < n)%nat -> (j < n)%nat -> tr (pdinv n (tr A)) i j = pdinv n A i j).
  { intros i j Hi Hj. rewrite <- (delta_r n _ i j Hj).
    rewrite (mm_ext n _ delta (tr (pdinv n (tr A))) (mm n A (pdinv n A)) i j); auto.
    2:{ intros l Hl. symmetry. now apply pdinv_right. }
    rewrite <- mm_assoc. rewrite (mm_ext n _ (pdinv n A) delta (pdinv n A) i j); auto. now apply delta_l. }
  intros i j Hi Hj. split; [now apply pdinv_right|]. fold (mm n (pdinv n A) A i j).
  rewrite <- (L i j Hi Hj). apply mm_ext; auto. intros l Hl. symmetry. now apply Q.
Qed.
Lemma inverse_mm n A B hA hB : inverse_of n A hA -> inverse_of n B hB -> inverse_of n (mm n A B) (mm n hB hA).
Proof.
  assert (G : forall A B hA hB i j, (i < n)%nat -> (j < n)%nat -> (forall i j, (i < n)%nat -> (j < n)%nat -> mm n A hA i j = delta i j) ->
            (forall i j, (i < n)%nat -> (j < n)%nat -> mm n B hB i j = delta i j) -> mm n (mm n A B) (mm n hB hA) i j = delta i j).
  { clear. intros A B hA hB i j Hi Hj H1 H2. rewrite mm_assoc. rewrite (mm_ext n A _ A hA i j); auto.
    intros l Hl. rewrite <- mm_assoc. rewrite (mm_ext n _ hA delta hA l j); auto. now apply delta_l. }
  intros H1 H2 i j Hi Hj. split.
  - apply G; auto; intros a b Ha Hb; [apply H1|apply H2]; auto.
  - apply (G hB hA B A); auto; intros a b Ha Hb; [apply H2|apply H1]; auto.
Qed.

(** forms *)
Lemma qf_plus n A B v : qf n (fun i j => A i j + B i j) v = qf n A v + qf n B v.
Proof.
  unfold qf. rewrite <- sumn_plus. apply sumn_ext. intros. rewrite <- sumn_plus. apply sumn_ext. intros. ring.
Qed.
Lemma qf_scal n c A v : qf n (fun i j => c * A i j) v = c * qf n A v.
Proof. unfold qf. rewrite <- sumn_scal. apply sumn_ext. intros. rewrite <- sumn_scal. apply sumn_ext. intros. ring. Qed.
Lemma qf_delta n v : qf n delta v = sumn n (fun i => v i * v i).
Proof. rewrite qf_dot. unfold dot. apply sumn_ext. intros. now rewrite mv_delta. Qed.
Lemma pd_delta n : pd n delta.
Proof.
  intros v (i & Hi & Hv). rewrite qf_delta. apply Rlt_le_trans with (v i * v i).
  - destruct (Rtotal_order (v i) 0) as [H|[H|H]]; [nra|contradiction|nra].
  - apply (sumn_term n (fun i => v i * v i)); auto. intros. apply Rle_0_sqr.
Qed.
Lemma pd_plus n A B : psd n A -> pd n B -> pd n (fun i j => A i j + B i j).
Proof. intros HA HB v Hv. rewrite qf_plus. specialize (HA v). specialize (HB v Hv). lra. Qed.
Lemma pd_scal n c A : 0 < c -> pd n A -> pd n (fun i j => c * A i j).
Proof. intros Hc HA v Hv. rewrite qf_scal. apply Rmult_lt_0_compat; auto. Qed.
(** Gram matrices are positive semidefinite *)
Lemma psd_gram n m (K : nat -> nat -> R) : psd n (fun i j => sumn m (fun l => K l i * K l j)).
Proof.
  intro v. replace (qf n _ v) with (sumn m (fun l => Rsqr (sumn n (fun i => v i * K l i)))).
  - apply sumn_ge0. intros. apply Rle_0_sqr.
  - unfold qf, Rsqr. rewrite (sumn_ext m _ (fun l => sumn n (fun i => sumn n (fun j => v i * v j * (K l i * K l j))))).
    2:{ intros l _. rewrite sumn_sq. apply sumn_ext. intros. apply sumn_ext. intros. ring. }
    rewrite sumn_swap. apply sumn_ext. intros i _. rewrite sumn_swap. apply sumn_ext. intros j _. now rewrite sumn_scal.
Qed.
