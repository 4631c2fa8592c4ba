(** Generalised inverses (A P A = A) and weighted least squares. *)
From Coq Require Import List ZArith Reals Lra Lia Bool ClassicalEpsilon.
From Verif Require Import Spec.RealSpec Spec.PiceSpec Lib.RSum.
Local Open Scope R_scope.

(** A has m rows and n columns, P n rows and m columns *)
Definition gen_inverse (m n : nat) (A P : nat -> nat -> R) : Prop :=
  forall i j, (i < m)%nat -> (j < n)%nat -> sumn n (fun p => A i p * sumn m (fun q => P p q * A q j)) = A i j.

Lemma gen_inverse_exists n : forall m A, exists P, gen_inverse m n A P.
Proof.
  induction m as [|m IH]; intro A.
  - exists (fun _ _ => 0). intros i j Hi. lia.
  - destruct (IH A) as (P & HP).
    (* r = a (I - P A'), a the last row *)
    set (PA := fun p j => sumn m (fun q => P p q * A q j)).
    set (r := fun j => A m j - sumn n (fun p => A m p * PA p j)).
    destruct (Req_dec (sumn n (fun j => r j * r j)) 0) as [Z0|N0].
    + exists (fun p q => if Nat.eqb q m then 0 else P p q). intros i j Hi Hj.
      assert (Q : forall p, sumn (S m) (fun q => (if Nat.eqb q m then 0 else P p q) * A q j) = PA p j).
      { intro p. cbn [sumn]. rewrite Nat.eqb_refl. unfold PA. rewrite (sumn_ext m _ (fun q => P p q * A q j)); [lra|]. intros q Hq. destruct (Nat.eqb_spec q m); [lia|reflexivity]. }
      rewrite (sumn_ext n _ (fun p => A i p * PA p j)) by (intros; now rewrite Q).
      destruct (Nat.eq_dec i m) as [ -> |Hm]; [|apply HP; lia].
      assert (r j * r j = 0) as Rj.
      { apply (sumn_0_inv n (fun j => r j * r j)); auto. intros; apply Rle_0_sqr. }
      assert (r j = 0) by nra. unfold r in H. lra.
    + set (c := fun p => (r p - sumn n (fun l => PA p l * r l)) / sumn n (fun j => r j * r j)).
      set (aP := fun q => sumn n (fun p => A m p * P p q)).
      assert (A0 : forall i, (i < m)%nat -> sumn n (fun p => A i p * c p) = 0).
      { intros i Hi. unfold c. set (D := sumn n (fun j => r j * r j)) in *.
        rewrite (sumn_ext n _ (fun p => / D * (A i p * r p - A i p * sumn n (fun l => PA p l * r l)))) by (intros; unfold Rdiv; ring).
        rewrite sumn_scal, sumn_minus.
        rewrite (sumn_ext n (fun p => A i p * sumn n (fun l => PA p l * r l)) (fun p => sumn n (fun l => A i p * PA p l * r l))) by (intros; rewrite <- sumn_scal; apply sumn_ext; intros; ring).
        rewrite sumn_swap. rewrite (sumn_ext n (fun j => sumn n (fun i0 => A i i0 * PA i0 j * r j)) (fun l => A i l * r l)).
        - lra.
        - intros l Hl. rewrite sumn_scal_r. f_equal. now apply HP. }
      assert (A1 : sumn n (fun p => A m p * c p) = 1).
      { unfold c. set (D := sumn n (fun j => r j * r j)) in *.
        rewrite (sumn_ext n _ (fun p => / D * (A m p * r p - A m p * sumn n (fun l => PA p l * r l)))) by (intros; unfold Rdiv; ring).
        rewrite sumn_scal, sumn_minus.
        rewrite (sumn_ext n (fun p => A m p * sumn n (fun l => PA p l * r l)) (fun p => sumn n (fun l => A m p * PA p l * r l))) by (intros; rewrite <- sumn_scal; apply sumn_ext; intros; ring).
        rewrite sumn_swap. rewrite <- sumn_minus.
        rewrite (sumn_ext n _ (fun l => r l * r l)); [fold D; now apply Rinv_l|]. intros l Hl. rewrite sumn_scal_r. unfold r at 3. ring. }
      exists (fun p q => if Nat.eqb q m then c p else P p q - c p * aP q). intros i j Hi Hj.
      set (g := sumn m (fun q => aP q * A q j)).
      assert (Q : forall p, sumn (S m) (fun q => (if Nat.eqb q m then c p else P p q - c p * aP q) * A q j) = PA p j - c p * g + c p * A m j).
      { intro p. cbn [sumn]. rewrite Nat.eqb_refl. f_equal. unfold PA, g. rewrite <- sumn_scal, <- sumn_minus. apply sumn_ext. intros q Hq. destruct (Nat.eqb_spec q m); [lia|]. ring. }
      rewrite (sumn_ext n _ (fun p => A i p * PA p j + (A m j - g) * (A i p * c p))) by (intros; rewrite Q; ring).
      rewrite sumn_plus, sumn_scal. destruct (Nat.eq_dec i m) as [ -> |Hm].
      * rewrite A1. assert (sumn n (fun p => A m p * PA p j) = g); [|lra]. unfold PA, g, aP.
        rewrite (sumn_ext n _ (fun p => sumn m (fun q => A m p * P p q * A q j))) by (intros; rewrite <- sumn_scal; apply sumn_ext; intros; ring).
        rewrite sumn_swap. apply sumn_ext. intros q Hq. now rewrite sumn_scal_r.
      * rewrite A0 by lia. rewrite Rmult_0_r, Rplus_0_r. apply HP; lia.
Qed.

Section LS.
  Context (nb N : nat) (w : nat -> R) (phi : nat -> nat -> R) (y : nat -> R).
  Definition gramw (i j : nat) : R := sumn N (fun n => w n * phi i n * phi j n).
  Definition momw (l : nat) : R := sumn N (fun n => w n * y n * phi l n).

  (** the solution proposed by a generalised inverse solves the normal equations *)
  Lemma normal_equations P a : (forall n, (n < N)%nat -> 0 <= w n) -> gen_inverse nb nb gramw P ->
    (forall j, (j < nb)%nat -> a j = sumn nb (fun i => momw i * P i j)) ->
    forall l, (l < nb)%nat -> sumn nb (fun j => a j * gramw j l) = momw l.
  Proof.
    intros Hw HP Ha l Hl. set (v := fun p => (if Nat.eqb p l then 1 else 0) - sumn nb (fun q => P p q * gramw q l)).
    assert (Hv : forall i, (i < nb)%nat -> sumn nb (fun p => gramw i p * v p) = 0).
    { intros i Hi. unfold v. rewrite (sumn_ext nb _ (fun p => (if Nat.eqb p l then gramw i p else 0) - gramw i p * sumn nb (fun q => P p q * gramw q l))) by (intros p _; destruct (Nat.eqb p l); ring).
      rewrite sumn_minus, sumn_delta by auto. rewrite (HP i l Hi Hl). lra. }
    assert (Q : sumn N (fun n => w n * (sumn nb (fun p => v p * phi p n)) ^ 2) = 0).
    { transitivity (sumn nb (fun i => v i * sumn nb (fun p => gramw i p * v p))).
      - rewrite (sumn_ext N _ (fun n => sumn nb (fun i => sumn nb (fun p => v i * (w n * phi i n * phi p n * v p))))).
        + rewrite sumn_swap. apply sumn_ext. intros i Hi. rewrite sumn_swap. rewrite <- sumn_scal. apply sumn_ext. intros p Hp. unfold gramw. rewrite sumn_scal. f_equal. now rewrite sumn_scal_r.
        + intros n Hn. cbn [pow]. rewrite Rmult_1_r, sumn_sq, <- sumn_scal. apply sumn_ext. intros i Hi. rewrite <- sumn_scal. apply sumn_ext. intros. ring.
      - apply sumn_0. intros i Hi. rewrite Hv by auto. ring. }
    assert (Qn : forall n, (n < N)%nat -> w n * sumn nb (fun p => v p * phi p n) = 0).
    { intros n Hn. pose proof (sumn_0_inv N _ (fun n Hn => Rmult_le_pos _ _ (Hw n Hn) (pow2_ge_0 (sumn nb (fun p => v p * phi p n)))) Q n Hn) as X. cbv beta in X.
      destruct (Req_dec (w n) 0) as [ -> |W0]; [ring|]. apply Rmult_integral in X. destruct X as [X|X]; [contradiction|]. cbn in X. rewrite Rmult_1_r in X. apply Rmult_integral in X. assert (sumn nb (fun p => v p * phi p n) = 0) as -> by tauto. ring. }
    assert (C0 : sumn nb (fun p => momw p * v p) = 0).
    { transitivity (sumn N (fun n => y n * (w n * sumn nb (fun p => v p * phi p n)))).
      - rewrite (sumn_ext N _ (fun n => sumn nb (fun p => w n * y n * phi p n * v p))).
        + rewrite sumn_swap. apply sumn_ext. intros p Hp. unfold momw. now rewrite sumn_scal_r.
        + intros n Hn. rewrite <- !sumn_scal. apply sumn_ext. intros. ring.
      - apply sumn_0. intros n Hn. rewrite Qn by auto. ring. }
    unfold v in C0. rewrite (sumn_ext nb _ (fun p => (if Nat.eqb p l then momw p else 0) - momw p * sumn nb (fun q => P p q * gramw q l))) in C0 by (intros p _; destruct (Nat.eqb p l); ring).
    rewrite sumn_minus, sumn_delta in C0 by auto.
    rewrite (sumn_ext nb (fun j => a j * gramw j l) (fun j => sumn nb (fun i => momw i * (P i j * gramw j l)))).
    - rewrite sumn_swap. rewrite (sumn_ext nb _ (fun i => momw i * sumn nb (fun j => P i j * gramw j l))); [lra|]. intros i Hi. now rewrite sumn_scal.
    - intros j Hj. rewrite Ha by auto. rewrite <- sumn_scal_r. apply sumn_ext. intros. ring.
  Qed.

  Lemma normal_least a : (forall n, (n < N)%nat -> 0 <= w n) -> (forall l, (l < nb)%nat -> sumn nb (fun j => a j * gramw j l) = momw l) -> least_squares nb N w phi y a.
  Proof.
    intros Hw Ha b. unfold squared_error.
    set (fa := fun n => sumn nb (fun l => a l * phi l n)). set (fb := fun n => sumn nb (fun l => b l * phi l n)).
    assert (X : sumn N (fun n => w n * (fb n - fa n) * (fa n - y n)) = 0).
    { transitivity (sumn nb (fun l => (b l - a l) * (sumn nb (fun j => a j * gramw j l) - momw l))).
      - rewrite (sumn_ext N _ (fun n => sumn nb (fun l => (b l - a l) * (w n * phi l n * (fa n - y n))))).
        + rewrite sumn_swap. apply sumn_ext. intros l Hl. rewrite sumn_scal. f_equal.
          rewrite (sumn_ext N _ (fun n => sumn nb (fun j => a j * (w n * phi j n * phi l n)) - w n * y n * phi l n)).
          * rewrite sumn_minus. unfold momw. f_equal. rewrite sumn_swap. apply sumn_ext. intros j Hj. unfold gramw. now rewrite sumn_scal.
          * intros n Hn. rewrite Rmult_minus_distr_l. f_equal; [|ring]. unfold fa. rewrite <- sumn_scal. apply sumn_ext. intros. ring.
        + intros n Hn. unfold fa at 1, fb. rewrite <- sumn_minus. rewrite (sumn_ext nb (fun i => b i * phi i n - a i * phi i n) (fun i => (b i - a i) * phi i n)) by (intros; ring).
          rewrite <- sumn_scal, <- sumn_scal_r. apply sumn_ext. intros. ring.
      - apply sumn_0. intros l Hl. rewrite Ha by auto. ring. }
    assert (Y : sumn N (fun n => w n * (fb n - y n) ^ 2) = sumn N (fun n => w n * (fa n - y n) ^ 2) + sumn N (fun n => w n * (fb n - fa n) ^ 2) + 2 * sumn N (fun n => w n * (fb n - fa n) * (fa n - y n))).
    { rewrite <- sumn_scal, <- !sumn_plus. apply sumn_ext. intros. ring. }
    change (sumn N (fun n => w n * (fa n - y n) ^ 2) <= sumn N (fun n => w n * (fb n - y n) ^ 2)). rewrite Y, X. assert (0 <= sumn N (fun n => w n * (fb n - fa n) ^ 2)).
    { apply sumn_ge0. intros n Hn. apply Rmult_le_pos; [auto|apply pow2_ge_0]. }
    lra.
  Qed.

  Lemma gramw_sym i j : gramw i j = gramw j i.
  Proof. unfold gramw. apply sumn_ext. intros. ring. Qed.
  Lemma gramw_quad v : sumn nb (fun i => v i * sumn nb (fun p => gramw i p * v p)) = sumn N (fun n => w n * (sumn nb (fun p => v p * phi p n)) ^ 2).
  Proof.
    symmetry. rewrite (sumn_ext N _ (fun n => sumn nb (fun i => sumn nb (fun p => v i * (w n * phi i n * phi p n * v p))))).
    + rewrite sumn_swap. apply sumn_ext. intros i Hi. rewrite sumn_swap. rewrite <- sumn_scal. apply sumn_ext. intros p Hp. unfold gramw. rewrite sumn_scal. f_equal. now rewrite sumn_scal_r.
    + intros n Hn. cbn [pow]. rewrite Rmult_1_r, sumn_sq, <- sumn_scal. apply sumn_ext. intros i Hi. rewrite <- sumn_scal. apply sumn_ext. intros. ring.
  Qed.
  (** two solutions differ by an element of the kernel *)
  Lemma solutions_kernel a b : (forall n, (n < N)%nat -> 0 <= w n) -> (forall l, (l < nb)%nat -> sumn nb (fun j => a j * gramw j l) = momw l) ->
    least_squares nb N w phi y b -> forall i, (i < nb)%nat -> sumn nb (fun p => gramw i p * (b p - a p)) = 0.
  Proof.
    intros Hw Ha Hb.
    set (fa := fun n => sumn nb (fun l => a l * phi l n)). set (fb := fun n => sumn nb (fun l => b l * phi l n)).
    assert (X : sumn N (fun n => w n * (fb n - fa n) * (fa n - y n)) = 0).
    { transitivity (sumn nb (fun l => (b l - a l) * (sumn nb (fun j => a j * gramw j l) - momw l))).
      - rewrite (sumn_ext N _ (fun n => sumn nb (fun l => (b l - a l) * (w n * phi l n * (fa n - y n))))).
        + rewrite sumn_swap. apply sumn_ext. intros l Hl. rewrite sumn_scal. f_equal.
          rewrite (sumn_ext N _ (fun n => sumn nb (fun j => a j * (w n * phi j n * phi l n)) - w n * y n * phi l n)).
          * rewrite sumn_minus. unfold momw. f_equal. rewrite sumn_swap. apply sumn_ext. intros j Hj. unfold gramw. now rewrite sumn_scal.
          * intros n Hn. rewrite Rmult_minus_distr_l. f_equal; [|ring]. unfold fa. rewrite <- sumn_scal. apply sumn_ext. intros. ring.
        + intros n Hn. unfold fa at 1, fb. rewrite <- sumn_minus. rewrite (sumn_ext nb (fun i => b i * phi i n - a i * phi i n) (fun i => (b i - a i) * phi i n)) by (intros; ring).
          rewrite <- sumn_scal, <- sumn_scal_r. apply sumn_ext. intros. ring.
      - apply sumn_0. intros l Hl. rewrite Ha by auto. ring. }
    assert (Y : sumn N (fun n => w n * (fb n - y n) ^ 2) = sumn N (fun n => w n * (fa n - y n) ^ 2) + sumn N (fun n => w n * (fb n - fa n) ^ 2) + 2 * sumn N (fun n => w n * (fb n - fa n) * (fa n - y n))).
    { rewrite <- sumn_scal, <- !sumn_plus. apply sumn_ext. intros. ring. }
    pose proof (Hb a) as Z. change (sumn N (fun n => w n * (fb n - y n) ^ 2) <= sumn N (fun n => w n * (fa n - y n) ^ 2)) in Z. rewrite Y, X in Z.
    assert (P : forall n, (n < N)%nat -> 0 <= w n * (fb n - fa n) ^ 2) by (intros n Hn; apply Rmult_le_pos; [auto|apply pow2_ge_0]).
    assert (Q0 : sumn N (fun n => w n * (fb n - fa n) ^ 2) = 0) by (pose proof (sumn_ge0 N _ P); lra).
    pose proof (sumn_0_inv N _ P Q0) as Qn. cbv beta in Qn.
    intros i Hi. transitivity (sumn N (fun n => phi i n * (w n * (fb n - fa n)))).
    - unfold gramw. rewrite (sumn_ext nb _ (fun p => sumn N (fun n => phi i n * (w n * ((b p - a p) * phi p n))))) by (intros p _; rewrite <- sumn_scal_r; apply sumn_ext; intros; ring).
      rewrite sumn_swap. apply sumn_ext. intros n Hn. rewrite sumn_scal. f_equal. rewrite sumn_scal. f_equal. unfold fa, fb. rewrite <- sumn_minus. apply sumn_ext. intros. ring.
    - apply sumn_0. intros n Hn. specialize (Qn n Hn). assert (w n * (fb n - fa n) = 0) as ->; [|ring]. destruct (Req_dec (w n) 0) as [ -> |W0]; [ring|].
      apply Rmult_integral in Qn. destruct Qn as [Qn|Qn]; [contradiction|]. cbn in Qn. rewrite Rmult_1_r in Qn. apply Rmult_integral in Qn. assert (fb n - fa n = 0) as -> by tauto. ring.
  Qed.

  Lemma pinv_best_fit P a : (forall n, (n < N)%nat -> 0 <= w n) -> pseudo_inverse nb gramw P ->
    (forall j, (j < nb)%nat -> a j = sumn nb (fun i => momw i * P i j)) -> best_fit nb N w phi y a.
  Proof.
    intros Hw (H1 & H3) Ha. pose proof (normal_equations P a Hw H1 Ha) as NE. split; [now apply normal_least|]. intros b Hb.
    pose proof (solutions_kernel a b Hw NE Hb) as K. set (v := fun p => b p - a p) in K.
    (* a is orthogonal to v *)
    assert (OR : sumn nb (fun l => a l * v l) = 0).
    { (* a = momw P = (a H) P, and H P v = P^T H v = 0 *)
      transitivity (sumn nb (fun j => a j * sumn nb (fun l => sumn nb (fun i => gramw j i * P i l) * v l))).
      - rewrite (sumn_ext nb (fun l => a l * v l) (fun l => sumn nb (fun j => a j * (sumn nb (fun i => gramw j i * P i l) * v l)))).
        + rewrite sumn_swap. apply sumn_ext. intros j Hj. now rewrite sumn_scal.
        + intros l Hl. rewrite (Ha l Hl) at 1. rewrite (sumn_ext nb (fun i => momw i * P i l) (fun i => sumn nb (fun j => a j * (gramw j i * P i l)))).
          * rewrite sumn_swap. rewrite <- sumn_scal_r. apply sumn_ext. intros j Hj. rewrite sumn_scal. ring.
          * intros i Hi. rewrite <- NE by auto. rewrite <- sumn_scal_r. apply sumn_ext. intros. ring.
      - apply sumn_0. intros j Hj. rewrite (sumn_ext nb _ (fun l => sumn nb (fun p => P p j * (gramw p l * v l)))).
        + rewrite sumn_swap. rewrite (sumn_0 nb _); [ring|]. intros p Hp. rewrite sumn_scal. rewrite K by auto. ring.
        + intros l Hl. rewrite (H3 j l Hj Hl). rewrite <- sumn_scal_r. apply sumn_ext. intros p Hp. rewrite (gramw_sym l p). ring. }
    assert (sumn nb (fun l => b l ^ 2) = sumn nb (fun l => a l ^ 2) + sumn nb (fun l => v l ^ 2) + 2 * sumn nb (fun l => a l * v l)) as ->.
    { rewrite <- sumn_scal, <- !sumn_plus. apply sumn_ext. intros. unfold v. ring. }
    rewrite OR. assert (0 <= sumn nb (fun l => v l ^ 2)) by (apply sumn_ge0; intros; apply pow2_ge_0). lra.
  Qed.
  (** the best fit is unique *)
  Lemma best_fit_unique a b P : (forall n, (n < N)%nat -> 0 <= w n) -> pseudo_inverse nb gramw P -> (forall j, (j < nb)%nat -> a j = sumn nb (fun i => momw i * P i j)) ->
    best_fit nb N w phi y b -> forall l, (l < nb)%nat -> b l = a l.
  Proof.
    intros Hw HP Ha (Hb & Hmin). pose proof HP as (H1 & H3). pose proof (normal_equations P a Hw H1 Ha) as NE. pose proof (pinv_best_fit P a Hw HP Ha) as (La & _).
    pose proof (solutions_kernel a b Hw NE Hb) as K. set (v := fun p => b p - a p) in K.
    assert (OR : sumn nb (fun l => a l * v l) = 0).
    { transitivity (sumn nb (fun j => a j * sumn nb (fun l => sumn nb (fun i => gramw j i * P i l) * v l))).
      - rewrite (sumn_ext nb (fun l => a l * v l) (fun l => sumn nb (fun j => a j * (sumn nb (fun i => gramw j i * P i l) * v l)))).
        + rewrite sumn_swap. apply sumn_ext. intros j Hj. now rewrite sumn_scal.
        + intros l Hl. rewrite (Ha l Hl) at 1. rewrite (sumn_ext nb (fun i => momw i * P i l) (fun i => sumn nb (fun j => a j * (gramw j i * P i l)))).
          * rewrite sumn_swap. rewrite <- sumn_scal_r. apply sumn_ext. intros j Hj. rewrite sumn_scal. ring.
          * intros i Hi. rewrite <- NE by auto. rewrite <- sumn_scal_r. apply sumn_ext. intros. ring.
      - apply sumn_0. intros j Hj. rewrite (sumn_ext nb _ (fun l => sumn nb (fun p => P p j * (gramw p l * v l)))).
        + rewrite sumn_swap. rewrite (sumn_0 nb _); [ring|]. intros p Hp. rewrite sumn_scal. rewrite K by auto. ring.
        + intros l Hl. rewrite (H3 j l Hj Hl). rewrite <- sumn_scal_r. apply sumn_ext. intros p Hp. rewrite (gramw_sym l p). ring. }
    pose proof (Hmin a La) as Q.
    assert (E : sumn nb (fun l => b l ^ 2) = sumn nb (fun l => a l ^ 2) + sumn nb (fun l => v l ^ 2) + 2 * sumn nb (fun l => a l * v l)).
    { rewrite <- sumn_scal, <- !sumn_plus. apply sumn_ext. intros. unfold v. ring. }
    rewrite OR in E. assert (V : forall l, (l < nb)%nat -> 0 <= v l ^ 2) by (intros; apply pow2_ge_0). pose proof (sumn_ge0 nb _ V).
    intros l Hl. pose proof (sumn_0_inv nb _ V ltac:(lra) l Hl) as X. unfold v in X. cbn in X. rewrite Rmult_1_r in X. apply Rmult_integral in X. lra.
  Qed.
End LS.

(** every symmetric matrix has such a pseudo-inverse: G H with G a symmetric generalised inverse of H^2 *)
From Verif Require Import Spec.Contracts Lib.RMat.
Lemma pseudo_inverse_exists n H : (forall i j, (i < n)%nat -> (j < n)%nat -> H i j = H j i) -> exists P, pseudo_inverse n H P.
Proof.
  intro Hs. set (B := mm n H H). assert (Bs : forall i j, (i < n)%nat -> (j < n)%nat -> B i j = B j i).
  { intros i j Hi Hj. unfold B, mm. apply sumn_ext. intros l Hl. rewrite (Hs i l), (Hs l j) by auto. ring. }
  destruct (gen_inverse_exists n n B) as (G0 & HG0).
  set (G := fun i j => (G0 i j + G0 j i) / 2). assert (Gs : forall i j, G i j = G j i) by (intros; unfold G; lra).
  assert (HG : forall i j, (i < n)%nat -> (j < n)%nat -> mm n B (mm n G B) i j = B i j).
  { intros i j Hi Hj. assert (X1 := HG0 i j Hi Hj). assert (X2 := HG0 j i Hj Hi). rewrite (Bs j i Hj Hi) in X2.
    assert (mm n B (mm n G B) i j = (sumn n (fun p => B i p * sumn n (fun q => G0 p q * B q j)) + sumn n (fun p => B j p * sumn n (fun q => G0 p q * B q i))) / 2) as ->; [|lra].
    rewrite (sumn_ext n (fun p => B j p * sumn n (fun q => G0 p q * B q i)) (fun p => sumn n (fun q => B i q * (G0 p q * B p j)))).
    2:{ intros p Hp. rewrite <- sumn_scal. apply sumn_ext. intros q Hq. rewrite (Bs j p), (Bs q i) by auto. ring. }
    rewrite sumn_swap. rewrite <- sumn_plus, <- sumn_div. unfold mm. apply sumn_ext. intros p Hp. rewrite <- !sumn_scal, <- sumn_plus, <- sumn_div. apply sumn_ext. intros q Hq. unfold G. lra. }
  exists (mm n G H). split.
  - (* D = H G H^2 - H; D^T D = 0 *)
    set (X := mm n H (mm n (mm n G H) H)). set (D := fun i j => X i j - H i j).
    assert (XB : forall i j, X i j = mm n H (mm n G B) i j).
    { intros i j. unfold X. apply mm_ext; [auto|]. intros l _. apply mm_assoc. }
    assert (HD : forall i j, (i < n)%nat -> (j < n)%nat -> mm n H D i j = 0).
    { intros i j Hi Hj. unfold mm, D. rewrite (sumn_ext n _ (fun l => H i l * X l j - H i l * H l j)) by (intros; ring). rewrite sumn_minus.
      change (sumn n (fun l => H i l * H l j)) with (B i j). assert (sumn n (fun l => H i l * X l j) = B i j); [|lra].
      rewrite <- HG by auto. unfold B at 1. rewrite mm_assoc. unfold mm at 1. apply sumn_ext. intros l Hl. now rewrite XB. }
    intros i j Hi Hj. change (X i j = H i j).
    assert (S0 : sumn n (fun l => D l j * D l j) = 0).
    { (* D = H (G B - I): D_lj = sum_q H l q Y q j *)
      set (Y := fun q c => mm n G B q c - delta q c).
      assert (DY : forall l, (l < n)%nat -> D l j = sumn n (fun q => H l q * Y q j)).
      { intros l Hl. unfold D. rewrite XB. unfold Y. rewrite (sumn_ext n _ (fun q => H l q * mm n G B q j - H l q * delta q j)) by (intros; ring). rewrite sumn_minus. f_equal. symmetry. now apply (delta_r n H l j). }
      rewrite (sumn_ext n _ (fun l => sumn n (fun q => Y q j * (H q l * D l j)))).
      - rewrite sumn_swap. apply sumn_0. intros q Hq. rewrite sumn_scal. pose proof (HD q j Hq Hj) as Z0. unfold mm in Z0. rewrite Z0. ring.
      - intros l Hl. rewrite (DY l Hl) at 1. rewrite <- sumn_scal_r. apply sumn_ext. intros q Hq. rewrite (Hs l q) by auto. ring. }
    pose proof (sumn_0_inv n _ (fun l _ => Rle_0_sqr (D l j)) S0 i Hi) as Q. unfold Rsqr in Q. unfold D in Q. nra.
  - intros i j Hi Hj. change (mm n H (mm n G H) i j = mm n H (mm n G H) j i).
    unfold mm at 1. rewrite (sumn_ext n _ (fun p => sumn n (fun q => H i p * G p q * H q j))) by (intros; unfold mm; rewrite <- sumn_scal; apply sumn_ext; intros; ring).
    rewrite sumn_swap. unfold mm at 1. apply sumn_ext. intros q Hq. unfold mm. rewrite <- sumn_scal. apply sumn_ext. intros p Hp. rewrite (Hs i p), (Hs q j), (Gs p q) by auto. ring.
Qed.
