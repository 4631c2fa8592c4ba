(** Bounds on kernel expansions from positive semidefiniteness of the Gaussian kernel. *)
From Coq Require Import List ZArith Reals Lra Lia.
From Verif Require Import Spec.RealSpec Spec.KernelSpec Spec.Contracts Lib.RSum Lib.RMat Lib.Gauss.
Local Open Scope R_scope.

Lemma discriminant A B C : 0 <= C -> (forall t, 0 <= A + 2 * t * B + t * t * C) -> B * B <= A * C.
Proof.
  intros HC H. destruct (Rle_lt_or_eq_dec _ _ HC) as [HP|HZ].
  - pose proof (H (- B / C)) as Q. replace (A + 2 * (- B / C) * B + - B / C * (- B / C) * C) with ((A * C - B * B) / C) in Q by (field; lra).
    apply (Rmult_le_compat_r C) in Q; [|lra]. replace ((A * C - B * B) / C * C) with (A * C - B * B) in Q by (field; lra). lra.
  - subst C. pose proof (H 0). destruct (Req_dec B 0) as [->|HB]; [lra|]. exfalso.
    pose proof (H (- (A + 1) / (2 * B))) as Q. replace (A + 2 * (- (A + 1) / (2 * B)) * B + - (A + 1) / (2 * B) * (- (A + 1) / (2 * B)) * 0) with (-1) in Q by (field; lra). lra.
Qed.
Lemma sqr_bound a b : 0 <= b -> a * a <= b * b -> Rabs a <= b.
Proof. intros Hb H. apply Rsqr_le_abs_0 in H. rewrite (Rabs_right b) in H by lra. exact H. Qed.
Lemma lip_deriv f x v L : (forall h, Rabs (f (x + h) - f x) <= L * Rabs h) -> derivable_pt_lim f x v -> Rabs v <= L.
Proof.
  intros HL Hd. destruct (Rle_or_lt (Rabs v) L) as [|Hn]; [auto|]. exfalso.
  destruct (Hd (Rabs v - L) ltac:(lra)) as (del & Hdel). pose proof (cond_pos del).
  specialize (Hdel (del / 2) ltac:(lra)). rewrite Rabs_right in Hdel by lra. specialize (Hdel ltac:(lra)).
  specialize (HL (del / 2)). rewrite (Rabs_right (del / 2)) in HL by lra.
  assert (Q : Rabs ((f (x + del / 2) - f x) / (del / 2)) <= L).
  { unfold Rdiv at 1. rewrite Rabs_mult, Rabs_inv. rewrite (Rabs_right (del / 2)) by lra. apply (Rmult_le_reg_r (del / 2)); [lra|].
    rewrite Rmult_assoc, Rinv_l by lra. lra. }
  assert (T : Rabs v <= Rabs ((f (x + del / 2) - f x) / (del / 2)) + Rabs ((f (x + del / 2) - f x) / (del / 2) - v)).
  { replace v with ((f (x + del / 2) - f x) / (del / 2) - ((f (x + del / 2) - f x) / (del / 2) - v)) at 1 by ring.
    eapply Rle_trans; [apply Rabs_triang|]. rewrite Rabs_Ropp. lra. }
  lra.
Qed.

Section Expansion.
  Context (M D : nat) (l : nat -> R) (z : nat -> nat -> R) (Hl : forall d, (d < D)%nat -> l d <> 0) (a : nat -> R).
  Let K i j := gaussk D l (z i) (z j).
  Let s := expansion M D l z a.
  Lemma energy_ge0 : 0 <= qf M K a.
  Proof. apply gaussk_psd; auto. Qed.
  Lemma gaussk_self x : gaussk D l x x = 1.
  Proof. unfold gaussk. rewrite (sumn_0 D). { now rewrite Ropp_0, exp_0. } intros d _. unfold Rdiv. replace (x d - x d) with 0 by ring. ring. Qed.
  (** t (k(x,.) - e k(y,.)) added to the expansion *)
  Lemma quad_two x y e t : 0 <= qf M K a + 2 * t * (s x - e * s y) + t * t * (1 - 2 * e * gaussk D l x y + e * e).
  Proof.
    set (w := fun i => if (i <? M)%nat then z i else if (i =? M)%nat then x else y).
    set (v := fun i => if (i <? M)%nat then a i else if (i =? M)%nat then t else - (e * t)).
    pose proof (gaussk_psd (S (S M)) D l w Hl v) as Q. unfold qf in Q. cbn [sumn] in Q.
    assert (W : forall i, (i < M)%nat -> w i = z i /\ v i = a i). { intros i Hi. unfold w, v. destruct (Nat.ltb_spec i M); [auto|lia]. }
    assert (W0 : w M = x /\ v M = t). { unfold w, v. destruct (Nat.ltb_spec M M); [lia|]. now rewrite Nat.eqb_refl. }
    assert (W1 : w (S M) = y /\ v (S M) = - (e * t)). { unfold w, v. destruct (Nat.ltb_spec (S M) M); [lia|]. destruct (Nat.eqb_spec (S M) M); [lia|auto]. }
    destruct W0 as (W0 & V0). destruct W1 as (W1 & V1). rewrite W0, V0, W1, V1 in Q. rewrite !gaussk_self in Q.
    assert (E1 : forall p, sumn M (fun j => v j * gaussk D l (w j) p) = expansion M D l z a p).
    { intro p. unfold expansion. apply sumn_ext. intros j Hj. destruct (W j Hj) as (-> & ->). now rewrite gaussk_sym. }
    rewrite (sumn_ext M (fun i => sumn M (fun j => v i * v j * gaussk D l (w i) (w j)) + v i * t * gaussk D l (w i) x + v i * - (e * t) * gaussk D l (w i) y)
      (fun i => (sumn M (fun j => a i * a j * K i j) + t * (v i * gaussk D l (w i) x)) + - (e * t) * (v i * gaussk D l (w i) y))) in Q.
    2:{ intros i Hi. f_equal; [f_equal|]; try ring. apply sumn_ext. intros j Hj. destruct (W i Hi) as (-> & ->). destruct (W j Hj) as (-> & ->). reflexivity. }
    rewrite !sumn_plus, !sumn_scal in Q. rewrite !E1 in Q.
    rewrite (sumn_ext M (fun j => t * v j * gaussk D l x (w j)) (fun j => t * (v j * gaussk D l (w j) x))) in Q by (intros; rewrite gaussk_sym; ring).
    rewrite (sumn_ext M (fun j => - (e * t) * v j * gaussk D l y (w j)) (fun j => - (e * t) * (v j * gaussk D l (w j) y))) in Q by (intros; rewrite gaussk_sym; ring).
    rewrite !sumn_scal, !E1 in Q. rewrite (gaussk_sym D l y x) in Q. unfold qf. fold s in Q.
    eapply Rle_trans; [exact Q|]. apply Req_le. ring.
  Qed.
  Lemma expansion_bound x : Rabs (s x) <= sqrt (qf M K a).
  Proof.
    apply sqr_bound; [apply sqrt_pos|]. rewrite sqrt_sqrt by apply energy_ge0.
    pose proof (discriminant (qf M K a) (s x) 1 ltac:(lra)) as Q. rewrite Rmult_1_r in Q. apply Q. intro t. pose proof (quad_two x x 0 t) as P. lra.
  Qed.
  Lemma expansion_lipschitz x y : Rabs (s x - s y) <= sqrt (qf M K a) * sqrt (2 - 2 * gaussk D l x y).
  Proof.
    pose proof (gaussk_le1 D l x y). rewrite <- sqrt_mult by (try apply energy_ge0; lra). apply sqr_bound; [apply sqrt_pos|].
    rewrite sqrt_sqrt by (apply Rmult_le_pos; [apply energy_ge0|lra]).
    apply discriminant; [lra|]. intro t. pose proof (quad_two x y 1 t) as P. eapply Rle_trans; [exact P|]. apply Req_le. ring.
  Qed.
  Lemma gaussk_moved x d h : (d < D)%nat -> 2 - 2 * gaussk D l (moved x d (x d + h)) x <= (h / l d) * (h / l d).
  Proof.
    intro Hd. unfold gaussk. rewrite (sumn_ext D _ (fun i => if (i =? d)%nat then h ^ 2 / (2 * l i ^ 2) else 0)).
    2:{ intros i Hi. unfold moved. destruct (Nat.eqb_spec i d) as [->|]; [f_equal; ring|]. unfold Rdiv. ring. }
    rewrite (sumn_delta D d (fun i => h ^ 2 / (2 * l i ^ 2))) by auto. pose proof (exp_ineq1_le (- (h ^ 2 / (2 * l d ^ 2)))) as Q.
    assert (E1 : h / l d * (h / l d) = 2 * (h ^ 2 / (2 * l d ^ 2))) by (field; auto). rewrite E1. lra.
  Qed.
  Lemma expansion_partial_bound x d v : (d < D)%nat -> partial_at s d x v -> Rabs v <= sqrt (qf M K a) / Rabs (l d).
  Proof.
    intros Hd Hv. unfold partial_at in Hv. eapply lip_deriv; [|exact Hv]. intro h. cbv beta.
    assert (E0 : s (moved x d (x d)) = s x).
    { unfold s, expansion. apply sumn_ext. intros m _. f_equal. apply gaussk_ext; auto. intros i _. unfold moved. destruct (Nat.eqb_spec i d) as [->|]; auto. }
    rewrite E0. eapply Rle_trans; [apply expansion_lipschitz|]. unfold Rdiv. rewrite Rmult_assoc. apply Rmult_le_compat_l; [apply sqrt_pos|].
    rewrite <- Rabs_inv, (Rmult_comm (Rabs (/ l d))), <- Rabs_mult. apply (Rle_trans _ (sqrt ((h / l d) * (h / l d)))).
    - apply sqrt_le_1_alt. now apply gaussk_moved.
    - rewrite <- (sqrt_Rsqr_abs (h * / l d)). unfold Rsqr. apply Rle_refl.
  Qed.
End Expansion.

(** the minimiser of the score-matching objective has bounded energy, so the score it defines is bounded and Lipschitz *)
Section Matched.
  Context (N M D : nat) (l : nat -> R) (x z : nat -> nat -> R) (d : nat) (lam rho : R).
  Context (Hl : forall d, (d < D)%nat -> l d <> 0) (Hd : (d < D)%nat) (Hlam : 0 < lam) (Hrho : 0 <= rho).
  Let K i j := gaussk D l (z i) (z j).
  Lemma expansion_0 p : expansion M D l z (fun _ => 0) p = 0.
  Proof. apply sumn_0. intros. ring. Qed.
  Lemma minimiser_energy a : minimises N M D l x z d lam rho a -> sqrt (qf M K a) <= 2 * INR N / (lam * Rabs (l d)).
  Proof.
    intros (J & (ds & Hds & EJ) & Hmin). destruct (Hmin (fun _ => 0)) as (Jb & (db & Hdb & EJb) & Hle & _).
    assert (Jb = 0).
    { rewrite EJb. rewrite (sumn_0 N), (sumn_0 M). { ring. }
      - intros i _. apply sumn_0. intros. ring.
      - intros n Hn. rewrite expansion_0. replace (db n) with 0; [field|]. apply (partial_unique (expansion M D l z (fun _ => 0)) d (x n)); [|auto].
        unfold partial_at. apply (dlim_ext (fun _ => 0)); [intro t; now rewrite expansion_0|]. apply derivable_pt_lim_const. }
    set (q := sqrt (qf M K a)). assert (Hq : 0 <= q) by apply sqrt_pos. assert (Q2 : q * q = qf M K a) by (apply sqrt_sqrt; apply energy_ge0; auto).
    assert (Hld : 0 < Rabs (l d)) by (apply Rabs_pos_lt; auto).
    assert (S1 : - (INR N * (q / Rabs (l d))) <= sumn N (fun n => expansion M D l z a (x n) ^ 2 / 2 + ds n)).
    { rewrite <- sumn_const, <- sumn_opp. apply sumn_le. intros n Hn. pose proof (expansion_partial_bound M D l z Hl a (x n) d (ds n) Hd (Hds n Hn)) as B. fold K q in B.
      pose proof (pow2_ge_0 (expansion M D l z a (x n))). pose proof (Rle_abs (- ds n)) as B'. rewrite Rabs_Ropp in B'. lra. }
    assert (S2 : q * q <= sumn M (fun i => sumn M (fun j => a i * a j * (gaussk D l (z i) (z j) + (if (i =? j)%nat then rho else 0))))).
    { rewrite Q2. unfold qf. apply sumn_le. intros i Hi. 
      rewrite (sumn_ext M (fun j => a i * a j * (gaussk D l (z i) (z j) + (if (i =? j)%nat then rho else 0))) (fun j => a i * a j * K i j + (if (j =? i)%nat then rho * (a j * a j) else 0))).
      2:{ intros j Hj. unfold K. rewrite (Nat.eqb_sym j i). destruct (Nat.eqb_spec i j) as [->|]; ring. }
      rewrite sumn_plus, (sumn_delta M i (fun j => rho * (a j * a j))) by auto. pose proof (Rle_0_sqr (a i)). unfold Rsqr in *. assert (0 <= rho * (a i * a i)) by (apply Rmult_le_pos; lra). lra. }
    assert (S3 : lam / 2 * (q * q) <= INR N * (q / Rabs (l d))).
    { apply (Rmult_le_compat_l (lam / 2)) in S2; [|lra]. lra. }
    fold q. destruct (Req_dec q 0) as [->|Hq0].
    - apply Rmult_le_pos; [pose proof (pos_INR N); lra|]. left. apply Rinv_0_lt_compat. apply Rmult_lt_0_compat; lra.
    - apply (Rmult_le_reg_r (lam / 2 * q)); [apply Rmult_lt_0_compat; lra|].
      replace (2 * INR N / (lam * Rabs (l d)) * (lam / 2 * q)) with (INR N * (q / Rabs (l d))) by (field; split; lra). lra.
  Qed.
  Theorem matched_bound s : matched_score N M D l x z lam rho d s -> (forall p, Rabs (s p) <= 2 * INR N / (lam * Rabs (l d))) /\
    (forall p p', Rabs (s p - s p') <= 2 * INR N / (lam * Rabs (l d)) * sqrt (2 - 2 * gaussk D l p p')).
  Proof.
    intros (a & Ha & Hs). pose proof (minimiser_energy a Ha) as B. split.
    - intro p. rewrite Hs. eapply Rle_trans; [apply expansion_bound; auto|exact B].
    - intros p p'. rewrite !Hs. eapply Rle_trans; [apply expansion_lipschitz; auto|]. apply Rmult_le_compat_r; [apply sqrt_pos|exact B].
  Qed.
End Matched.
