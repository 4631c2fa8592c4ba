(** Over the reals, with a correct matrix inverse: the RBF score estimators never hit a singular matrix and return
    the kernel expansion whose coefficients solve the normal equations. *)
From Coq Require Import String List ZArith Reals Lra Lia Bool.
From Verif Require Import Base.Num Base.Py Base.Arr Lib.ArrLemmas Model.Ext Model.Cdist Model.Score Lib.ScoreLemmas.
From Verif Require Import Spec.RealSpec Spec.Contracts Spec.KernelSpec Lib.RSum Lib.RMat Lib.Gauss Lib.KernelForms.
Import ListNotations.
Local Open Scope R_scope.

Lemma mmul_mk_R r n c (f g : nat -> nat -> R) : mmul (mk r n f) (mk n c g) = Ok (mk r c (fun i j => sumn n (fun k => f i k * g k j))).
Proof.
  rewrite mmul_dim by reflexivity. cbn [mk mr mc]. f_equal. apply mk_ext. intros i j Hi Hj. rewrite nsum_seq. apply sumn_ext. intros k Hk.
  now rewrite !get_mk by auto.
Qed.
Lemma eye_mk n : eye (T := R) n = mk n n delta.
Proof. reflexivity. Qed.
Lemma nmilli_R : nmilli (T := R) = 0.001.
Proof. unfold nmilli. cbn. lra. Qed.

Lemma mv_opp n A v i : mv n A (fun m => - v m) i = - mv n A v i.
Proof. unfold mv. rewrite <- sumn_opp. apply sumn_ext. intros. ring. Qed.
Lemma mv_ext_m n A B v i : (forall j, (j < n)%nat -> A i j = B i j) -> mv n A v i = mv n B v i.
Proof. intro H. unfold mv. apply sumn_ext. intros. now rewrite H. Qed.

Definition Kreg (D : nat) (l : nat -> R) (z : nat -> nat -> R) (i j : nat) : R := gaussk D l (z i) (z j) + 0.001 * delta i j.
Definition Agram (N D : nat) (l : nat -> R) (x z : nat -> nat -> R) (i j : nat) : R := sumn N (fun n => gaussk D l (x n) (z i) * gaussk D l (x n) (z j)).
Definition Sgrad (N D : nat) (l : nat -> R) (x z : nat -> nat -> R) (d m : nat) : R := sumn N (fun n => dgauss D l (x n) (z m) d).
Definition Nmat (N D : nat) (l : nat -> R) (x z : nat -> nat -> R) (c : R) (i j : nat) : R := Agram N D l x z i j + c * Kreg D l z i j.
(** the normal equations *)
Definition coeffs (N M D : nat) (l : nat -> R) (x z : nat -> nat -> R) (d : nat) (c : R) (a : nat -> R) : Prop :=
  forall m, (m < M)%nat -> mv M (Nmat N D l x z c) a m = - Sgrad N D l x z d m.

Section Pd.
  Context (N M D : nat) (l : nat -> R) (x z : nat -> nat -> R) (Hl : forall d, (d < D)%nat -> l d <> 0).
  Lemma Kreg_pd : pd M (Kreg D l z).
  Proof. apply pd_plus; [now apply gaussk_psd|]. apply pd_scal; [lra|apply pd_delta]. Qed.
  Lemma Nmat_pd c : 0 < c -> pd M (Nmat N D l x z c).
  Proof. intro Hc. apply pd_plus; [|apply pd_scal; [auto|apply Kreg_pd]]. apply (psd_gram M N (fun n m => gaussk D l (x n) (z m))). Qed.
  Lemma coeffs_exist c d : 0 < c -> exists a, coeffs N M D l x z d c a.
  Proof. intro Hc. exists (solve M (Nmat N D l x z c) (fun m => - Sgrad N D l x z d m)). intros m Hm. now apply solve_ok; [apply Nmat_pd|]. Qed.
  Lemma coeffs_unique c d a b : 0 < c -> coeffs N M D l x z d c a -> coeffs N M D l x z d c b -> forall m, (m < M)%nat -> a m = b m.
  Proof. intros Hc Ha Hb. apply (pd_unique M _ _ _ (Nmat_pd c Hc)). intros i Hi. now rewrite Ha, Hb. Qed.
  Lemma Kreg_sym i j : Kreg D l z i j = Kreg D l z j i.
  Proof. unfold Kreg. now rewrite gaussk_sym, delta_sym. Qed.
  Lemma Nmat_sym c i j : Nmat N D l x z c i j = Nmat N D l x z c j i.
  Proof. unfold Nmat, Agram. rewrite Kreg_sym. f_equal. apply sumn_ext. intros. ring. Qed.

  (** the objective in closed form *)
  Definition Jval (c : R) (d : nat) (b : nat -> R) : R := qf M (Nmat N D l x z c) b / 2 + dot M b (Sgrad N D l x z d).
  Lemma objective_val c d b : (d < D)%nat -> objective N M D l x z d c 0.001 b (Jval c d b).
  Proof.
    intro Hd. exists (fun n => sumn M (fun m => b m * dgauss D l (x n) (z m) d)). split.
    - intros n Hn. apply expansion_partial; auto.
    - unfold Jval. rewrite sumn_plus.
      assert (Q1 : sumn N (fun n => expansion M D l z b (x n) ^ 2 / 2) = qf M (Agram N D l x z) b / 2).
      { rewrite sumn_div. f_equal. unfold qf, Agram, expansion.
        rewrite (sumn_ext N _ (fun n => sumn M (fun i => sumn M (fun j => b i * b j * (gaussk D l (x n) (z i) * gaussk D l (x n) (z j)))))).
        2:{ intros n _. cbn [pow]. rewrite Rmult_1_r, sumn_sq. apply sumn_ext. intros. apply sumn_ext. intros. ring. }
        rewrite sumn_swap. apply sumn_ext. intros i _. rewrite sumn_swap. apply sumn_ext. intros j _. now rewrite sumn_scal. }
      assert (Q2 : sumn N (fun n => sumn M (fun m => b m * dgauss D l (x n) (z m) d)) = dot M b (Sgrad N D l x z d)).
      { rewrite sumn_swap. unfold dot, Sgrad. apply sumn_ext. intros. now rewrite sumn_scal. }
      assert (Q3 : sumn M (fun i => sumn M (fun j => b i * b j * (gaussk D l (z i) (z j) + (if (i =? j)%nat then 0.001 else 0)))) = qf M (Kreg D l z) b).
      { unfold qf, Kreg, delta. apply sumn_ext. intros i _. apply sumn_ext. intros j _. destruct (i =? j)%nat; ring. }
      rewrite Q1, Q2, Q3. unfold Nmat. rewrite qf_plus, qf_scal. lra.
  Qed.
  Lemma qf_minus Q u v : (forall i j, Q i j = Q j i) -> qf M Q (fun i => u i - v i) = qf M Q u - 2 * dot M u (mv M Q v) + qf M Q v.
  Proof.
    intro Hs. assert (B : forall p q, dot M p (mv M Q q) = sumn M (fun i => sumn M (fun j => p i * q j * Q i j))).
    { intros. unfold dot, mv. apply sumn_ext. intros. rewrite <- sumn_scal. apply sumn_ext. intros. ring. }
    assert (Sy : dot M v (mv M Q u) = dot M u (mv M Q v)).
    { rewrite !B, sumn_swap. apply sumn_ext. intros i _. apply sumn_ext. intros j _. rewrite (Hs j i). ring. }
    replace (qf M Q u - 2 * dot M u (mv M Q v) + qf M Q v) with (qf M Q u - dot M u (mv M Q v) - dot M v (mv M Q u) + qf M Q v) by (rewrite Sy; ring).
    rewrite !B. unfold qf. rewrite <- !sumn_minus, <- sumn_plus. apply sumn_ext. intros i _. rewrite <- !sumn_minus, <- sumn_plus. apply sumn_ext. intros. ring.
  Qed.
  Lemma coeffs_minimise c d a : 0 < c -> (d < D)%nat -> coeffs N M D l x z d c a -> minimises N M D l x z d c 0.001 a.
  Proof.
    intros Hc Hd Ha. exists (Jval c d a). split; [now apply objective_val|]. intro b. exists (Jval c d b). split; [now apply objective_val|].
    set (Q := Nmat N D l x z c) in *.
    assert (Diff : Jval c d b - Jval c d a = qf M Q (fun i => b i - a i) / 2).
    { rewrite (qf_minus Q b a) by (apply Nmat_sym). unfold Jval. fold Q.
      assert (S1 : forall u, dot M u (Sgrad N D l x z d) = - dot M u (mv M Q a)).
      { intro u. unfold dot. rewrite <- sumn_opp. apply sumn_ext. intros m Hm. pose proof (Ha m Hm) as Hq. fold Q in Hq. rewrite Hq. ring. }
      rewrite !S1, <- (qf_dot M Q a). lra. }
    assert (HP : 0 <= qf M Q (fun i => b i - a i)).
    { unfold Q, Nmat. rewrite qf_plus, qf_scal. apply Rplus_le_le_0_compat.
      - apply (psd_gram M N (fun n m => gaussk D l (x n) (z m))).
      - apply Rmult_le_pos; [lra|]. unfold Kreg. rewrite qf_plus, qf_scal. apply Rplus_le_le_0_compat; [now apply gaussk_psd|].
        apply Rmult_le_pos; [lra|]. rewrite qf_delta. apply sumn_ge0. intros. apply Rle_0_sqr. }
    split; [lra|]. intros (m & Hm & Hne). assert (0 < qf M Q (fun i => b i - a i)). { apply (Nmat_pd c Hc). exists m. split; [auto|lra]. } lra.
  Qed.
  Lemma objective_fun c d rho b J J' : (d < D)%nat -> objective N M D l x z d c rho b J -> objective N M D l x z d c rho b J' -> J = J'.
  Proof.
    intros Hd (ds & H1 & ->) (ds' & H2 & ->). f_equal. apply sumn_ext. intros n Hn. f_equal. eapply partial_unique; eauto.
  Qed.
End Pd.

(** the minimiser is unique *)
Lemma minimises_unique N M D l x z d c rho a b : (d < D)%nat -> minimises N M D l x z d c rho a -> minimises N M D l x z d c rho b ->
  forall m, (m < M)%nat -> a m = b m.
Proof.
  intros Hd (J & HJ & Ha) (J' & HJ' & Hb) m Hm. destruct (Req_dec (a m) (b m)) as [|Hne]; [auto|]. exfalso.
  destruct (Ha b) as (Jb & B1 & B2 & B3). destruct (Hb a) as (Ja & A1 & A2 & A3).
  pose proof (objective_fun _ _ _ _ _ _ _ _ _ _ _ _ Hd B1 HJ'). pose proof (objective_fun _ _ _ _ _ _ _ _ _ _ _ _ Hd A1 HJ).
  assert (J < Jb) by (apply B3; exists m; split; [auto|congruence]). assert (J' < Ja) by (apply A3; exists m; split; auto). lra.
Qed.

Section Est.
  Context {S : Type} (E : Ext R S) (HI : inv_contract E).

  Lemma inv_R n f : (exists h, inverse_of n f h) -> exists g, linalg_inv E (mk n n f) = Ok (mk n n g) /\ inverse_of n f g.
  Proof.
    intros (h & Hh). unfold linalg_inv. cbn [mk mr mc]. rewrite Nat.eqb_refl. specialize (HI (mk n n f) eq_refl). cbn [mk mr] in HI.
    assert (EX : forall i j, (i < n)%nat -> (j < n)%nat -> f i j = get (mk n n f) i j) by (intros; now rewrite get_mk).
    change {| mr := n; mc := n; md := _ |} with (mk n n f) in *.
    destruct (x_inv E (mk n n f)) as [g|].
    - exists g. split; [reflexivity|]. eapply inverse_of_ext; [|exact HI]. intros; symmetry; auto.
    - exfalso. apply HI. exists h. eapply inverse_of_ext; eauto.
  Qed.

  Section Core.
    Context (N M D : nat) (l : nat -> R) (x z : nat -> nat -> R) (Hl : forall d, (d < D)%nat -> l d <> 0) (C : R) (HC : 0 < C + 0.001).
    Let K := Kreg D l z.
    Let A := Agram N D l x z.

    Lemma reg_inv_R : exists Ki, reg_inv E (mk M M (fun i j => gaussk D l (z i) (z j))) M = Ok (mk M M Ki) /\ inverse_of M K Ki.
    Proof.
      unfold reg_inv. rewrite eye_mk. unfold smul. rewrite mmap1_mk, bc2_mk. cbn [rbind].
      rewrite (mk_ext M M _ K). 2:{ intros. unfold K, Kreg. rewrite nmilli_R. reflexivity. }
      apply inv_R. exists (pdinv M K). apply pd_inverse. now apply Kreg_pd.
    Qed.
    Lemma inner_inv_R Ki : inverse_of M K Ki -> exists Hi, inner_inv E C M (mk M M Ki) (mk M M A) = Ok (mk M M Hi) /\
      inverse_of M (fun i j => (C + 0.001) * delta i j + mm M Ki A i j) Hi.
    Proof.
      intro HK. unfold inner_inv. rewrite mmul_mk_R. cbn [rbind]. rewrite eye_mk. unfold smul. rewrite !mmap1_mk, bc2_mk. cbn [rbind]. rewrite bc2_mk. cbn [rbind].
      rewrite (mk_ext M M _ (fun i j => (C + 0.001) * delta i j + mm M Ki A i j)).
      2:{ intros. rewrite nmilli_R. unfold mm. cbn. ring. }
      apply inv_R. exists (mm M (pdinv M (Nmat N D l x z (C + 0.001))) K).
      apply (inverse_of_ext M (mm M Ki (Nmat N D l x z (C + 0.001)))).
      2:{ apply inverse_mm. { now apply inverse_of_sym. } apply pd_inverse. now apply Nmat_pd. }
      intros i j Hi Hj. destruct (HK i j Hi Hj) as (_ & H2). unfold mm, Nmat. fold A K.
      rewrite (sumn_ext M _ (fun k => Ki i k * A k j + (C + 0.001) * (Ki i k * K k j))) by (intros; unfold A, K; ring).
      rewrite sumn_plus, sumn_scal, H2. ring.
    Qed.
    Lemma alpha_normal Ki Hi s : inverse_of M K Ki -> inverse_of M (fun i j => (C + 0.001) * delta i j + mm M Ki A i j) Hi ->
      forall m, (m < M)%nat -> mv M (Nmat N D l x z (C + 0.001)) (fun m => - mv M Hi (mv M Ki s) m) m = - s m.
    Proof.
      intros HK HH. set (al := fun m => - mv M Hi (mv M Ki s) m).
      assert (E1 : forall i, (i < M)%nat -> mv M (fun i j => (C + 0.001) * delta i j + mm M Ki A i j) al i = - mv M Ki s i).
      { intros i Hi'. set (B := fun i j => (C + 0.001) * delta i j + mm M Ki A i j) in *.
        unfold al. rewrite mv_opp, <- mv_mm. f_equal. transitivity (mv M delta (mv M Ki s) i); [|now apply mv_delta].
        apply mv_ext_m. intros j Hj. now apply HH. }
      intros m Hm. transitivity (mv M K (mv M (fun i j => (C + 0.001) * delta i j + mm M Ki A i j) al) m).
      - rewrite <- mv_mm. unfold mv. apply sumn_ext. intros j Hj. f_equal. unfold Nmat. fold A K. unfold mm at 1.
        rewrite (sumn_ext M _ (fun k => (C + 0.001) * (K m k * delta k j) + K m k * mm M Ki A k j)) by (intros; ring).
        rewrite sumn_plus, sumn_scal. fold (mm M K delta m j). rewrite delta_r by auto. fold (mm M K (mm M Ki A) m j).
        rewrite <- mm_assoc. rewrite (mm_ext M (mm M K Ki) A delta A m j); [|intros; now apply HK|auto]. rewrite delta_l by auto. ring.
      - rewrite (mv_ext M K _ (fun i => - mv M Ki s i)) by auto.
        rewrite mv_opp, <- mv_mm. f_equal. transitivity (mv M delta s m); [|now apply mv_delta]. apply mv_ext_m. intros j Hj. now apply HK.
    Qed.
  End Core.

  (** evaluation: rows of kernel values times the coefficients *)
  Lemma eval_mk r M q (kk Hi Ki s : nat -> nat -> R) (C : R) (A : mat R) :
    inner_inv E C M (mk M M Ki) A = Ok (mk M M Hi) ->
    let res := Ok (mk r q (fun i j => sumn M (fun m => - mv M Hi (mv M Ki (fun t => s t j)) m * kk i m))) in
    eval_at_samples E C M (mk r M kk) (mk M M Ki) A (mk M q s) = res /\
    forall K_sz x, K_sz x = Ok (mk r M kk) -> eval_fun E K_sz C M (mk M M Ki) A (mk M q s) x = res.
  Proof.
    intros HH res.
    assert (G : forall (a b : nat -> nat -> R) i j, (forall t, (t < M)%nat -> a i t = - sumn M (fun m => kk i m * Hi m t)) ->
       sumn M (fun t => sumn M (fun u => a i u * Ki u t) * s t j) = sumn M (fun m => - mv M Hi (mv M Ki (fun t => s t j)) m * kk i m)).
    { intros a _ i j Ha. unfold mv.
      rewrite (sumn_ext M _ (fun t => sumn M (fun u => a i u * (Ki u t * s t j)))) by (intros; rewrite <- sumn_scal_r; apply sumn_ext; intros; ring).
      rewrite sumn_swap. rewrite (sumn_ext M _ (fun u => a i u * sumn M (fun t => Ki u t * s t j))) by (intros; now rewrite <- sumn_scal).
      rewrite (sumn_ext M _ (fun u => sumn M (fun m => - (kk i m * (Hi m u * sumn M (fun t => Ki u t * s t j)))))).
      2:{ intros u Hu. rewrite Ha by auto. rewrite Ropp_mult_distr_l_reverse, <- sumn_scal_r, <- sumn_opp. apply sumn_ext. intros. ring. }
      rewrite sumn_swap. apply sumn_ext. intros m Hm. rewrite sumn_opp, sumn_scal. ring. }
    split.
    - unfold eval_at_samples. rewrite HH. cbn [rbind]. unfold mopp. rewrite mmap1_mk. rewrite !mmul_mk_R. cbn [rbind]. rewrite !mmul_mk_R. cbn [rbind]. rewrite !mmul_mk_R.
      unfold res. f_equal. apply mk_ext. intros i j Hi' Hj.
      apply (G (fun i k => sumn M (fun k0 => nopp (kk i k0) * Hi k0 k)) (fun _ _ => 0)). intros t Ht. rewrite <- sumn_opp. apply sumn_ext. intros. cbn. ring.
    - intros K_sz x HK. unfold eval_fun. rewrite HK. cbn [rbind]. rewrite HH. cbn [rbind]. unfold mopp. rewrite mmap1_mk. rewrite !mmul_mk_R. cbn [rbind]. rewrite !mmul_mk_R. cbn [rbind]. rewrite !mmul_mk_R.
      unfold res. f_equal. apply mk_ext. intros i j Hi' Hj.
      apply (G (fun i k => sumn M (fun k0 => kk i k0 * nopp (Hi k0 k))) (fun _ _ => 0)). intros t Ht. rewrite <- sumn_opp. apply sumn_ext. intros. cbn. ring.
  Qed.
End Est.
