(** The kernel score estimators for an arbitrary kernel matrix and gradient matrix, with a correct matrix inverse. *)
From Coq Require Import String List ZArith Reals Lra Lia Bool.
From Verif Require Import Base.Num Base.Py Base.Arr Lib.ArrLemmas Model.Ext Model.Cdist Model.Score Lib.ScoreLemmas.
From Verif Require Import Spec.RealSpec Spec.Contracts Spec.KernelSpec Spec.PeriodicSpec Lib.RSum Lib.RMat Lib.Gauss Lib.KernelForms Lib.Estimator Lib.EstForms.
Import ListNotations.
Local Open Scope R_scope.

Lemma classic_nz M (v : nat -> R) : (forall i, (i < M)%nat -> v i = 0) \/ exists i, (i < M)%nat /\ v i <> 0.
Proof.
  induction M as [|M IH]. { left. intros; lia. } destruct IH as [IH|(i & Hi & Hn)]; [|right; exists i; split; [lia|auto]].
  destruct (Req_dec (v M) 0) as [H|H]; [left|right; exists M; split; [lia|auto]]. intros i Hi. destruct (Nat.eq_dec i M) as [->|]; [auto|apply IH; lia].
Qed.

Lemma dlim_val u x v w : v = w -> derivable_pt_lim u x v -> derivable_pt_lim u x w.
Proof. now intros ->. Qed.

Section Normal.
  Context (M : nat) (K A : nat -> nat -> R) (c : R).
  Definition Nm (i j : nat) : R := A i j + c * K i j.
  Lemma alpha_gen Ki Hi s : inverse_of M K Ki -> inverse_of M (fun i j => c * delta i j + mm M Ki A i j) Hi ->
    forall m, (m < M)%nat -> mv M Nm (fun m => - mv M Hi (mv M Ki s) m) m = - s m.
  Proof.
    intros HK HH. set (al := fun m => - mv M Hi (mv M Ki s) m).
    assert (E1 : forall i, (i < M)%nat -> mv M (fun i j => c * delta i j + mm M Ki A i j) al i = - mv M Ki s i).
    { intros i Hi'. set (B := fun i j => c * delta i j + mm M Ki A i j) in *.
      unfold al. rewrite mv_opp, <- mv_mm. f_equal. transitivity (mv M delta (mv M Ki s) i); [|now apply mv_delta].
      apply mv_ext_m. intros j Hj. now apply HH. }
    intros m Hm. transitivity (mv M K (mv M (fun i j => c * delta i j + mm M Ki A i j) al) m).
    - rewrite <- mv_mm. unfold mv. apply sumn_ext. intros j Hj. f_equal. unfold Nm. unfold mm at 1.
      rewrite (sumn_ext M _ (fun k => c * (K m k * delta k j) + K m k * mm M Ki A k j)) by (intros; ring).
      rewrite sumn_plus, sumn_scal. fold (mm M K delta m j). rewrite delta_r by auto. fold (mm M K (mm M Ki A) m j).
      rewrite <- mm_assoc. rewrite (mm_ext M (mm M K Ki) A delta A m j); [|intros; now apply HK|auto]. rewrite delta_l by auto. ring.
    - rewrite (mv_ext M K _ (fun i => - mv M Ki s i)) by auto.
      rewrite mv_opp, <- mv_mm. f_equal. transitivity (mv M delta s m); [|now apply mv_delta]. apply mv_ext_m. intros j Hj. now apply HK.
  Qed.
  (** the solution of the normal equations is unique when both inverses exist *)
  Lemma normal_unique Ki Hi u v : inverse_of M K Ki -> inverse_of M (fun i j => c * delta i j + mm M Ki A i j) Hi ->
    (forall m, (m < M)%nat -> mv M Nm u m = mv M Nm v m) -> forall m, (m < M)%nat -> u m = v m.
  Proof.
    intros HK HH Huv.
    assert (G : forall w i, (i < M)%nat -> w i = mv M Hi (mv M Ki (mv M Nm w)) i).
    { intros w i Hi'. rewrite (mv_ext M Hi (mv M Ki (mv M Nm w)) (mv M (fun i j => c * delta i j + mm M Ki A i j) w)).
      - rewrite <- mv_mm. transitivity (mv M delta w i); [symmetry; now apply mv_delta|]. apply mv_ext_m. intros j Hj. symmetry. now apply HH.
      - intros j Hj. rewrite <- mv_mm. apply mv_ext_m. intros q Hq. unfold mm at 1, Nm.
        rewrite (sumn_ext M _ (fun l => Ki j l * A l q + c * (Ki j l * K l q))) by (intros; ring). rewrite sumn_plus, sumn_scal.
        destruct (HK j q Hj Hq) as (_ & ->). unfold mm. ring. }
    intros m Hm. rewrite (G u m Hm), (G v m Hm). apply mv_ext. intros j Hj. apply mv_ext. intros q Hq. now apply Huv.
  Qed.
  Lemma inner_of_pd Ki : inverse_of M K Ki -> pd M Nm -> exists h, inverse_of M (fun i j => c * delta i j + mm M Ki A i j) h.
  Proof.
    intros HK HP. exists (mm M (pdinv M Nm) K). apply (inverse_of_ext M (mm M Ki Nm)).
    2:{ apply inverse_mm; [now apply inverse_of_sym|now apply pd_inverse]. }
    intros i j Hi Hj. destruct (HK i j Hi Hj) as (_ & H2). unfold mm, Nm.
    rewrite (sumn_ext M _ (fun k => Ki i k * A k j + c * (Ki i k * K k j))) by (intros; ring).
    rewrite sumn_plus, sumn_scal, H2. ring.
  Qed.
End Normal.

Section Gen.
  Context {S : Type} (E : Ext R S) (HI : inv_contract E).
  Context (X Zp : mat R) (l : lscale R) (C : R) (w : Z).
  Let N := mr X. Let M := mr Zp.
  Context (K : mat R -> mat R -> lscale R -> res (mat R)) (grd : mat R -> mat R -> lscale R -> Z -> res (mat R)).
  Context (kxz kzz g : nat -> nat -> R) (H1 : K X Zp l = Ok (mk N M kxz)) (H2 : K Zp Zp l = Ok (mk M M kzz)) (H3 : grd X Zp l w = Ok (mk N M g)).
  Definition Kr (i j : nat) : R := kzz i j + 0.001 * delta i j.
  Definition Ag (i j : nat) : R := sumn N (fun n => kxz n i * kxz n j).
  Definition Sg (m : nat) : R := - sumn N (fun n => g n m).

  Lemma linalg_gen n f : (exists h, linalg_inv E (mk n n f) = Ok (mk n n h) /\ inverse_of n f h) \/ linalg_inv E (mk n n f) = Err LinAlgError /\ ~ exists h, inverse_of n f h.
  Proof.
    unfold linalg_inv. cbn [mk mr mc]. rewrite Nat.eqb_refl. specialize (HI (mk n n f) eq_refl). cbn [mk mr] in HI.
    assert (EX : forall i j, (i < n)%nat -> (j < n)%nat -> get (mk n n f) i j = f i j) by (intros; now rewrite get_mk).
    change {| mr := n; mc := n; md := _ |} with (mk n n f) in *. destruct (x_inv E (mk n n f)) as [h|].
    - left. exists h. split; [reflexivity|]. eapply inverse_of_ext; [|exact HI]. exact EX.
    - right. split; [reflexivity|]. intros (h & Hh). apply HI. exists h. eapply inverse_of_ext; [|exact Hh]. intros; symmetry; auto.
  Qed.

  Lemma prep_gen : (exists Ki, inverse_of M Kr Ki /\ prep E K grd X Zp l w = Ok (mk N M kxz, mk M M Ki, mk M M Ag, mk M 1 (fun m _ => Sg m))) \/
    prep E K grd X Zp l w = Err LinAlgError /\ ~ exists h, inverse_of M Kr h.
  Proof.
    assert (RI : reg_inv E (mk M M kzz) M = linalg_inv E (mk M M Kr)).
    { unfold reg_inv. rewrite eye_mk. unfold smul. rewrite mmap1_mk, bc2_mk. cbn [rbind]. rewrite (mk_ext M M _ Kr); [reflexivity|]. intros. unfold Kr. rewrite nmilli_R. reflexivity. }
    unfold prep. rewrite H1, H2. cbn [rbind]. fold M. rewrite RI. destruct (linalg_gen M Kr) as [(Ki & -> & HK)|( -> & HK)]; cbn [rbind]; [left|right; auto].
    exists Ki. split; [exact HK|]. rewrite mT_mk, mmul_mk_R. cbn [rbind]. rewrite H3. cbn [rbind]. f_equal. f_equal. unfold sum0, mopp. rewrite mmap1_mk. cbn [mk mc]. apply mk_ext. intros m j Hm _.
    match goal with |- nsum (col ?A m) = _ => change A with (mk N M (fun i j => nopp (g i j))) end. rewrite col_mk by exact Hm. rewrite nsum_seq. cbn. now rewrite sumn_opp.
  Qed.
  Lemma inner_gen Ki : (exists Hi, inner_inv E C M (mk M M Ki) (mk M M Ag) = Ok (mk M M Hi) /\ inverse_of M (fun i j => (C + 0.001) * delta i j + mm M Ki Ag i j) Hi) \/
    inner_inv E C M (mk M M Ki) (mk M M Ag) = Err LinAlgError /\ ~ exists h, inverse_of M (fun i j => (C + 0.001) * delta i j + mm M Ki Ag i j) h.
  Proof.
    unfold inner_inv. rewrite mmul_mk_R. cbn [rbind]. rewrite eye_mk. unfold smul. rewrite !mmap1_mk, bc2_mk. cbn [rbind]. rewrite bc2_mk. cbn [rbind].
    rewrite (mk_ext M M _ (fun i j => (C + 0.001) * delta i j + mm M Ki Ag i j)).
    2:{ intros. rewrite nmilli_R. unfold mm. cbn. ring. }
    apply linalg_gen.
  Qed.

  Definition on_samples : res (list R) := let! (K_xz, Ksinv, A, s) := prep E K grd X Zp l w in rmap flat (eval_at_samples E C M K_xz Ksinv A s).
  Definition as_function (Ks : mat R -> res (mat R)) : res (mat R -> res (list R)) :=
    let! (K_xz, Ksinv, A, s) := prep E K grd X Zp l w in Ok (fun x => rmap flat (eval_fun E Ks C M Ksinv A s x)).
  Definition normal_eq (a : nat -> R) : Prop := forall m, (m < M)%nat -> mv M (Nm Kr Ag (C + 0.001)) a m = - Sg m.

  (** either the first inverse, or the second one, or none fails *)
  Lemma outcome_gen :
    (exists a, normal_eq a /\ (forall b, normal_eq b -> forall m, (m < M)%nat -> b m = a m) /\
       on_samples = Ok (map (fun i => sumn M (fun m => a m * kxz i m)) (seq 0 N)) /\
       forall Ks, exists fn, as_function Ks = Ok fn /\ (forall x q, Ks x = Ok (mk (mr x) M q) -> fn x = Ok (map (fun i => sumn M (fun m => a m * q i m)) (seq 0 (mr x)))) /\
         forall x e, Ks x = Err e -> fn x = Err e) \/
    on_samples = Err LinAlgError /\ (~ (exists h, inverse_of M Kr h) \/ (forall Ki, inverse_of M Kr Ki -> ~ exists h, inverse_of M (fun i j => (C + 0.001) * delta i j + mm M Ki Ag i j) h)).
  Proof.
    unfold on_samples, as_function. destruct prep_gen as [(Ki & HK & ->)|( -> & HK)]; cbn [rbind]; [|right; split; [reflexivity|now left]].
    destruct (inner_gen Ki) as [(Hi & HH & HHi)|(HH & HHn)].
    - left. exists (fun m => - mv M Hi (mv M Ki Sg) m). assert (NE : normal_eq (fun m => - mv M Hi (mv M Ki Sg) m)) by (intros m Hm; now apply alpha_gen).
      split; [exact NE|]. split.
      { intros b Hb. apply (normal_unique M Kr Ag (C + 0.001) Ki Hi); auto. intros m Hm. now rewrite (Hb m Hm), (NE m Hm). }
      destruct (eval_mk E N M 1 kxz Hi Ki (fun m _ => Sg m) C _ HH) as (-> & _). cbn [rmap]. rewrite flat_mk. split; [reflexivity|].
      intro Ks. eexists. split; [reflexivity|]. split.
      + intros x q Hx. destruct (eval_mk E (mr x) M 1 q Hi Ki (fun m _ => Sg m) C _ HH) as (_ & Q). rewrite (Q Ks x Hx). cbn [rmap]. now rewrite flat_mk.
      + intros x e Hx. unfold eval_fun. now rewrite Hx.
    - right. unfold eval_at_samples. rewrite HH. cbn [rbind rmap]. split; [reflexivity|]. right. intros Ki' HK'.
      intros (h & Hh). apply HHn. exists h. eapply inverse_of_ext; [|exact Hh]. intros i j Hi Hj. cbn beta. f_equal. apply mm_ext; [|auto].
      intros q Hq. now apply (inverse_of_unique M Kr).
  Qed.
  Lemma outcome_pd : pd M Kr -> pd M (Nm Kr Ag (C + 0.001)) ->
    exists a, normal_eq a /\ on_samples = Ok (map (fun i => sumn M (fun m => a m * kxz i m)) (seq 0 N)) /\
       forall Ks, exists fn, as_function Ks = Ok fn /\ (forall x q, Ks x = Ok (mk (mr x) M q) -> fn x = Ok (map (fun i => sumn M (fun m => a m * q i m)) (seq 0 (mr x)))) /\
         forall x e, Ks x = Err e -> fn x = Err e.
  Proof.
    intros P1 P2. destruct outcome_gen as [(a & Ha & _ & H)|(_ & [HN|HN])].
    - exists a. tauto.
    - exfalso. apply HN. eexists. now apply pd_inverse.
    - exfalso. apply (HN _ (pd_inverse M Kr P1)). apply (inner_of_pd M Kr Ag); [now apply pd_inverse|exact P2].
  Qed.
End Gen.

(** the objective for an arbitrary kernel with derivative dk *)
Section Obj.
  Context (k : (nat -> R) -> (nat -> R) -> R) (dk : (nat -> R) -> (nat -> R) -> R) (pen : nat -> nat -> R) (N M : nat) (x z : nat -> nat -> R) (d : nat) (lam : R).
  Context (Hdk : forall n m, (n < N)%nat -> (m < M)%nat -> partial_at (fun p => k p (z m)) d (x n) (dk (x n) (z m))) (Hsym : forall i j, pen i j = pen j i).
  Definition Gk (i j : nat) : R := sumn N (fun n => k (x n) (z i) * k (x n) (z j)).
  Definition Sk (m : nat) : R := sumn N (fun n => dk (x n) (z m)).
  Definition Qk (i j : nat) : R := Gk i j + lam * pen i j.
  Definition Jk (b : nat -> R) : R := qf M Qk b / 2 + dot M b Sk.
  Lemma Qk_sym i j : Qk i j = Qk j i.
  Proof. unfold Qk, Gk. rewrite Hsym. f_equal. apply sumn_ext. intros. ring. Qed.
  Lemma kobjective_val b : kobjective k pen N M x z d lam b (Jk b).
  Proof.
    exists (fun n => sumn M (fun m => b m * dk (x n) (z m))). split.
    - intros n Hn. unfold partial_at, kexpansion. apply dlim_sumn. intros m Hm. apply dlim_scal. now apply Hdk.
    - unfold Jk. rewrite sumn_plus.
      assert (Q1 : sumn N (fun n => kexpansion k M z b (x n) ^ 2 / 2) = qf M Gk b / 2).
      { rewrite sumn_div. f_equal. unfold qf, Gk, kexpansion.
        rewrite (sumn_ext N _ (fun n => sumn M (fun i => sumn M (fun j => b i * b j * (k (x n) (z i) * k (x n) (z j)))))).
        2:{ intros n _. cbn [pow]. rewrite Rmult_1_r, sumn_sq. apply sumn_ext. intros. apply sumn_ext. intros. ring. }
        rewrite sumn_swap. apply sumn_ext. intros i _. rewrite sumn_swap. apply sumn_ext. intros j _. now rewrite sumn_scal. }
      assert (Q2 : sumn N (fun n => sumn M (fun m => b m * dk (x n) (z m))) = dot M b Sk).
      { rewrite sumn_swap. unfold dot, Sk. apply sumn_ext. intros. now rewrite sumn_scal. }
      rewrite Q1, Q2. unfold Qk. rewrite qf_plus, qf_scal. unfold qf. lra.
  Qed.
  Definition keq (a : nat -> R) : Prop := forall m, (m < M)%nat -> mv M Qk a m = - Sk m.
  Lemma Jk_move a b : keq a -> Jk b - Jk a = qf M Qk (fun i => b i - a i) / 2.
  Proof.
    intro Ha. rewrite (qf_minus M Qk b a Qk_sym). unfold Jk.
    assert (S1 : forall u, dot M u Sk = - dot M u (mv M Qk a)).
    { intro u. unfold dot. rewrite <- sumn_opp. apply sumn_ext. intros m Hm. rewrite (Ha m Hm). ring. }
    rewrite !S1, <- (qf_dot M Qk a). lra.
  Qed.
  Lemma keq_stationary a : keq a -> kstationary k pen N M x z d lam a.
  Proof.
    intros Ha b. exists (fun t => Jk (fun m => a m + t * b m)). split; [intro; apply kobjective_val|].
    apply (dlim_ext (fun t => Jk a + qf M Qk b / 2 * (t * t))).
    - intro t. pose proof (Jk_move a (fun m => a m + t * b m) Ha) as H. rewrite (qf_ext M Qk _ (fun i => t * b i)) in H by (intros; ring).
      assert (Q : qf M Qk (fun i => t * b i) = t * t * qf M Qk b). { unfold qf. rewrite <- sumn_scal. apply sumn_ext. intros i _. rewrite <- sumn_scal. apply sumn_ext. intros. ring. }
      rewrite Q in H. lra.
    - apply (dlim_val _ _ (0 + qf M Qk b / 2 * (1 * 0 + 0 * 1))); [ring|].
      apply (derivable_pt_lim_plus (fct_cte (Jk a)) (fun t => qf M Qk b / 2 * (t * t))); [apply derivable_pt_lim_const|].
      apply dlim_scal. apply (derivable_pt_lim_mult id id); apply derivable_pt_lim_id.
  Qed.
  Lemma stationary_keq a : kstationary k pen N M x z d lam a -> keq a.
  Proof.
    intros Ha m Hm. set (b := fun j => if (j =? m)%nat then 1 else 0). destruct (Ha b) as (J & HJ & HD).
    assert (JE : forall t, J t = Jk (fun j => a j + t * b j)).
    { intro t. destruct (HJ t) as (ds & D1 & ->). destruct (kobjective_val (fun j => a j + t * b j)) as (ds' & D2 & ->). f_equal. apply sumn_ext. intros n Hn. f_equal. eapply partial_unique; eauto. }
    set (e := mv M Qk a m + Sk m).
    assert (JV : forall t, Jk (fun j => a j + t * b j) = Jk a + e * t + qf M Qk b / 2 * (t * t)).
    { intro t. pose proof (qf_minus M Qk (fun j => a j + t * b j) (fun j => t * b j) Qk_sym) as Q. cbn beta in Q. rewrite (qf_ext M Qk (fun i => a i + t * b i - t * b i) a) in Q by (intros; ring).
      assert (Qt : qf M Qk (fun i => t * b i) = t * t * qf M Qk b). { unfold qf. rewrite <- sumn_scal. apply sumn_ext. intros i _. rewrite <- sumn_scal. apply sumn_ext. intros. ring. }
      assert (Db : forall v, dot M b v = v m). { intro v. unfold dot, b. rewrite (sumn_ext M _ (fun i => if (i =? m)%nat then v i else 0)) by (intros i _; destruct (i =? m)%nat; ring). now apply sumn_delta. }
      assert (Dm : dot M (fun j => a j + t * b j) (mv M Qk (fun j => t * b j)) = t * mv M Qk a m + t * t * qf M Qk b).
      { assert (V : forall i, (i < M)%nat -> mv M Qk (fun j => t * b j) i = t * Qk i m).
        { intros i _. unfold mv, b. rewrite (sumn_ext M _ (fun j => if (j =? m)%nat then t * Qk i j else 0)) by (intros j _; destruct (j =? m)%nat; ring). now apply (sumn_delta M m (fun j => t * Qk i j)). }
        unfold dot. rewrite (sumn_ext M _ (fun i => t * (Qk m i * a i) + t * (t * (b i * mv M Qk b i)))).
        - rewrite sumn_plus, !sumn_scal. rewrite qf_dot. unfold dot, mv. ring.
        - intros i Hi. rewrite V by auto. assert (mv M Qk b i = Qk i m) as ->.
          { unfold mv, b. rewrite (sumn_ext M _ (fun j => if (j =? m)%nat then Qk i j else 0)) by (intros j _; destruct (j =? m)%nat; ring). now apply (sumn_delta M m (fun j => Qk i j)). }
          rewrite (Qk_sym m i). ring. }
      rewrite Dm, Qt in Q. unfold Jk. assert (dot M (fun j => a j + t * b j) Sk = dot M a Sk + t * Sk m) as ->.
      { unfold dot at 1. rewrite (sumn_ext M _ (fun i => a i * Sk i + t * (b i * Sk i))) by (intros; ring). rewrite sumn_plus, sumn_scal. fold (dot M a Sk) (dot M b Sk). now rewrite Db. }
      unfold e. lra. }
    assert (HD' : derivable_pt_lim J 0 e).
    { apply (dlim_ext (fun t => (Jk a + e * t) + qf M Qk b / 2 * (t * t))); [intro; now rewrite JE, JV|].
      apply (dlim_val _ _ ((0 + e * 1) + qf M Qk b / 2 * (1 * 0 + 0 * 1))); [ring|].
      apply (derivable_pt_lim_plus (fun t => Jk a + e * t) (fun t => qf M Qk b / 2 * (t * t))).
      - apply (derivable_pt_lim_plus (fct_cte (Jk a)) (fun t => e * t)); [apply derivable_pt_lim_const|]. apply dlim_scal. apply derivable_pt_lim_id.
      - apply dlim_scal. apply (derivable_pt_lim_mult id id); apply derivable_pt_lim_id. }
    pose proof (uniqueness_limite J 0 _ _ HD HD'). unfold e in *. lra.
  Qed.
  Lemma keq_minimises a : pd M Qk -> keq a -> kminimises k pen N M x z d lam a.
  Proof.
    intros HP Ha. exists (Jk a). split; [apply kobjective_val|]. intro b. exists (Jk b). split; [apply kobjective_val|]. pose proof (Jk_move a b Ha) as Q.
    destruct (classic_nz M (fun i => b i - a i)) as [HZ|HZ].
    - rewrite (qf_ext M Qk _ (fun _ => 0)) in Q by auto. assert (qf M Qk (fun _ => 0) = 0) by (unfold qf; apply sumn_0; intros; apply sumn_0; intros; ring). split; [lra|]. intros (m & Hm & Hne). specialize (HZ m Hm). lra.
    - specialize (HP _ HZ). split; intros; lra.
  Qed.
  (** a direction that no sample sees and that the penalty rewards *)
  Lemma unbounded_dir v : (forall n, (n < N)%nat -> sumn M (fun m => v m * k (x n) (z m)) = 0) -> lam * qf M pen v < 0 -> kunbounded k pen N M x z d lam.
  Proof.
    intros Hv Hneg B. set (q := - (lam * qf M pen v / 2)). set (e := dot M v Sk). assert (Hq : 0 < q) by (unfold q; lra).
    assert (JV : forall t, Jk (fun m => t * v m) = t * e - q * (t * t)).
    { intro t. unfold Jk, Qk. rewrite qf_plus, qf_scal. assert (qf M Gk (fun m => t * v m) = 0) as ->.
      { assert (G : forall u, qf M Gk u = sumn N (fun n => sumn M (fun m => u m * k (x n) (z m)) * sumn M (fun m => u m * k (x n) (z m)))).
        { intro u. unfold qf, Gk. rewrite (sumn_ext N _ (fun n => sumn M (fun i => sumn M (fun j => u i * u j * (k (x n) (z i) * k (x n) (z j)))))).
          2:{ intros n _. rewrite sumn_sq. apply sumn_ext. intros. apply sumn_ext. intros. ring. }
          symmetry. rewrite sumn_swap. apply sumn_ext. intros i _. rewrite sumn_swap. apply sumn_ext. intros j _. now rewrite sumn_scal. }
        rewrite G. apply sumn_0. intros n Hn. rewrite (sumn_ext M _ (fun m => t * (v m * k (x n) (z m)))) by (intros; ring). rewrite sumn_scal, Hv by auto. ring. }
      assert (qf M pen (fun m => t * v m) = t * t * qf M pen v) as ->. { unfold qf. rewrite <- sumn_scal. apply sumn_ext. intros i _. rewrite <- sumn_scal. apply sumn_ext. intros. ring. }
      assert (dot M (fun m => t * v m) Sk = t * e) as ->. { unfold e, dot. rewrite <- sumn_scal. apply sumn_ext. intros. ring. } unfold q. lra. }
    set (t := (Rabs e + 1 + Rabs B) / q + 1). exists (fun m => t * v m), (Jk (fun m => t * v m)). split; [apply kobjective_val|]. rewrite JV.
    assert (Ht : q * t = Rabs e + 1 + Rabs B + q) by (unfold t; field; lra). pose proof (Rabs_pos e). pose proof (Rabs_pos B).
    assert (1 <= t). { unfold t. assert (0 < (Rabs e + 1 + Rabs B) / q) by (apply Rdiv_lt_0_compat; lra). lra. }
    pose proof (Rle_abs e). assert (- Rabs B <= B) by (pose proof (Rle_abs (- B)) as HB; rewrite Rabs_Ropp in HB; lra).
    replace (t * e - q * (t * t)) with (t * (e - q * t)) by ring. rewrite Ht. nra.
  Qed.
End Obj.
