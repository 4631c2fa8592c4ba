(** Lemmas for C77: over the reals, in the plane, the programs of Model/CellFate.v are those of Model/DPFC.v up to an index. *)
From Coq Require Import String List ZArith Reals Lia Lra Bool.
From Verif Require Import Base.Num Base.Py Base.Arr Lib.ArrLemmas Model.Ext Model.Score Model.DPFC Model.CellFate Lib.ScoreLemmas Lib.FlowLemmas Lib.StepLemmas Lib.RunLemmas.
From Verif Require Import Spec.RealSpec Spec.Contracts Spec.KernelSpec Spec.FlowSpec Lib.RSum Lib.RMat Lib.Gauss Lib.KernelForms Lib.Estimator Lib.EstForms Props.Kernels Props.Estimators Props.TorchEst.
Import ListNotations.
Local Open Scope string_scope.
Local Open Scope nat_scope.

(** ** congruences *)
Lemma bind_ext_ok {S A B} (m : M S A) (f g : A -> M S B) s : (forall a s', m s = (Ok a, s') -> f a s' = g a s') -> bind m f s = bind m g s.
Proof. intro H. unfold bind. destruct (m s) as [[a|e] s'] eqn:Q; [now apply H|reflexivity]. Qed.
Lemma bind_eq {S A B} (m m' : M S A) (f g : A -> M S B) s : m s = m' s -> (forall a s', f a s' = g a s') -> bind m f s = bind m' g s.
Proof. intros H1 H2. unfold bind. rewrite H1. destruct (m' s) as [[a|e] s']; auto. Qed.
Lemma mfold_ext_inv {S A B} (f g : B -> A -> M S B) (P : B -> Prop) l b s : P b ->
  (forall a b s, In a l -> P b -> f b a s = g b a s /\ forall b' s', f b a s = (Ok b', s') -> P b') -> mfold f l b s = mfold g l b s.
Proof.
  revert b s. induction l as [|a l IH]; intros b s HP H; [reflexivity|]. cbn [mfold].
  destruct (H a b s (or_introl eq_refl) HP) as (Q & HQ). unfold bind. rewrite <- Q. destruct (f b a s) as [[b'|e] s'] eqn:R; [|reflexivity].
  apply IH; [eauto|]. intros a' b0 s0 Hin. apply H. now right.
Qed.
Lemma rfold_ext_in {A B} (f g : B -> A -> res B) l b : (forall a b, In a l -> f b a = g b a) -> rfold f l b = rfold g l b.
Proof.
  revert b. induction l as [|a l IH]; intros b H; [reflexivity|]. cbn [rfold]. rewrite (H a b (or_introl eq_refl)). destruct (g b a); cbn [rbind]; [|reflexivity].
  apply IH. intros a' b' Hin. apply H. now right.
Qed.

Section Same.
  Context {S : Type} (E : Ext R S).
  Local Notation mat := (mat R). Local Notation arr3 := (arr3 R).

  Lemma two_std_length (x : mat) : List.length (two_std x) = mr x.
  Proof. unfold two_std, std1. now rewrite !map_length, seq_length. Qed.

  Lemma est_same (X Zp : mat) ls d : mc X = 2 -> mc Zp = 2 -> List.length ls = 2 ->
    score_function_multid_seperate2 E X Zp nmilli "RBF" (LVec ls) d = score_function_multid_seperate E X Zp nmilli "RBF" (LVec ls) d.
  Proof. intros H1 H2 H3. apply (C45_old E 2 X Zp (LVec ls)). repeat split; auto. Qed.
  Lemma est_fun_same (X Zp x : mat) ls d : mc X = 2 -> mc Zp = 2 -> List.length ls = 2 -> mc x = 2 ->
    rbind (score_function_multid_seperate2_fun E X Zp nmilli "RBF" (LVec ls) d) (fun f => f x) =
    rbind (score_function_multid_seperate_fun E X Zp nmilli "RBF" (LVec ls) d) (fun f => f x).
  Proof.
    intros H1 H2 H3 H4. unfold score_function_multid_seperate2_fun, score_function_multid_seperate_fun.
    assert (HA : kernel_args 2 X Zp (LVec ls)) by (repeat split; auto).
    rewrite (prep_old E 2 X Zp (LVec ls) HA d). destruct (prep E (K_of "RBF") (grdx_of "RBF") X Zp (LVec ls) d) as [[[[K_xz Ki] A] s]|e]; [|reflexivity].
    cbn [rbind]. f_equal. unfold eval_fun. rewrite (Ksz_two_R 2 x Zp ls) by auto.
    assert (Q : Ksz_of "RBF" Zp (LVec ls) x = Ok (Kmat 2 (LVec ls) x Zp)) by (apply (Ksz_R 2 x Zp (LVec ls)); auto). rewrite Q. reflexivity.
  Qed.

  Lemma fill_rows_ext dim n v w : (forall d, d < dim -> v d = w d) -> fill_rows (T := R) dim n v = fill_rows dim n w.
  Proof. intro H. unfold fill_rows. apply rfold_ext_in. intros a b Hin. apply in_seq in Hin. now rewrite H by lia. Qed.

  Section P.
    Context (p : params R) (Hy : List.length (p_y1 p) = 2) (Hk : p_kern p = "RBF") (Hr : p_reweight p = false).

    Lemma nf_same (x : mat) t s : mr x = 2 -> nf_seperate E p x t s = f_seperate E "RBF" (p_M p) (p_g p) (call2 (p_f p)) true x t s.
    Proof.
      intro Hx. unfold nf_seperate, f_seperate. rewrite Hk. apply bind_ext_ok. intros bnds s1 H1. apply lift_ok in H1. destruct H1 as (H1 & ->).
      apply own_bnds_ok in H1. destruct H1 as (L1 & _). apply bind_ext_ok. intros _ s2 _. apply bind_ext_ok. intros Sxx s3 H3.
      apply sample_box_ok in H3. destruct H3 as (rows & _ & _ & _ & HX).
      rewrite (fill_rows_ext (mr x) (mc x) _ (fun ii => score_function_multid_seperate E (mT x) (mT Sxx) nmilli "RBF" (LVec (two_std x)) (Z.of_nat ii + 1))); [reflexivity|].
      intros d Hd. apply est_same; [exact Hx| |now rewrite two_std_length]. rewrite HX. cbn. lia.
    Qed.
    Lemma det_step_same (x : mat) t s : mr x = 2 -> det_step (nf_seperate E p) x t s = det_step (f_seperate E "RBF" (p_M p) (p_g p) (call2 (p_f p)) true) x t s.
    Proof. intro Hx. unfold det_step, bind. now rewrite nf_same. Qed.

    Lemma setrow3_sh (A A' : arr3) n k d t v : sh A 2 n k -> setrow3 A (Z.of_nat d) t v = Ok A' -> sh A' 2 n k.
    Proof. intros (W & D & N & K) H. apply setrow3_ok in H; auto. destruct H as (j & _ & _ & _ & W' & ->). split; [auto|]. auto. Qed.
    Lemma setsl_sh (A A' : arr3) n k i y : sh A 2 n k -> setsl A (Z.of_nat i) y = Ok A' -> sh A' 2 n k.
    Proof. intros (W & D & N & K) H. apply setsl_nat_ok in H; auto. destruct H as (_ & W' & D' & N' & K' & _). split; [auto|]. repeat split; congruence. Qed.
    Lemma otto0_sh n k (Zf Z1 : arr3) : sh Zf 2 n k ->
      rfold (fun A di => let! v := pyget (p_y1 p) (Z.of_nat di) in let! A1 := setrow3 A (Z.of_nat di) 0 v in
            let! v2 := pyget (p_y2 p) (Z.of_nat di) in setrow3 A1 (Z.of_nat di) (-1) v2) (seq 0 2) Zf = Ok Z1 -> sh Z1 2 n k.
    Proof.
      intros HZ H. apply (rfold_seq_inv _ (fun _ A => sh A 2 n k)) in H; auto.
      intros i b b' Hi Hb' Hs. apply rbind_ok in Hs. destruct Hs as (v & _ & Hs). apply rbind_ok in Hs. destruct Hs as (A1 & HA1 & Hs).
      apply rbind_ok in Hs. destruct Hs as (v2 & _ & Hs). eapply setrow3_sh; [|exact Hs]. eapply setrow3_sh; [exact Hb'|exact HA1].
    Qed.

    Lemma getsl_rows (A : arr3) n k i x : sh A 2 n k -> getsl A i = Ok x -> mr x = 2 /\ mc x = n.
    Proof. intros HA H. apply getsl_ok in H. destruct H as (j & _ & -> & Hj). destruct HA as (W & D & N & K). destruct (sh_slice A 2 n k j) as (_ & R & C); [split; auto|lia|auto]. Qed.

    Lemma notto_same (Hb : p_brown p = true) k (Zf : arr3) i t s : sh Zf 2 (p_N p) k ->
      notto_body E p Zf (i, t) s = otto_body E p "RBF" Zf (i, t) s /\
      forall Z1 s1, notto_body E p Zf (i, t) s = (Ok Z1, s1) -> sh Z1 2 (p_N p) k.
    Proof.
      intro HZ. unfold notto_body, otto_body. rewrite Hr, Hy. cbn [andb]. split.
      - unfold bind at 1 4. rewrite Hb. destruct (Nat.eqb_spec i 0); [reflexivity|].
        match goal with |- (let (_, _) := ?a in _) = (let (_, _) := ?b in _) => assert (Q : a = b); [|now rewrite Q] end.
        apply bind_ext_ok. intros x s1 H1. apply lift_ok in H1. destruct H1 as (H1 & ->). apply (getsl_rows _ _ _ _ _ HZ) in H1. destruct H1 as (R & C).
        destruct (i =? 1); [reflexivity|]. unfold bind. now rewrite det_step_same.
      - intros Z1 s1 H. apply bind_ok in H. destruct H as (Z2 & s2 & H & HH). apply ret_ok in HH. destruct HH as (-> & ->).
        destruct (Nat.eqb_spec i 0).
        + apply lift_ok in H. destruct H as (H & _). exact (otto0_sh _ _ _ _ HZ H).
        + apply bind_ok in H. destruct H as (x & s3 & _ & H). apply bind_ok in H. destruct H as (y & s4 & _ & H). apply lift_ok in H. destruct H as (H & _).
          eapply setsl_sh; eauto.
    Qed.
    Lemma nforward_same (Hb : p_brown p = true) grid s :
      nforward E p grid (zeros3 2 (p_N p) (List.length grid)) s = forward_sampling_Otto E p "RBF" grid (zeros3 2 (p_N p) (List.length grid)) s.
    Proof.
      unfold nforward, forward_sampling_Otto. apply (mfold_ext_inv _ _ (fun Z => sh Z 2 (p_N p) (List.length grid))); [apply sh_zeros|].
      intros [i t] Z0 s0 _ HZ. now apply notto_same.
    Qed.

    (** the forward flow as the backward pass of this class sees it: one index late *)
    Definition delay (A : arr3) : arr3 := Arr3 (a_d A) (a_n A) (a_k A) (map (fun t => slice A (t - 1)) (seq 0 (a_k A))).
    Lemma delay_slice (A : arr3) t : t < a_k A -> slice (delay A) t = slice A (t - 1).
    Proof. intro H. unfold slice at 1. cbn [delay a_s a_d a_n]. rewrite (nth_indep _ _ (slice A (0 - 1))) by (rewrite map_length, seq_length; auto).
      rewrite (map_nth (fun t => slice A (t - 1)) (seq 0 (a_k A)) 0). now rewrite seq_nth by auto. Qed.
    Lemma delay_sh (A : arr3) d n k : sh A d n k -> sh (delay A) d n k.
    Proof.
      intros (W & <- & <- & <-). split; [|auto]. destruct W as (L & F). split; cbn [delay a_s a_k].
      - now rewrite map_length, seq_length.
      - intros t Ht. rewrite delay_slice by auto. cbn [a_d a_n]. apply F. lia.
    Qed.
    Lemma getsl_delay (A : arr3) d n k j : sh A d n k -> (1 <= j < k) -> getsl A (Z.of_nat j - 1) = getsl (delay A) (Z.of_nat j).
    Proof.
      intros HA Hj. pose proof (delay_sh _ _ _ _ HA) as (_ & _ & _ & KD). destruct HA as (_ & _ & _ & K). replace (Z.of_nat j - 1)%Z with (Z.of_nat (j - 1)) by lia.
      rewrite !getsl_nat by lia. now rewrite delay_slice by lia.
    Qed.

    Lemma ndens_same k (Zf B : arr3) j s : sh Zf 2 (p_N p) k -> sh B 2 (p_N p) k -> 1 <= j < k ->
      ndensity E p Zf B (Z.of_nat j) s = density_estimation E p "RBF" (delay Zf) B (Z.of_nat j) s.
    Proof.
      intros HZ HB Hj. unfold ndensity, density_estimation. rewrite (getsl_delay Zf 2 (p_N p) k j HZ Hj), Hk, Hy. cbv zeta.
      apply bind_ext_ok. intros z s1 H1. apply lift_ok in H1. destruct H1 as (H1 & ->). apply (getsl_rows _ _ _ _ _ (delay_sh _ _ _ _ HZ)) in H1. destruct H1 as (Rz & Cz).
      apply bind_ext_ok. intros b s1 H1. apply lift_ok in H1. destruct H1 as (H1 & ->). apply (getsl_rows _ _ _ _ _ HB) in H1. destruct H1 as (Rb & Cb).
      apply bind_ext_ok. intros bnds s1 H1. apply lift_ok in H1. destruct H1 as (H1 & ->). apply inter_bnds_ok in H1. destruct H1 as (L1 & _).
      apply bind_ext_ok. intros _ s2 _. apply bind_ext_ok. intros Sxx s3 H3. apply sample_box_ok in H3. destruct H3 as (rows & _ & _ & _ & HX).
      rewrite (fill_rows_ext 2 (p_N p) _ (fun di => let! fn := score_function_multid_seperate_fun E (mT z) (mT Sxx) nmilli "RBF" (LVec (two_std z)) (Z.of_nat di + 1) in fn (mT b))); [reflexivity|].
      intros d Hd. apply est_fun_same; [exact Rz| |now rewrite two_std_length|exact Rb]. rewrite HX. cbn. lia.
    Qed.
    Lemma nbwdens_same k (Zf B : arr3) j s : sh Zf 2 (p_N p) k -> sh B 2 (p_N p) k -> 1 <= j < k ->
      nbw_density E p Zf B (Z.of_nat j) s = bw_density_estimation E p "RBF" (delay Zf) B (Z.of_nat j) s.
    Proof.
      intros HZ HB Hj. unfold nbw_density, bw_density_estimation. rewrite (getsl_delay Zf 2 (p_N p) k j HZ Hj), Hk, Hy. cbv zeta.
      apply bind_ext_ok. intros b s1 H1. apply lift_ok in H1. destruct H1 as (H1 & ->). apply (getsl_rows _ _ _ _ _ HB) in H1. destruct H1 as (Rb & Cb).
      apply bind_ext_ok. intros z s1 H1. apply lift_ok in H1. destruct H1 as (H1 & ->).
      apply bind_ext_ok. intros bnds s1 H2. apply lift_ok in H2. destruct H2 as (H2 & ->). apply inter_bnds_ok in H2. destruct H2 as (L1 & _).
      apply bind_ext_ok. intros Sxx s3 H3. apply sample_box_ok in H3. destruct H3 as (rows & _ & _ & _ & HX).
      rewrite (fill_rows_ext 2 (p_N p) _ (fun di => score_function_multid_seperate E (mT b) (mT Sxx) nmilli "RBF" (LVec (two_std b)) (Z.of_nat di + 1))); [reflexivity|].
      intros d Hd. apply est_same; [exact Rb| |now rewrite two_std_length]. rewrite HX. cbn. lia.
    Qed.

    Lemma nbw_same (Hd : p_det p = true) grid (Zf B : arr3) i t s : i + 1 < List.length grid -> sh Zf 2 (p_N p) (List.length grid) -> sh B 2 (p_N p) (List.length grid) ->
      nbw_body E p grid Zf B (i, t) s = bw_body E p "RBF" grid (delay Zf) B (i, t) s /\
      forall B1 s1, nbw_body E p grid Zf B (i, t) s = (Ok B1, s1) -> sh B1 2 (p_N p) (List.length grid).
    Proof.
      intros Hi HZ HB. unfold nbw_body, bw_body. rewrite Hd, Hy. set (k := List.length grid) in *. cbv zeta. cbn [negb]. rewrite orb_false_r, andb_true_r.
      destruct (Nat.eqb_spec i 0).
      - split; [reflexivity|]. intros B1 s1 H. apply lift_ok in H. destruct H as (H & _). unfold pin in H.
        apply (rfold_seq_inv _ (fun _ A => sh A 2 (p_N p) k)) in H; auto. intros a b b' _ Hb' Hs. apply rbind_ok in Hs. destruct Hs as (v & _ & Hs). eapply setrow3_sh; eauto.
      - replace (Z.of_nat k - Z.of_nat i - 1 + 1)%Z with (Z.of_nat (k - i)) by lia. replace (Z.of_nat k - Z.of_nat i)%Z with (Z.of_nat (k - i)) by lia.
        replace (Z.of_nat (k - i) - 1)%Z with (Z.of_nat (k - i - 1)) by lia. split.
        + apply bind_eq; [apply (ndens_same k); auto; lia|]. intros gro s1. apply bind_eq; [|reflexivity]. destruct (i =? 1); [reflexivity|].
          apply bind_eq; [apply (nbwdens_same k); auto; lia|]. reflexivity.
        + intros B1 s1 H. apply bind_ok in H. destruct H as (gro & s2 & _ & H). apply bind_ok in H. destruct H as (y & s4 & _ & H). apply lift_ok in H. destruct H as (H & _).
          eapply setsl_sh; eauto.
    Qed.
    Lemma nbackward_same (Hd : p_det p = true) grid (Zf : arr3) s : sh Zf 2 (p_N p) (List.length grid) ->
      nbackward E p grid Zf (zeros3 2 (p_N p) (List.length grid)) s = backward_simulation E p "RBF" grid (delay Zf) (zeros3 2 (p_N p) (List.length grid)) s.
    Proof.
      intro HZ. unfold nbackward, backward_simulation.
      apply bind_eq; [|reflexivity]. apply (mfold_ext_inv _ _ (fun Z => sh Z 2 (p_N p) (List.length grid))); [apply sh_zeros|].
      intros [i t] B0 s0 Hin HB. apply nbw_same; auto. unfold enumerate in Hin. apply in_combine_l in Hin. apply in_seq in Hin. rewrite init_length in Hin. lia.
    Qed.
  End P.
End Same.
