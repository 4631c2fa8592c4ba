(** Steps, runs and queries on renumbered ensembles (no modelling content). *)
From Coq Require Import String List ZArith Reals Lra Lia Bool Permutation.
From Verif Require Import Base.Num Base.Py Base.Arr Lib.ArrLemmas Model.Ext Model.Cdist Model.Reweight Model.Score Model.DPFC.
From Verif Require Import Spec.FlowSpec Spec.RealSpec Spec.Contracts Spec.AffineSpec Spec.LabelSpec Lib.FlowLemmas Lib.StepLemmas Lib.RSum Lib.RBase Lib.Sim Lib.AffineLemmas Lib.LabelLemmas.
Import ListNotations.
Local Open Scope string_scope.
Local Open Scope R_scope.

Lemma nth_map0 (f : R -> R) l i : (i < List.length l)%nat -> nth i (map f l) 0 = f (nth i l 0).
Proof. intro H. rewrite (nth_indep _ 0 (f 0)) by now rewrite map_length. apply map_nth. Qed.

Section Run.
  Context {S : Type} (E E' : Ext R S) (N : nat) (s : nat -> nat) (Hs : renumbering N s) (HE : env_renumbered N s E E').
  Notation cols := (columns_renumbered N s).
  Context (dim k : nat).

  (** *** ensembles and flows *)
  Definition ens (x x' : mat R) : Prop := cols x x' /\ wf x /\ wf x' /\ mr x = dim /\ mc x = N.
  Lemma old_N i : old N s N i = s i. Proof. unfold old. now rewrite Nat.eqb_refl. Qed.
  Lemma ens_get x x' d i : ens x x' -> (d < dim)%nat -> (i < N)%nat -> get x' d i = get x d (s i).
  Proof. intros ((H1 & H2 & H3) & _ & _ & R1 & C1) Hd Hi. rewrite H3 by lia. now rewrite C1, old_N. Qed.
  Definition FR (A A' : arr3 R) : Prop :=
    wf3 A /\ wf3 A' /\ a_d A = dim /\ a_n A = N /\ a_k A = k /\ a_d A' = dim /\ a_n A' = N /\ a_k A' = k /\
    forall d i t, (d < dim)%nat -> (i < N)%nat -> (t < k)%nat -> get3 A' d i t = get3 A d (s i) t.
  Lemma FR_zeros : FR (zeros3 dim N k) (zeros3 dim N k).
  Proof.
    split; [apply wf3_zeros|]. split; [apply wf3_zeros|]. cbn. do 6 (split; [reflexivity|]). intros d i t Hd Hi Ht. unfold get3. rewrite slice_zeros.
    unfold mzeros, mconst. rewrite !get_mk by (auto; now apply Hs). reflexivity.
  Qed.
  Lemma FR_getsl A A' t : FR A A' -> same_outcome ens (getsl A t) (getsl A' t).
  Proof.
    intros (W1 & W2 & H1 & H2 & H3 & H4 & H5 & H6 & H7). unfold getsl. rewrite H3, H6. destruct (pyidx k t) as [j|] eqn:J; [|reflexivity]. apply pyidx_some in J. destruct J as (J & _).
    cbn [same_outcome]. destruct W1 as (_ & W1), W2 as (_ & W2). destruct (W1 j ltac:(lia)) as (Q1 & Q2 & Q3). destruct (W2 j ltac:(lia)) as (Q1' & Q2' & Q3').
    split; [|split; [auto|split; [auto|split; congruence]]]. split; [congruence|]. split; [congruence|]. intros d n Hd Hn.
    replace (mc (slice A j)) with N by congruence. rewrite old_N. apply H7; congruence.
  Qed.
  Lemma FR_set A A' j m m' : FR A A' -> (j < k)%nat -> ens m m' -> FR (setslice A j m) (setslice A' j m').
  Proof.
    intros (W1 & W2 & H1 & H2 & H3 & H4 & H5 & H6 & H7) Hj Hm. pose proof Hm as ((M1 & M2 & _) & M3 & M4 & M5 & M6).
    split; [apply wf3_set; auto; congruence|]. split; [apply wf3_set; auto; congruence|]. cbn [setslice a_d a_n a_k]. do 6 (split; [assumption|]).
    intros d i t Hd Hi Ht. unfold get3. fold (setslice A j m) (setslice A' j m'). destruct (Nat.eq_dec t j) as [->|Hne].
    - rewrite !slice_set_same by (auto; lia). now apply ens_get.
    - rewrite !slice_set_other by auto. now apply H7.
  Qed.
  Lemma FR_setsl A A' t y y' : FR A A' -> cols y y' -> same_outcome FR (setsl A t y) (setsl A' t y').
  Proof.
    intros HA Hy. pose proof HA as (W1 & W2 & H1 & H2 & H3 & H4 & H5 & H6 & H7). unfold setsl. rewrite H1, H2, H3, H4, H5, H6. destruct (pyidx k t) as [j|] eqn:J; [|reflexivity].
    apply pyidx_some in J. destruct J as (J & _). eapply so_bind; [apply (cols_assign N s Hs dim N y y' Hy)|]. intros m m' (C1 & C2 & C3 & C4 & C5). cbn [same_outcome].
    replace (Arr3 dim N k (upd (a_s A) j m)) with (setslice A j m) by (unfold setslice; congruence).
    replace (Arr3 dim N k (upd (a_s A') j m')) with (setslice A' j m') by (unfold setslice; congruence).
    apply FR_set; auto. repeat split; auto; apply C1.
  Qed.
  Lemma FR_setrow3 A A' d t y : FR A A' -> same_outcome FR (setrow3 A (Z.of_nat d) t y) (setrow3 A' (Z.of_nat d) t y).
  Proof.
    intros HA. pose proof HA as (W1 & W2 & H1 & H2 & H3 & H4 & H5 & H6 & H7). unfold setrow3. rewrite H1, H2, H3, H4, H5, H6. destruct (pyidx dim (Z.of_nat d)) as [d'|]; [|reflexivity].
    destruct (pyidx k t) as [j|] eqn:J; [|reflexivity]. apply pyidx_some in J. destruct J as (J & _). cbn [same_outcome].
    set (m := mk dim N (fun a b => if (a =? d')%nat then y else get (slice A j) a b)). set (m' := mk dim N (fun a b => if (a =? d')%nat then y else get (slice A' j) a b)).
    replace (Arr3 dim N k (upd (a_s A) j m)) with (setslice A j m) by (unfold setslice; congruence).
    replace (Arr3 dim N k (upd (a_s A') j m')) with (setslice A' j m') by (unfold setslice; congruence).
    apply FR_set; auto. split; [|split; [apply wf_mk|split; [apply wf_mk|split; reflexivity]]]. apply (cols_mk N s Hs). intros a b Ha Hb. destruct (a =? d')%nat; [reflexivity|].
    rewrite old_N. now apply H7.
  Qed.
  Lemma FR_pin A A' n y t : FR A A' -> same_outcome FR (pin n y t A) (pin n y t A').
  Proof.
    intro HA. unfold pin. apply (so_rfold_seq (fun _ => FR)); [exact HA|]. intros i B B' Hi HB. eapply so_bind; [apply so_eq; reflexivity|]. intros v _ <-. now apply FR_setrow3.
  Qed.

  (** *** steps *)
  Definition alike (fd : mat R -> R -> res (mat R)) : Prop := forall t, treats_alike N s dim (fun x => fd x t).
  Context (g : mat R) (Hg : cols g g).
  Lemma fd_rel fd x x' t : alike fd -> ens x x' -> same_outcome cols (fd x t) (fd x' t).
  Proof. intros Hf (Hx & Wx & Wx' & Rx & Cx). apply (Hf t); auto using wf_rect. Qed.
  Lemma f_seperate_label kern m fd guard x x' t : kern <> "periodic" -> alike fd -> ens x x' ->
    sim cols (f_seperate E kern m g fd guard x t) (f_seperate E' kern m g fd guard x' t).
  Proof.
    intros Hk Hf Hx. pose proof Hx as (Cx & _). pose proof Cx as (X1 & X2 & _). unfold f_seperate. rewrite (own_bnds_cols N s Hs x x' Cx), (two_std_cols N s Hs x x' Cx), X1, X2.
    eapply sim_bind; [apply sim_lift, so_eq; reflexivity|]. intros bs _ <-. eapply sim_bind; [apply sim_lift, so_eq; reflexivity|]. intros _ _ _.
    eapply sim_bind; [apply (sample_box_same N s E E' HE)|]. intros Sx _ <-.
    eapply sim_bind; [apply sim_lift, (fill_rows_cols N s Hs)|].
    { intros i Hi. apply (score_rows N s Hs E E' HE); [exact Hk|]. now apply cols_mT. }
    intros G G' HG. eapply sim_bind; [apply sim_lift, (fd_rel fd x x' t Hf Hx)|]. intros F F' HF. apply sim_lift.
    eapply so_bind; [apply (cols_bc2 N s Hs); [apply (cols_mmap1 N s Hs), (cols_mmap1 N s Hs), Hg|exact HG]|]. intros C C' HC. now apply (cols_bc2 N s Hs).
  Qed.
  Lemma em_step_label fd x x' t : alike fd -> ens x x' -> sim cols (em_step E g fd dim N x t) (em_step E' g fd dim N x' t).
  Proof.
    intros Hf Hx. unfold em_step. eapply sim_bind; [apply sim_lift, (fd_rel fd x x' _ Hf Hx)|]. intros F F' HF.
    eapply sim_bind; [apply sim_lift, (cols_bc2 N s Hs); [apply Hx|apply (cols_mmap1 N s Hs), HF]|]. intros A A' HA.
    eapply sim_bind; [apply (normal_cols N s Hs E E' HE)|]. intros W W' HW. apply sim_lift.
    eapply so_bind; [apply (cols_bc2 N s Hs); [exact Hg|exact HW]|]. intros B B' HB. now apply (cols_bc2 N s Hs).
  Qed.
  Lemma det_step_label kern m fd guard x x' t : kern <> "periodic" -> alike fd -> ens x x' ->
    sim cols (det_step (f_seperate E kern m g fd guard) x t) (det_step (f_seperate E' kern m g fd guard) x' t).
  Proof.
    intros Hk Hf Hx. unfold det_step. eapply sim_bind; [apply f_seperate_label; auto|]. intros D D' HD. apply sim_lift, (cols_bc2 N s Hs); [apply Hx|now apply (cols_mmap1 N s Hs)].
  Qed.

  (** *** reweighting *)
  Lemma weights_label e e' : cols e e' ->
    same_outcome (fun w w' => List.length w = N /\ List.length w' = N /\ forall i, (i < N)%nat -> nth i w' 0 = nth (s i) w 0) (weights_of N e) (weights_of N e').
  Proof.
    intro He. unfold weights_of. eapply so_bind; [apply (cols_assign N s Hs 1 N), (cols_mmap1 N s Hs), He|]. intros w w' (Hw & R1 & C1 & W1 & W2). cbn [same_outcome].
    pose proof Hw as (Q1 & Q2 & Q3). rewrite !map_length, !row_length, Q2. split; [exact C1|]. split; [exact C1|]. intros i Hi.
    rewrite (nsum_perm _ _ (cols_row N s Hs w w' 0 Hw ltac:(lia))).
    rewrite !nth_map0 by (rewrite row_length, ?Q2, C1; auto; now apply Hs).
    rewrite !nth_row by (rewrite ?Q2, ?C1; auto; now apply Hs). rewrite Q3 by lia. now rewrite C1, old_N.
  Qed.
  Lemma sqdist_sym (x : mat R) i j : sqdist x x i j = sqdist x x j i.
  Proof. unfold sqdist. f_equal. apply map_seq_ext. intros. unfold nsq. cbn. ring. Qed.
  Lemma sqdist_self (x : mat R) i : sqdist x x i i = 0.
  Proof. unfold sqdist. rewrite nsum_seq. apply sumn_0. intros. unfold nsq. cbn. ring. Qed.
  Lemma pdist_get (x : mat R) i j : (i < mr x)%nat -> (j < mr x)%nat -> get (square_pdist x) i j = sqrt (sqdist x x i j).
  Proof.
    intros Hi Hj. unfold square_pdist. rewrite get_mk by auto. destruct (Nat.ltb_spec i j); [reflexivity|]. destruct (Nat.ltb_spec j i); [now rewrite sqdist_sym|].
    assert (i = j) by lia. subst. now rewrite sqdist_self, sqrt_0.
  Qed.
  Lemma reweight_label e e' x x' : cols e e' -> ens x x' -> same_outcome cols (reweight_slice E N e x) (reweight_slice E' N e' x').
  Proof.
    intros He Hx. pose proof Hx as ((X1 & X2 & X3) & Wx & Wx' & Rx & Cx). unfold reweight_slice. eapply so_bind; [apply (weights_label e e' He)|].
    intros w w' (Lw & Lw' & Hw). unfold reweight_optimal_transport_multidim. cbn [mT mk mr]. fold (mT x) (mT x'). rewrite X2, Cx, Lw, Lw', Nat.eqb_refl. cbn [rbind].
    set (u := repeat (ndiv none1 (nofnat N)) N). set (C := square_pdist (mT x)). set (C' := square_pdist (mT x')).
    assert (HT : forall i j, (i < N)%nat -> (j < N)%nat -> x_emd E' w' u C' i j = x_emd E w u C (s i) (s j)).
    { apply (er_emd _ _ _ _ HE w u C w' u C'); auto; try (unfold u; now rewrite repeat_length); try (unfold C, C', square_pdist; cbn; congruence); try (apply wf_rect, wf_mk).
      - intros i Hi. unfold u. rewrite !(nth_indep _ 0 (ndiv none1 (nofnat N))) by (rewrite repeat_length; auto; now apply Hs). now rewrite !nth_repeat.
      - intros i j Hi Hj. pose proof (proj1 Hs i Hi). pose proof (proj1 Hs j Hj). unfold C, C'. rewrite !pdist_get by (cbn [mT mk mr]; congruence). f_equal.
        unfold sqdist. cbn [mT mk mc]. fold (mT x) (mT x'). rewrite X1. f_equal. apply map_seq_ext. intros d Hd. rewrite !get_mT by lia. now rewrite !(ens_get x x' d) by (auto; lia). }
    set (P := muls (mk N N (x_emd E w u C)) (nofnat N)). set (P' := muls (mk N N (x_emd E' w' u C')) (nofnat N)).
    assert (GP : forall i j, (i < N)%nat -> (j < N)%nat -> get P i j = x_emd E w u C i j * INR N).
    { intros i j Hi Hj. unfold P, muls. rewrite get_mmap1 by (cbn; auto). rewrite get_mk, nofnat_R by auto. reflexivity. }
    assert (GP' : forall i j, (i < N)%nat -> (j < N)%nat -> get P' i j = get P (s i) (s j)).
    { intros i j Hi Hj. rewrite GP by (now apply Hs). unfold P', muls. rewrite get_mmap1 by (cbn; auto). rewrite get_mk, nofnat_R, HT by auto. reflexivity. }
    assert (D : mr P = N /\ mc P = N /\ mr P' = N /\ mc P' = N) by (repeat split). destruct D as (D1 & D2 & D3 & D4). clearbody P P'.
    unfold mmul. rewrite X1, X2, Rx, Cx, D1, D2, D3, D4, Nat.eqb_refl. cbn [same_outcome]. apply (cols_mk N s Hs). intros d n Hd Hn. rewrite old_N, !nsum_seq.
    rewrite <- (sumn_s N s Hs (fun l => nmul (get x d l) (get P l (s n)))). apply sumn_ext. intros l Hl. rewrite (ens_get x x' d l Hx Hd Hl), GP' by auto. reflexivity.
  Qed.
End Run.

(** *** whole runs *)
Section Whole.
  Context {S : Type} (E E' : Ext R S) (s : nat -> nat) (p : params R).
  Let N := p_N p.
  Let dim := List.length (p_y1 p).
  Context (Hs : renumbering N s) (HE : env_renumbered N s E E') (HP : label_free N s p).
  Context (grid : list R).
  Let k := List.length grid.
  Notation cols := (columns_renumbered N s).
  Notation FR := (FR N s dim k).
  Notation ens := (ens N s dim).
  Context (kern : string) (Hkern : kern <> "periodic").
  Lemma f_alike : alike N s dim (call2 (p_f p)). Proof. exact (lf_f _ _ _ HP). Qed.
  Lemma ftrue_alike : alike N s dim (ocall2 (p_f_true p)). Proof. exact (lf_ftrue _ _ _ HP). Qed.

  Lemma otto_body_label i tt A A' : FR A A' -> sim FR (otto_body E p kern A (i, tt)) (otto_body E' p kern A' (i, tt)).
  Proof.
    intros HA. unfold otto_body. fold dim. fold N. eapply sim_bind with (P := FR).
    - destruct (i =? 0)%nat.
      + apply sim_lift. apply (so_rfold_seq (fun _ => FR)); [exact HA|]. intros n B B' Hn HB. eapply so_bind; [apply so_eq; reflexivity|]. intros y _ <-.
        eapply so_bind; [apply (FR_setrow3 N s Hs dim k B B' n _ y HB)|]. intros C C' HC. destruct (p_brown p); [|exact HC]. eapply so_bind; [apply so_eq; reflexivity|]. intros y2 _ <-.
        now apply FR_setrow3.
      + eapply sim_bind; [apply sim_lift, (FR_getsl N s dim k A A' _ HA)|]. intros x x' Hx. eapply sim_bind with (P := cols).
        * destruct (i =? 1)%nat; [apply (em_step_label E E' N s Hs HE dim)|apply (det_step_label E E' N s Hs HE dim)]; auto using f_alike; apply (lf_g _ _ _ HP).
        * intros y y' Hy. apply sim_lift. now apply FR_setsl.
    - intros B B' HB. destruct (p_reweight p && (0 <? i)%nat); [|now apply sim_ret]. apply sim_lift.
      eapply so_bind; [apply (FR_getsl N s dim k B B' _ HB)|]. intros x x' Hx.
      eapply so_bind; [apply (fd_rel N s dim (ocall2 (p_U p)) x x' tt (lf_U _ _ _ HP) Hx)|]. intros u u' Hu.
      eapply so_bind; [apply (reweight_label E E' N s Hs HE dim _ _ x x' (cols_mmap1 N s Hs _ u u' Hu) Hx)|]. intros y y' Hy. now apply FR_setsl.
  Qed.
  Lemma enum' (g0 : list R) : enumerate g0 = map (fun i => (i, nth i g0 0)) (seq 0 (List.length g0)). Proof. apply enumerate_map. Qed.
  Lemma otto_label : sim FR (forward_sampling_Otto E p kern grid (zeros3 dim N k)) (forward_sampling_Otto E' p kern grid (zeros3 dim N k)).
  Proof.
    unfold forward_sampling_Otto. rewrite !enum'. apply (sim_mfold (fun _ => FR)).
    - now apply FR_zeros.
    - intros i B B' Hi HB. now apply otto_body_label.
  Qed.
  Lemma otto_true_body_label i tt A A' : FR A A' -> sim FR (otto_true_body E p kern A (i, tt)) (otto_true_body E' p kern A' (i, tt)).
  Proof.
    intros HA. unfold otto_true_body. fold dim. fold N. destruct (i =? 0)%nat.
    - apply sim_lift. now apply FR_pin.
    - eapply sim_bind; [apply sim_lift, (FR_getsl N s dim k A A' _ HA)|]. intros x x' Hx. eapply sim_bind with (P := cols).
      + destruct (i =? 1)%nat; [apply (em_step_label E E' N s Hs HE dim)|apply (det_step_label E E' N s Hs HE dim)]; auto using ftrue_alike; apply (lf_g _ _ _ HP).
      + intros y y' Hy. apply sim_lift. now apply FR_setsl.
  Qed.
  Lemma otto_true_label : sim FR (forward_sampling_Otto_true E p kern grid (zeros3 dim N k)) (forward_sampling_Otto_true E' p kern grid (zeros3 dim N k)).
  Proof.
    unfold forward_sampling_Otto_true. rewrite !enum'. apply (sim_mfold (fun _ => FR)).
    - now apply FR_zeros.
    - intros i B B' Hi HB. now apply otto_true_body_label.
  Qed.

  Context (Zf Zf' : arr3 R) (HZ : FR Zf Zf').
  Lemma density_label B B' t : FR B B' -> sim cols (density_estimation E p kern Zf B t) (density_estimation E' p kern Zf' B' t).
  Proof.
    intros HB. unfold density_estimation. fold dim. fold N.
    eapply sim_bind; [apply sim_lift, (FR_getsl N s dim k _ _ _ HZ)|]. intros z z' (Hz & Wz & Wz' & Rz & Cz).
    eapply sim_bind; [apply sim_lift, (FR_getsl N s dim k _ _ _ HB)|]. intros b b' (Hb & Wb & Wb' & Rb & Cb).
    rewrite (inter_bnds_cols N s Hs dim z z' b b'), (two_std_cols N s Hs z z' Hz) by (auto; lia).
    eapply sim_bind; [apply sim_lift, so_eq; reflexivity|]. intros bs _ <-. eapply sim_bind; [apply sim_lift, so_eq; reflexivity|]. intros _ _ _.
    eapply sim_bind; [apply (sample_box_same N s E E' HE)|]. intros Sx _ <-. apply sim_lift, (fill_rows_cols N s Hs). intros i Hi.
    eapply so_bind; [apply (score_fun_rows N s Hs E E' HE kern nmilli _ _ (mT Sx) (two_std z) _ Hkern (cols_mT N s Hs z z' Hz))|]. intros fn fn' (_ & Hfn). now apply Hfn, cols_mT.
  Qed.
  Lemma bw_density_label B B' t : FR B B' -> sim cols (bw_density_estimation E p kern Zf B t) (bw_density_estimation E' p kern Zf' B' t).
  Proof.
    intros HB. unfold bw_density_estimation. fold dim. fold N.
    eapply sim_bind; [apply sim_lift, (FR_getsl N s dim k _ _ _ HB)|]. intros b b' (Hb & Wb & Wb' & Rb & Cb).
    eapply sim_bind; [apply sim_lift, (FR_getsl N s dim k _ _ _ HZ)|]. intros z z' (Hz & Wz & Wz' & Rz & Cz).
    rewrite (inter_bnds_cols N s Hs dim z z' b b'), (two_std_cols N s Hs b b' Hb) by (auto; lia).
    eapply sim_bind; [apply sim_lift, so_eq; reflexivity|]. intros bs _ <-.
    eapply sim_bind; [apply (sample_box_same N s E E' HE)|]. intros Sx _ <-. apply sim_lift, (fill_rows_cols N s Hs). intros i Hi.
    apply (score_rows N s Hs E E' HE); [exact Hkern|]. now apply cols_mT.
  Qed.
  Lemma bw_stoch_label x x' t gro gro' : ens x x' -> cols gro gro' -> sim cols (bw_stoch_step E p x t gro) (bw_stoch_step E' p x' t gro').
  Proof.
    intros Hx Hgro. pose proof (lf_g _ _ _ HP) as Hg. unfold bw_stoch_step. fold dim. fold N.
    eapply sim_bind; [apply sim_lift, (fd_rel N s dim _ x x' t f_alike Hx)|]. intros F F' HF.
    eapply sim_bind; [apply sim_lift, (cols_bc2 N s Hs); [apply Hx|apply (cols_mmap1 N s Hs), HF]|]. intros a a' Ha.
    eapply sim_bind; [apply sim_lift, (cols_bc2 N s Hs); [apply (cols_mmap1 N s Hs), (cols_mmap1 N s Hs), Hg|exact Hgro]|]. intros b b' Hb.
    eapply sim_bind; [apply sim_lift, (cols_bc2 N s Hs); [exact Ha|exact Hb]|]. intros d d' Hd.
    eapply sim_bind; [apply (normal_cols N s Hs E E' HE)|]. intros W W' HW. apply sim_lift.
    eapply so_bind; [apply (cols_bc2 N s Hs); [exact Hg|exact HW]|]. intros B B' HB. now apply (cols_bc2 N s Hs).
  Qed.
  Lemma bw_det_label x x' t gro gro' gb gb' : ens x x' -> cols gro gro' -> cols gb gb' -> same_outcome cols (bw_det_step p x t gro gb) (bw_det_step p x' t gro' gb').
  Proof.
    intros Hx Hgro Hgb. pose proof (lf_g _ _ _ HP) as Hg. unfold bw_det_step.
    eapply so_bind; [apply (fd_rel N s dim _ x x' t f_alike Hx)|]. intros F F' HF.
    eapply so_bind; [apply (cols_bc2 N s Hs); [apply (cols_mmap1 N s Hs), Hg|exact Hgro]|]. intros b b' Hb. eapply so_bind; [apply (cols_bc2 N s Hs); [exact HF|exact Hb]|]. intros d d' Hd.
    eapply so_bind; [apply (cols_bc2 N s Hs); [apply (cols_mmap1 N s Hs), (cols_mmap1 N s Hs), Hg|exact Hgb]|]. intros e e' He. eapply so_bind; [apply (cols_bc2 N s Hs); [exact Hd|exact He]|]. intros h h' Hh.
    apply (cols_bc2 N s Hs); [apply Hx|now apply (cols_mmap1 N s Hs)].
  Qed.
  Lemma bw_body_label i tt B B' : FR B B' -> sim FR (bw_body E p kern grid Zf B (i, tt)) (bw_body E' p kern grid Zf' B' (i, tt)).
  Proof.
    intros HB. unfold bw_body. fold dim. destruct (i =? 0)%nat.
    - apply sim_lift. now apply FR_pin.
    - cbv zeta. eapply sim_bind; [apply (density_label B B' _ HB)|]. intros gro gro' Hgro. eapply sim_bind with (P := cols).
      + destruct (((i =? 1)%nat && p_det p) || negb (p_det p)).
        * eapply sim_bind; [apply sim_lift, (FR_getsl N s dim k _ _ _ HB)|]. intros x x' Hx. eapply sim_bind; [apply sim_lift, so_eq; reflexivity|]. intros t _ <-. now apply bw_stoch_label.
        * eapply sim_bind; [apply (bw_density_label B B' _ HB)|]. intros gb gb' Hgb. eapply sim_bind; [apply sim_lift, (FR_getsl N s dim k _ _ _ HB)|]. intros x x' Hx.
          eapply sim_bind; [apply sim_lift, so_eq; reflexivity|]. intros t _ <-. apply sim_lift. now apply bw_det_label.
      + intros y y' Hy. apply sim_lift. now apply FR_setsl.
  Qed.
  Lemma bw_label : sim FR (backward_simulation E p kern grid Zf (zeros3 dim N k)) (backward_simulation E' p kern grid Zf' (zeros3 dim N k)).
  Proof.
    unfold backward_simulation. fold dim. rewrite !enum'. eapply sim_bind; [apply (sim_mfold (fun _ => FR))|].
    - now apply FR_zeros.
    - intros i B B' Hi HB. now apply bw_body_label.
    - intros A A' H. apply sim_lift. now apply FR_pin.
  Qed.
End Whole.
