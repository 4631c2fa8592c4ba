(** Success of the numpy estimator and of the deterministic constructor (no modelling content). *)
From Coq Require Import String List ZArith Lia Bool.
From Verif Require Import Base.Num Base.Py Base.Arr Lib.ArrLemmas Model.Ext Model.Cdist Model.Reweight Model.Score Model.DPFC.
From Verif Require Import Spec.FlowSpec Spec.TotalSpec Lib.FlowLemmas Lib.ScoreLemmas Lib.StepLemmas Lib.RunLemmas Lib.CoreLemmas.
Import ListNotations.

Section Total.
  Context {T S : Type} {O : NumOps T} (E : Ext T S).
  Notation mat := (mat T). Notation arr3 := (arr3 T).

  Lemma rfold_total {A B} (f : B -> A -> res B) (P : B -> Prop) l b :
    P b -> (forall b a, P b -> In a l -> exists b', f b a = Ok b' /\ P b') -> exists b', rfold f l b = Ok b' /\ P b'.
  Proof.
    revert b. induction l; intros b Hb H; cbn; [eauto|]. destruct (H b a Hb (or_introl eq_refl)) as (b' & -> & Hb'). cbn.
    apply IHl; auto. intros. apply H; auto. now right.
  Qed.
  Lemma bc2_tot op (A B : mat) r c : mr A = r -> mc A = c -> mr B = r -> mc B = c ->
    exists C, bc2 op A B = Ok C /\ mr C = r /\ mc C = c.
  Proof. intros. rewrite (bc2_same op A B r c) by auto. eexists. split; [reflexivity|]. split; reflexivity. Qed.

  Lemma mmul_tot (A B : mat) : mc A = mr B -> exists C, mmul A B = Ok C /\ mr C = mr A /\ mc C = mc B.
  Proof. intro H. rewrite mmul_dim by auto. eexists. split; [reflexivity|]. split; reflexivity. Qed.

  Lemma K_sep_tot (x y : mat) ls : mc x = mc y -> exists K, K_sep x y (LVec ls) = Ok K /\ mr K = mr x /\ mc K = mr y.
  Proof.
    intro H. cbn [K_sep]. apply (rfold_total _ (fun K => mr K = mr x /\ mc K = mr y)).
    - split; reflexivity.
    - intros B [ii li] (HR & HC) _. unfold cdist_sq.
      assert (mc (colslice x ii) = mc (colslice y ii)) as ->.
      { unfold colslice. rewrite H. destruct (ii <? mc y); reflexivity. }
      rewrite Nat.eqb_refl. cbn [rbind]. apply bc2_tot; auto; cbn; apply colslice_mr.
  Qed.

  Lemma diffs_at_tot (x y : mat) d : mc x = mc y -> d < mc x -> exists D, diffs_at x y (Z.of_nat d) = Ok D /\ mr D = mr x /\ mc D = mr y.
  Proof.
    intros H Hd. unfold diffs_at. rewrite <- H, bok_refl, bdim_refl, pyidx_nat by auto. eexists. split; [reflexivity|]. split; reflexivity.
  Qed.

  Lemma grdx_tot (x y : mat) ls d : mc x = mc y -> d < mc x -> d < List.length ls ->
    exists G, grdx_K K_sep x y (LVec ls) (Z.of_nat d + 1) = Ok G /\ mr G = mr x /\ mc G = mr y.
  Proof.
    intros H Hd Hl. unfold grdx_K. replace (Z.of_nat d + 1 - 1)%Z with (Z.of_nat d) by lia.
    destruct (diffs_at_tot x y d H Hd) as (D & -> & D1 & D2). cbn [rbind].
    destruct (K_sep_tot x y ls H) as (K & -> & K1 & K2). cbn [rbind].
    destruct (bc2_tot nmul D K (mr x) (mr y)) as (P & -> & P1 & P2); auto. cbn [rbind]. cbn [lsq_at].
    rewrite (pyget_nat _ d nzero) by auto. cbn [rbind]. eexists. split; [reflexivity|]. cbn. auto.
  Qed.

  Lemma Ksz_tot Zp ls (x : mat) : mc x = mc Zp -> List.length ls = mc x -> 1 <= mc x -> exists K, Ksz_vec Zp ls x = Ok K.
  Proof.
    intros H Hl H1. unfold Ksz_vec.
    rewrite (rmapM_intro _ (fun iii => rbf_of_sq (nth iii ls nzero) (mk (mr x) (mr Zp) (fun i j => sqdist (mk (mr x) 1 (fun i _ => get x i iii)) (mk (mr Zp) 1 (fun i _ => get Zp i iii)) i j)))).
    - cbn [rbind]. destruct (mc x) as [|c]; [lia|]. cbn [seq map].
      edestruct (rfold_total (fun acc f => bc2 nmul acc f) (fun K => mr K = mr x /\ mc K = mr Zp)) as (K & -> & _); [| |eauto].
      + split; reflexivity.
      + intros B f (HR & HC) Hin. apply in_map_iff in Hin. destruct Hin as (i & <- & _). apply bc2_tot; auto.
    - intros i Hi. apply in_seq in Hi. unfold column. rewrite <- H.
      destruct (Nat.ltb_spec i (mc x)); [|lia]. cbn [rbind]. unfold cdist_sq. cbn [mc mk Nat.eqb rbind].
      rewrite (pyget_nat _ i nzero) by lia. reflexivity.
  Qed.

  Lemma linalg_inv_tot (A : mat) : no_singular E -> mr A = mc A -> exists B, linalg_inv E A = Ok B /\ mr B = mr A /\ mc B = mr A.
  Proof.
    intros Hs H. unfold linalg_inv. rewrite H, Nat.eqb_refl. specialize (Hs A H). destruct (x_inv E A); [|congruence].
    eexists. split; [reflexivity|]. split; reflexivity.
  Qed.

  (** success of the estimator, as needed by the constructor *)
  Definition scores_ok (dim : nat) : Prop := forall X Zp ls d, mc X = dim -> mc Zp = dim -> List.length ls = dim -> d < dim ->
    (exists r, score_function_multid_seperate E X Zp nmilli "RBF" (LVec ls) (Z.of_nat d + 1) = Ok r) /\
    exists fn, score_function_multid_seperate_fun E X Zp nmilli "RBF" (LVec ls) (Z.of_nat d + 1) = Ok fn /\
      forall x, mc x = dim -> exists r, fn x = Ok r.

  Lemma prep_tot X Zp ls d :
    no_singular E -> mc X = mc Zp -> d < mc X -> d < List.length ls ->
    exists Kxz Ksinv A s, prep E (K_of "RBF") (grdx_of "RBF") X Zp (LVec ls) (Z.of_nat d + 1) = Ok (Kxz, Ksinv, A, s) /\
      mr Kxz = mr X /\ mc Kxz = mr Zp /\ mr Ksinv = mr Zp /\ mc Ksinv = mr Zp /\ mr A = mr Zp /\ mc A = mr Zp /\ mr s = mr Zp /\ mc s = 1.
  Proof.
    intros Hs H Hd Hl. unfold prep. change (K_of "RBF") with (@K_sep T O). change (grdx_of "RBF") with (@grdx_K T O K_sep).
    destruct (K_sep_tot X Zp ls H) as (Kxz & -> & K1 & K2). cbn [rbind].
    destruct (K_sep_tot Zp Zp ls eq_refl) as (Ks & -> & K3 & K4). cbn [rbind]. unfold reg_inv.
    destruct (bc2_tot nadd Ks (smul nmilli (eye (mr Zp))) (mr Zp) (mr Zp)) as (a & -> & A1 & A2); auto. cbn [rbind].
    destruct (linalg_inv_tot a Hs) as (Ksinv & -> & I1 & I2); [congruence|]. cbn [rbind].
    destruct (mmul_tot (mT Kxz) Kxz) as (A & -> & A3 & A4); [reflexivity|]. cbn [rbind].
    destruct (grdx_tot X Zp ls d H Hd Hl) as (G & -> & G1 & G2). cbn [rbind].
    exists Kxz, Ksinv, A, (sum0 (mopp G)). cbn in A3. repeat split; auto; try congruence.
  Qed.

  Lemma inner_tot C M Ksinv A : no_singular E -> mr Ksinv = M -> mc Ksinv = M -> mr A = M -> mc A = M ->
    exists R, inner_inv E C M Ksinv A = Ok R /\ mr R = M /\ mc R = M.
  Proof.
    intros Hs H1 H2 H3 H4. unfold inner_inv. destruct (mmul_tot Ksinv A) as (ka & -> & R1 & R2); [congruence|]. cbn [rbind].
    destruct (bc2_tot nadd (smul C (eye M)) ka M M) as (a1 & -> & R3 & R4); try reflexivity; try congruence. cbn [rbind].
    destruct (bc2_tot nadd a1 (smul nmilli (eye M)) M M) as (a2 & -> & R5 & R6); try reflexivity; try congruence. cbn [rbind].
    destruct (linalg_inv_tot a2 Hs) as (B & -> & I1 & I2); [congruence|]. exists B. split; [reflexivity|]. split; congruence.
  Qed.

  Lemma scores_total dim : no_singular E -> scores_ok dim.
  Proof.
    intros Hs X Zp ls d HX HZ Hl Hd.
    destruct (prep_tot X Zp ls d Hs) as (Kxz & Ksinv & A & s & HP & K1 & K2 & K3 & K4 & K5 & K6 & K7 & K8); try lia.
    destruct (inner_tot nmilli (mr Zp) Ksinv A Hs) as (inn & HI & I1 & I2); auto.
    split.
    - unfold score_function_multid_seperate. rewrite HP. cbn [rbind]. unfold eval_at_samples. rewrite HI. cbn [rbind].
      destruct (mmul_tot (mopp Kxz) inn) as (a & -> & A1 & A2); [cbn; congruence|]. cbn [rbind].
      destruct (mmul_tot a Ksinv) as (b & -> & B1 & B2); [congruence|]. cbn [rbind].
      destruct (mmul_tot b s) as (c & -> & _); [congruence|]. cbn. eauto.
    - unfold score_function_multid_seperate_fun. rewrite HP. cbn [rbind]. eexists. split; [reflexivity|].
      intros x Hx. change (Ksz_of "RBF") with (@Ksz T O). unfold eval_fun. cbn [Ksz].
      destruct (Ksz_tot Zp ls x) as (k & Hk); try congruence; try lia. pose proof (is_Ksz_vec _ _ _ _ Hk) as (_ & R1 & R2).
      rewrite Hk. cbn [rbind]. rewrite HI. cbn [rbind].
      destruct (mmul_tot k (mopp inn)) as (a & -> & A1 & A2); [cbn; congruence|]. cbn [rbind].
      destruct (mmul_tot a Ksinv) as (b & -> & B1 & B2); [cbn in A2; congruence|]. cbn [rbind].
      destruct (mmul_tot b s) as (c & -> & _); [congruence|]. cbn. eauto.
  Qed.

  (** ** The constructor *)
  Definition tot {A} (m : M S A) (P : A -> Prop) : Prop := forall s, exists a s', m s = (Ok a, s') /\ P a.
  Lemma tot_bind {A B} (m : M S A) (k : A -> M S B) P Q : tot m P -> (forall a, P a -> tot (k a) Q) -> tot (bind m k) Q.
  Proof.
    intros H1 H2 s. destruct (H1 s) as (a & s1 & Ha & HP). destruct (H2 a HP s1) as (b & s2 & Hb & HQ).
    exists b, s2. split; [|auto]. unfold bind. now rewrite Ha.
  Qed.
  Lemma tot_lift {A} (r : res A) (P : A -> Prop) : (exists a, r = Ok a /\ P a) -> tot (lift r) P.
  Proof. intros (a & -> & H) s. exists a, s. split; [reflexivity|auto]. Qed.
  Lemma tot_ret {A} (a : A) (P : A -> Prop) : P a -> tot (ret a) P.
  Proof. intros H s. exists a, s. split; [reflexivity|auto]. Qed.
  Lemma tot_mfold {A B} (f : B -> A -> M S B) l b (P : B -> Prop) :
    P b -> (forall b a, P b -> In a l -> tot (f b a) P) -> tot (mfold f l b) P.
  Proof.
    revert b. induction l; intros b Hb H; cbn; [now apply tot_ret|]. apply (tot_bind _ _ P).
    - apply H; auto. now left.
    - intros b' Hb'. apply IHl; auto. intros. apply H; auto. now right.
  Qed.

  Definition ism (d n : nat) (A : mat) : Prop := mr A = d /\ mc A = n.
  Lemma bc2_ism op A B d n : ism d n A -> ism d n B -> exists C, bc2 op A B = Ok C /\ ism d n C.
  Proof. intros (A1 & A2) (B1 & B2). destruct (bc2_tot op A B d n) as (C & HC & H); eauto. Qed.
  Lemma bc2_col op A B d n : (mr A = 1 \/ mr A = d) -> mc A = 1 -> ism d n B -> exists C, bc2 op A B = Ok C /\ ism d n C.
  Proof.
    intros HR HC (B1 & B2). unfold bc2.
    assert (bok (mr A) (mr B) = true) as -> by (apply bok_spec; intuition congruence).
    assert (bok (mc A) (mc B) = true) as -> by (apply bok_spec; auto). cbn [andb]. eexists. split; [reflexivity|].
    unfold ism, bdim. cbn [mr mc mk]. rewrite HC. cbn. split; [|auto]. destruct (Nat.eqb_spec (mr A) 1); [auto|]. lia.
  Qed.
  Lemma assign_ism d n A : ism d n A -> exists B, assign_shape d n A = Ok B /\ shaped B d n.
  Proof.
    intros (H1 & H2). rewrite assign_shape_same by auto. eexists. split; [reflexivity|]. split; [apply wf_mk|]. split; reflexivity.
  Qed.
  Lemma lmin_tot (l : list T) : l <> [] -> exists v, lmin l = Ok v.
  Proof. destruct l; [congruence|]. cbn. eauto. Qed.
  Lemma lmax_tot (l : list T) : l <> [] -> exists v, lmax l = Ok v.
  Proof. destruct l; [congruence|]. cbn. eauto. Qed.
  Lemma row_ne (x : mat) i : 1 <= mc x -> row x i <> [].
  Proof. intros H Q. pose proof (row_length x i) as L. rewrite Q in L. cbn in L. lia. Qed.
  Lemma rmapM_tot {A B} (f : A -> res B) l : (forall a, In a l -> exists b, f a = Ok b) -> exists r, rmapM f l = Ok r /\ List.length r = List.length l.
  Proof.
    induction l; intro H; cbn; [eauto|]. destruct (H a (or_introl eq_refl)) as (b & ->). cbn.
    destruct IHl as (r & -> & L); [intros; apply H; now right|]. cbn. eexists. split; [reflexivity|]. cbn. lia.
  Qed.
  Lemma own_bnds_tot (x : mat) : 1 <= mc x -> exists b, own_bnds x = Ok b /\ List.length b = mr x.
  Proof.
    intro H. unfold own_bnds. edestruct (rmapM_tot (fun ii => let! lo := lmin (row x ii) in let! hi := lmax (row x ii) in Ok (lo, hi)) (seq 0 (mr x))) as (r & Hr & L).
    - intros i _. destruct (lmin_tot (row x i) (row_ne x i H)) as (lo & ->). destruct (lmax_tot (row x i) (row_ne x i H)) as (hi & ->). cbn. eauto.
    - exists r. split; [exact Hr|]. now rewrite seq_length in L.
  Qed.
  Lemma inter_bnds_tot dim (z b : mat) : 1 <= mc z -> 1 <= mc b -> exists r, inter_bnds dim z b = Ok r /\ List.length r = dim.
  Proof.
    intros Hz Hb. unfold inter_bnds. edestruct (rmapM_tot (inter_bnd z b) (seq 0 dim)) as (r & Hr & L).
    - intros i _. unfold inter_bnd. destruct (lmin_tot (row z i) (row_ne z i Hz)) as (z1 & ->). destruct (lmin_tot (row b i) (row_ne b i Hb)) as (b1 & ->).
      destruct (lmax_tot (row z i) (row_ne z i Hz)) as (z2 & ->). destruct (lmax_tot (row b i) (row_ne b i Hb)) as (b2 & ->). cbn. eauto.
    - exists r. split; [exact Hr|]. now rewrite seq_length in L.
  Qed.
  Lemma plot_guard_tot dim bnds : plots_ok (T := T) dim -> plot_guard dim bnds = Ok tt.
  Proof.
    intros [H|H]; unfold plot_guard.
    - destruct (nbad _); auto. destruct (Nat.ltb_spec dim 2); [lia|auto].
    - now rewrite H.
  Qed.
  Lemma sample_box_tot m bnds : no_overflow E -> tot (sample_box E m bnds) (fun X => mr X = List.length bnds).
  Proof.
    intro Ho. unfold sample_box. apply (tot_bind _ _ (fun _ => True)).
    - induction bnds as [|b bs IH]; cbn; [now apply tot_ret|]. apply (tot_bind _ _ (fun _ => True)).
      + intro s. unfold uniform. destruct (Ho s (fst b) (snd b) m) as (h & s' & ->). eauto.
      + intros r _. apply (tot_bind _ _ (fun _ => True)); [apply IH|]. intros. now apply tot_ret.
    - intros rows _. apply tot_ret. reflexivity.
  Qed.
  Lemma normal_tot sc r c : tot (normal E sc r c) (ism r c).
  Proof. intro s. unfold normal. destruct (x_normal E s sc r c). eexists _, _. split; [reflexivity|]. split; reflexivity. Qed.
  Lemma fill_rows_tot dim n v : (forall d, d < dim -> exists l, v d = Ok l /\ List.length l = n) -> exists G, fill_rows dim n v = Ok G /\ ism dim n G.
  Proof.
    intro H. unfold fill_rows. apply (rfold_seq_total _ (fun _ A => ism dim n A)); [split; reflexivity|].
    intros i B Hi (B1 & B2). destruct (H i Hi) as (l & -> & L). cbn [rbind].
    rewrite setrow_nat by (try lia; try reflexivity; cbn; congruence). eexists. split; [reflexivity|]. cbn. split; auto.
  Qed.

  Section Problem.
    Context (p : params T) (WP : well_posed p) (HO : no_overflow E) (HP : plots_ok (T := T) (List.length (p_y1 p)))
            (HS : scores_ok (List.length (p_y1 p))).
    Let dim := List.length (p_y1 p).
    Let N := p_N p.

    Lemma em_tot fd x t : field dim N fd -> ism dim N x -> tot (em_step E (p_g p) fd dim N x t) (ism dim N).
    Proof.
      intros Hf Hx. unfold em_step. destruct (Hf x (nsub t dt) (proj1 Hx) (proj2 Hx)) as (F & HF & F1 & F2).
      apply (tot_bind _ _ (ism dim N)); [apply tot_lift; exists F; split; [exact HF|split; auto]|]. intros fx Hfx.
      apply (tot_bind _ _ (ism dim N)); [apply tot_lift, bc2_ism; auto; split; apply Hfx|]. intros a Ha.
      apply (tot_bind _ _ (ism dim N)); [apply normal_tot|]. intros no Hno. apply tot_lift.
      destruct (bc2_col nmul (p_g p) no dim N) as (gn & -> & Hgn); auto; try apply (wp_g _ WP). cbn [rbind].
      apply bc2_ism; auto.
    Qed.

    Lemma fsep_tot fd gd x t : field dim N fd -> ism dim N x ->
      tot (f_seperate E "RBF" (p_M p) (p_g p) fd gd x t) (ism dim N).
    Proof.
      intros Hf (X1 & X2). pose proof (wp_N _ WP) as HN. unfold f_seperate. unfold N in *.
      destruct (own_bnds_tot x) as (b & Hb & Lb); [lia|].
      apply (tot_bind _ _ (fun b => List.length b = dim)); [apply tot_lift; exists b; split; auto; congruence|]. intros bs Lbs.
      apply (tot_bind _ _ (fun _ => True)).
      { apply tot_lift. exists tt. split; auto. destruct gd; auto. apply plot_guard_tot. now rewrite X1. }
      intros _ _. apply (tot_bind _ _ (fun X => mr X = dim)).
      { intro s. destruct (sample_box_tot (p_M p) bs HO s) as (X & s' & H1 & H2). rewrite Lbs in H2. eauto. }
      intros Sxx HSx. apply (tot_bind _ _ (ism dim (p_N p))).
      { apply tot_lift. rewrite X1, X2. apply fill_rows_tot. intros d Hd.
        destruct (HS (mT x) (mT Sxx) (two_std x) d) as ((r & Hr) & _); try (cbn; auto; fail).
        - unfold two_std, std1. rewrite !map_length, seq_length. auto.
        - exists r. split; [exact Hr|]. apply score_length in Hr. cbn in Hr. lia. }
      intros gp Hgp. destruct (Hf x t X1 X2) as (F & HF & F1 & F2).
      apply (tot_bind _ _ (ism dim (p_N p))); [apply tot_lift; exists F; split; [exact HF|split; auto]|]. intros fx Hfx.
      apply tot_lift. destruct (bc2_col nmul (smul nhalf (msq (p_g p))) gp dim (p_N p)) as (c & -> & Hc); auto; try apply (wp_g _ WP).
      cbn [rbind]. apply bc2_ism; auto.
    Qed.

    Lemma det_tot fd gd x t : field dim N fd -> ism dim N x ->
      tot (det_step (f_seperate E "RBF" (p_M p) (p_g p) fd gd) x t) (ism dim N).
    Proof.
      intros Hf Hx. unfold det_step. apply (tot_bind _ _ (ism dim N)); [now apply fsep_tot|]. intros d Hd.
      apply tot_lift. apply bc2_ism; auto.
    Qed.

    Lemma reweight_tot e x : ism 1 N e -> ism dim N x -> exists y, reweight_slice E N e x = Ok y /\ ism dim N y.
    Proof.
      intros (E1 & E2) (X1 & X2). unfold reweight_slice, weights_of.
      destruct (assign_ism 1 N (mexp e)) as (w & -> & (Ww & W1 & W2)); [split; auto|]. cbn [rbind].
      unfold reweight_optimal_transport_multidim. rewrite map_length, row_length, W2. cbn [mr mT mk]. rewrite X2, Nat.eqb_refl.
      cbn [rbind]. destruct (mmul_tot x (muls (mk N N (x_emd E (map (fun v : T => ndiv v (nsum (row w 0))) (row w 0)) (repeat (ndiv none1 (nofnat N)) N) (square_pdist (mT x)))) (nofnat N))) as (y & Hy & Y1 & Y2); [cbn; auto|].
      exists y. split; [exact Hy|]. split; [congruence|]. exact Y2.
    Qed.

    Lemma core_tot i t x : ism dim N x -> tot (otto_core E p "RBF" i t x) (fun m => shaped m dim N).
    Proof.
      intro Hx. unfold otto_core. apply (tot_bind _ _ (ism dim N)).
      { destruct (i =? 1); [apply em_tot|apply det_tot]; auto; apply (wp_f _ WP). }
      intros y Hy. apply (tot_bind _ _ (fun m => shaped m dim N)).
      { apply tot_lift. now apply assign_ism. }
      intros m (Wm & M1 & M2). destruct (p_reweight p) eqn:Hr; [|apply tot_ret; split; auto].
      apply tot_lift. destruct (wp_U _ WP Hr m t M1 M2) as (u & -> & U1 & U2). cbn [rbind].
      destruct (reweight_tot (muls u dt) m) as (y2 & Hy2 & Hi); [split; auto|split; auto|]. unfold N in Hy2. rewrite Hy2. cbn [rbind].
      apply assign_ism; auto.
    Qed.

    Lemma setrow3_tot (B : arr3) k i t v : sh B dim N k -> i < dim -> 1 <= k -> (t = 0 \/ t = -1)%Z ->
      exists B', setrow3 B (Z.of_nat i) t v = Ok B' /\ sh B' dim N k.
    Proof.
      intros HB0 Hi Hk Ht. pose proof HB0 as (W & D & Nn & K).
      assert (Hex : exists j, pyidx (a_k B) t = Some j). { rewrite K. destruct Ht as [->| ->]; [rewrite pyidx_0 by lia|rewrite pyidx_m1 by lia]; eauto. }
      destruct Hex as (j & Hj). destruct (setrow3 B (Z.of_nat i) t v) as [B'|e] eqn:Q.
      - exists B'. split; auto. apply setrow3_ok in Q; auto. destruct Q as (j' & _ & _ & _ & W' & ->). split; auto.
      - unfold setrow3 in Q. rewrite Hj in Q. rewrite D, pyidx_nat in Q by auto. discriminate.
    Qed.
    Lemma pin_tot (B : arr3) k y t : sh B dim N k -> 1 <= k -> dim <= List.length y -> (t = 0 \/ t = -1)%Z ->
      exists B', pin dim y t B = Ok B' /\ sh B' dim N k.
    Proof.
      intros HB Hk Hy Ht. unfold pin. apply (rfold_seq_total _ (fun _ A => sh A dim N k)); auto.
      intros i A Hi HA. rewrite (pyget_nat _ i nzero) by lia. cbn [rbind]. apply setrow3_tot; auto.
    Qed.

    Lemma otto_tot grid : 1 <= List.length grid ->
      tot (forward_sampling_Otto E p "RBF" grid (zeros3 dim N (List.length grid))) (fun Z1 => sh Z1 dim N (List.length grid)).
    Proof.
      intro Hk. set (k := List.length grid) in *. unfold forward_sampling_Otto. apply tot_mfold; [apply sh_zeros|].
      intros Zf [i t] HZ Hin. assert (Hi : i < k).
      { unfold enumerate in Hin. apply in_combine_l in Hin. apply in_seq in Hin. fold k in Hin. lia. }
      destruct (Nat.eq_dec i 0) as [->|H0].
      - unfold otto_body. cbn [Nat.eqb]. rewrite andb_false_r. apply (tot_bind _ _ (fun Z1 => sh Z1 dim N k)); [|intros; now apply tot_ret].
        apply tot_lift. apply (rfold_seq_total _ (fun _ A => sh A dim N k)); auto.
        intros d A Hd HA. rewrite (pyget_nat _ d nzero) by auto. cbn [rbind].
        destruct (setrow3_tot A k d 0%Z (nth d (p_y1 p) nzero)) as (A1 & -> & HA1); auto. cbn [rbind].
        destruct (p_brown p); [|eauto]. rewrite (pyget_nat _ d nzero) by (rewrite (wp_y _ WP); auto). cbn [rbind].
        apply setrow3_tot; auto.
      - intro s. rewrite (otto_body_core E p "RBF" Zf i t s k HZ) by lia.
        destruct (sh_slice _ _ _ _ (i-1) HZ ltac:(lia)) as (_ & R1 & C1).
        destruct (core_tot i t (slice Zf (i-1)) (conj R1 C1) s) as (m & s' & Hm & (Wm & M1 & M2)).
        exists (setslice Zf i m), s'. split; [|apply sh_set; auto]. unfold bind. rewrite Hm. reflexivity.
    Qed.

    Lemma otto_true_tot grid : 1 <= List.length grid -> p_reweight p = true -> p_brown p = true ->
      tot (forward_sampling_Otto_true E p "RBF" grid (zeros3 dim N (List.length grid))) (fun Z1 => sh Z1 dim N (List.length grid)).
    Proof.
      intros Hk Hr Hb. set (k := List.length grid) in *. unfold forward_sampling_Otto_true. apply tot_mfold; [apply sh_zeros|].
      intros Zf [i t] HZ Hin. assert (Hi : i < k).
      { unfold enumerate in Hin. apply in_combine_l in Hin. apply in_seq in Hin. fold k in Hin. lia. }
      unfold otto_true_body. destruct (Nat.eqb_spec i 0) as [->|H0].
      - apply tot_lift. apply pin_tot; auto.
      - destruct (sh_slice _ _ _ _ (i-1) HZ ltac:(lia)) as (_ & R1 & C1).
        apply (tot_bind _ _ (ism dim N)).
        { apply tot_lift. replace (Z.of_nat i - 1)%Z with (Z.of_nat (i-1)) by lia.
          rewrite getsl_nat by (destruct HZ as (_ & _ & _ & ->); lia). eexists. split; [reflexivity|split; auto]. }
        intros x Hx. apply (tot_bind _ _ (ism dim N)).
        { destruct (i =? 1); [apply em_tot|apply det_tot]; auto; apply (wp_ft _ WP); auto. }
        intros y Hy. apply tot_lift. destruct (assign_ism dim N y Hy) as (m & Hm & (Wm & M1 & M2)).
        rewrite (setsl_eq _ _ _ _ _ _ HZ) by lia. rewrite Hm. cbn. eexists. split; [reflexivity|]. apply sh_set; auto.
    Qed.

    Lemma dens_tot (Zf B : arr3) k j : sh Zf dim N k -> sh B dim N k -> j < k ->
      tot (density_estimation E p "RBF" Zf B (Z.of_nat j)) (ism dim N).
    Proof.
      intros HZ HB Hj. pose proof (wp_N _ WP) as HN. unfold density_estimation. fold dim.
      destruct (sh_slice _ _ _ _ j HZ Hj) as (_ & R1 & C1). destruct (sh_slice _ _ _ _ j HB Hj) as (_ & R2 & C2).
      rewrite !getsl_nat by (first [destruct HZ as (_ & _ & _ & ->)|destruct HB as (_ & _ & _ & ->)]; lia).
      apply (tot_bind _ _ (fun z => z = slice Zf j)); [apply tot_lift; eauto|]. intros z ->.
      apply (tot_bind _ _ (fun z => z = slice B j)); [apply tot_lift; eauto|]. intros b ->.
      destruct (inter_bnds_tot dim (slice Zf j) (slice B j)) as (bs & Hbs & Lbs); try (unfold N in *; lia).
      apply (tot_bind _ _ (fun b => List.length b = dim)); [apply tot_lift; eauto|]. clear bs Hbs Lbs. intros bs Lbs.
      apply (tot_bind _ _ (fun _ => True)). { apply tot_lift. exists tt. split; auto. now apply plot_guard_tot. }
      intros _ _. apply (tot_bind _ _ (fun X => mr X = dim)).
      { intro s. destruct (sample_box_tot (p_M p) bs HO s) as (X & s' & H1 & H2). rewrite Lbs in H2. eauto. }
      intros Sxx HSx. apply tot_lift. apply fill_rows_tot. intros d Hd.
      destruct (HS (mT (slice Zf j)) (mT Sxx) (two_std (slice Zf j)) d) as (_ & fn & Hfn & Hx); try (cbn; auto; fail).
      { unfold two_std, std1. rewrite !map_length, seq_length. auto. }
      destruct (Hx (mT (slice B j))) as (r & Hr); [cbn; auto|]. exists r. rewrite Hfn. cbn [rbind]. split; [auto|].
      rewrite (score_fun_length E _ _ _ _ _ _ _ _ _ Hfn Hr). cbn. auto.
    Qed.
    Lemma bwdens_tot (Zf B : arr3) k j : sh Zf dim N k -> sh B dim N k -> j < k ->
      tot (bw_density_estimation E p "RBF" Zf B (Z.of_nat j)) (ism dim N).
    Proof.
      intros HZ HB Hj. pose proof (wp_N _ WP) as HN. unfold bw_density_estimation. fold dim.
      destruct (sh_slice _ _ _ _ j HZ Hj) as (_ & R1 & C1). destruct (sh_slice _ _ _ _ j HB Hj) as (_ & R2 & C2).
      rewrite !getsl_nat by (first [destruct HZ as (_ & _ & _ & ->)|destruct HB as (_ & _ & _ & ->)]; lia).
      apply (tot_bind _ _ (fun z => z = slice B j)); [apply tot_lift; eauto|]. intros b ->.
      apply (tot_bind _ _ (fun z => z = slice Zf j)); [apply tot_lift; eauto|]. intros z ->.
      destruct (inter_bnds_tot dim (slice Zf j) (slice B j)) as (bs & Hbs & Lbs); try (unfold N in *; lia).
      apply (tot_bind _ _ (fun b => List.length b = dim)); [apply tot_lift; eauto|]. clear bs Hbs Lbs. intros bs Lbs.
      apply (tot_bind _ _ (fun X => mr X = dim)).
      { intro s. destruct (sample_box_tot (p_M p) bs HO s) as (X & s' & H1 & H2). rewrite Lbs in H2. eauto. }
      intros Sxx HSx. apply tot_lift. apply fill_rows_tot. intros d Hd.
      destruct (HS (mT (slice B j)) (mT Sxx) (two_std (slice B j)) d) as ((r & Hr) & _); try (cbn; auto; fail).
      { unfold two_std, std1. rewrite !map_length, seq_length. auto. }
      exists r. split; [exact Hr|]. apply score_length in Hr. cbn in Hr. lia.
    Qed.

    Lemma bw_tot grid Zf : 1 <= List.length grid -> sh Zf dim N (List.length grid) ->
      tot (backward_simulation E p "RBF" grid Zf (zeros3 dim N (List.length grid))) (fun B => sh B dim N (List.length grid)).
    Proof.
      intros Hk HZ. set (k := List.length grid) in *. unfold backward_simulation.
      apply (tot_bind _ _ (fun B => sh B dim N k)).
      2:{ intros B HB. apply tot_lift. apply pin_tot; auto. }
      apply tot_mfold; [apply sh_zeros|]. intros B [i t] HB Hin. assert (Hi : i + 1 < k).
      { unfold enumerate in Hin. apply in_combine_l in Hin. apply in_seq in Hin. rewrite init_length in Hin. fold k in Hin. lia. }
      unfold bw_body. fold dim k. destruct (Nat.eqb_spec i 0) as [->|H0].
      { apply tot_lift. apply pin_tot; auto. rewrite (wp_y _ WP). auto. }
      cbv zeta. replace (Z.of_nat k - Z.of_nat i - 1)%Z with (Z.of_nat (k - i - 1)) by lia.
      replace (Z.of_nat (k - i - 1) + 1)%Z with (Z.of_nat (k - i)) by lia.
      destruct (sh_slice _ _ _ _ (k-i) HB ltac:(lia)) as (_ & R2 & C2).
      apply (tot_bind _ _ (ism dim N)); [apply (dens_tot Zf B k); auto; lia|]. intros gro Hg.
      assert (Hgx : getsl B (Z.of_nat (k-i)) = Ok (slice B (k-i))) by (apply getsl_nat; destruct HB as (_ & _ & _ & ->); lia).
      assert (Hgt : pyget grid (Z.of_nat (k-i)) = Ok (nth (k-i) grid nzero)) by (apply pyget_nat; fold k; lia).
      assert (GC : forall op A B, (mr A = 1 \/ mr A = dim) -> mc A = 1 -> ism dim N B -> exists C, bc2 op A B = Ok C /\ ism dim N C) by (intros; apply bc2_col; auto).
      destruct (wp_g _ WP) as (G1 & G2). fold dim in G1.
      apply (tot_bind _ _ (ism dim N)).
      - destruct ((i =? 1) && p_det p || negb (p_det p)).
        + apply (tot_bind _ _ (fun x => x = slice B (k-i))); [apply tot_lift; eauto|]. intros x ->.
          apply (tot_bind _ _ (fun _ => True)); [apply tot_lift; eauto|]. intros tt' _. unfold bw_stoch_step.
          destruct (wp_f _ WP (slice B (k-i)) tt' R2 C2) as (F & HF & F1 & F2).
          apply (tot_bind _ _ (ism dim N)); [apply tot_lift; exists F; split; [exact HF|split; auto]|]. intros fx Hfx.
          apply (tot_bind _ _ (ism dim N)); [apply tot_lift, bc2_ism; [split; auto|exact Hfx]|]. intros a Ha.
          apply (tot_bind _ _ (ism dim N)); [apply tot_lift, GC; auto|]. intros c Hc.
          apply (tot_bind _ _ (ism dim N)); [apply tot_lift, bc2_ism; auto|]. intros ac Hac.
          apply (tot_bind _ _ (ism dim N)); [apply normal_tot|]. intros no Hno. apply tot_lift.
          destruct (GC nmul (p_g p) no) as (gn & -> & Hgn); auto. cbn [rbind]. apply bc2_ism; auto.
        + apply (tot_bind _ _ (ism dim N)); [apply (bwdens_tot Zf B k); auto; lia|]. intros gb Hgb.
          apply (tot_bind _ _ (fun x => x = slice B (k-i))); [apply tot_lift; eauto|]. intros x ->.
          apply (tot_bind _ _ (fun _ => True)); [apply tot_lift; eauto|]. intros tt' _. apply tot_lift. unfold bw_det_step.
          destruct (wp_f _ WP (slice B (k-i)) tt' R2 C2) as (F & HF & F1 & F2). rewrite HF. cbn [rbind].
          destruct (GC nmul (msq (p_g p)) gro) as (c1 & -> & Hc1); auto. cbn [rbind].
          destruct (bc2_ism nsub F c1 dim N) as (d1 & -> & Hd1); [split; auto|auto|]. cbn [rbind].
          destruct (GC nmul (smul nhalf (msq (p_g p))) gb) as (c2 & -> & Hc2); auto. cbn [rbind].
          destruct (bc2_ism nadd d1 c2 dim N) as (d2 & -> & Hd2); auto. cbn [rbind].
          apply bc2_ism; [split; auto|exact Hd2].
      - intros y Hy. apply tot_lift. destruct (assign_ism dim N y Hy) as (m & Hm & (Wm & M1 & M2)).
        rewrite (setsl_eq _ _ _ _ _ _ HB) by lia. rewrite Hm. cbn. eexists. split; [reflexivity|]. apply sh_set; auto; lia.
    Qed.

    Lemma kern_rbf : kern_used (p_kern p) = "RBF"%string.
    Proof. unfold kern_used. destruct (wp_kern _ WP) as [-> | ->]; reflexivity. Qed.

    Lemma construct_tot : p_det p = true -> 1 <= List.length (timegrid (p_t1 p) (p_t2 p)) -> tot (construct E p) (fun _ => True).
    Proof.
      intros Hd Hk. unfold construct. rewrite kern_rbf, Hd. fold dim N. set (grid := timegrid (p_t1 p) (p_t2 p)) in *.
      apply (tot_bind _ _ (fun ZZ => sh (fst ZZ) dim N (List.length grid))).
      - apply (tot_bind _ _ (fun Z1 => sh Z1 dim N (List.length grid))); [now apply otto_tot|]. intros Z1 HZ1.
        destruct (p_reweight p) eqn:Hr; [destruct (p_brown p) eqn:Hb|]; cbn [andb]; try (apply tot_ret; exact HZ1).
        apply (tot_bind _ _ (fun _ => True)); [|intros; apply tot_ret; exact HZ1].
        intro s. destruct (otto_true_tot grid Hk Hr Hb s) as (a & s' & H & _). eauto.
      - intros [Z1 Zt] HZ1. apply (tot_bind _ _ (fun _ => True)); [|intros; now apply tot_ret].
        intro s. destruct (bw_tot grid Z1 Hk HZ1 s) as (a & s' & H & _). eauto.
    Qed.
  End Problem.
End Total.
