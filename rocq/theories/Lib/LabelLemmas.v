(** Array operations, box bounds, samples and score estimates on renumbered ensembles (no modelling content). *)
From Coq Require Import String List ZArith Reals Lra Lia Bool Permutation.
From Verif Require Import Base.Num Base.Py Base.Arr Lib.ArrLemmas Model.Ext Model.Cdist Model.Reweight Model.Score Model.DPFC.
From Verif Require Import Spec.FlowSpec Spec.RealSpec Spec.Contracts Spec.AffineSpec Spec.LabelSpec Lib.FlowLemmas Lib.StepLemmas Lib.RSum Lib.RBase Lib.Sim Lib.AffineLemmas.
Import ListNotations.
Local Open Scope string_scope.
Local Open Scope R_scope.

(** lists with the same elements *)
Lemma nsum_perm (l l' : list R) : Permutation l l' -> nsum l = nsum l'.
Proof. cbn [nsum ROps]. induction 1; cbn; lra. Qed.
Lemma lmin_perm (l l' : list R) : Permutation l l' -> lmin l = lmin l'.
Proof.
  intro H. destruct l as [|x l]. { now rewrite (Permutation_nil H). } destruct l' as [|x' l']. { symmetry in H. now apply Permutation_nil in H. }
  destruct (lmin (x :: l)) as [a|] eqn:Ea; [|discriminate]. destruct (lmin (x' :: l')) as [b|] eqn:Eb; [|discriminate].
  apply lmin_R in Ea, Eb. destruct Ea as (A1 & A2), Eb as (B1 & B2). f_equal. apply Rle_antisym.
  - apply A2. now apply (Permutation_in b (Permutation_sym H)).
  - apply B2. now apply (Permutation_in a H).
Qed.
Lemma lmax_perm (l l' : list R) : Permutation l l' -> lmax l = lmax l'.
Proof.
  intro H. destruct l as [|x l]. { now rewrite (Permutation_nil H). } destruct l' as [|x' l']. { symmetry in H. now apply Permutation_nil in H. }
  destruct (lmax (x :: l)) as [a|] eqn:Ea; [|discriminate]. destruct (lmax (x' :: l')) as [b|] eqn:Eb; [|discriminate].
  apply lmax_R in Ea, Eb. destruct Ea as (A1 & A2), Eb as (B1 & B2). f_equal. apply Rle_antisym.
  - apply B2. now apply (Permutation_in a H).
  - apply A2. now apply (Permutation_in b (Permutation_sym H)).
Qed.
Lemma nmean_perm (l l' : list R) : Permutation l l' -> nmean l = nmean l'.
Proof. intro H. unfold nmean. now rewrite (nsum_perm l l' H), (Permutation_length H). Qed.
Lemma ssd_perm (l l' : list R) : Permutation l l' -> ssd l = ssd l'.
Proof. intro H. unfold ssd. rewrite (nmean_perm l l' H). now apply nsum_perm, Permutation_map. Qed.
Lemma nstd_perm (l l' : list R) : Permutation l l' -> nstd l = nstd l'.
Proof. intro H. unfold nstd. now rewrite (ssd_perm l l' H), (Permutation_length H). Qed.
Lemma tstd_perm (l l' : list R) : Permutation l l' -> tstd l = tstd l'.
Proof. intro H. unfold tstd. now rewrite (ssd_perm l l' H), (Permutation_length H). Qed.

Section Label.
  Context (N : nat) (s : nat -> nat) (Hs : renumbering N s).
  Notation cols := (columns_renumbered N s).
  Notation old := (old N s).

  Lemma s_lt i : (i < N)%nat -> (s i < N)%nat. Proof. apply Hs. Qed.
  Lemma old_lt n i : (i < n)%nat -> (old n i < n)%nat.
  Proof. intro H. unfold LabelSpec.old. destruct (Nat.eqb_spec n N); [subst; now apply s_lt|auto]. Qed.
  Lemma seq_perm n : Permutation (map (old n) (seq 0 n)) (seq 0 n).
  Proof.
    unfold LabelSpec.old. destruct (Nat.eqb_spec n N) as [->|]; [|now rewrite map_id].
    apply NoDup_Permutation_bis.
    - assert (G : forall k m, (k + m <= N)%nat -> NoDup (map s (seq k m))).
      { intros k m. revert k. induction m; intros k Hk; cbn; constructor; [|apply IHm; lia].
        intro Q. apply in_map_iff in Q. destruct Q as (x & E & Q). apply in_seq in Q. apply Hs in E; lia. }
      apply G. lia.
    - rewrite map_length. lia.
    - intros x Hx. apply in_map_iff in Hx. destruct Hx as (y & <- & Hy). apply in_seq in Hy. apply in_seq. pose proof (s_lt y). lia.
  Qed.
  Lemma map_perm {A} n (f : nat -> A) : Permutation (map (fun i => f (old n i)) (seq 0 n)) (map f (seq 0 n)).
  Proof. rewrite <- (map_map (old n) f). apply Permutation_map, seq_perm. Qed.
  Lemma sumn_old n f : sumn n (fun i => f (old n i)) = sumn n f.
  Proof. rewrite <- !nsum_seq. apply nsum_perm, map_perm. Qed.
  Lemma sumn_s f : sumn N (fun i => f (s i)) = sumn N f.
  Proof. rewrite <- (sumn_old N f). apply sumn_ext. intros. unfold LabelSpec.old. now rewrite Nat.eqb_refl. Qed.
  (** broadcasting *)
  Lemma old_bidx a b j : bok a b = true -> (j < bdim a b)%nat -> bidx a (old (bdim a b) j) = old a (bidx a j) /\ bidx b (old (bdim a b) j) = old b (bidx b j).
  Proof.
    intros H Hj. apply bok_spec in H. unfold bdim, bidx, LabelSpec.old in *. pose proof (s_lt j). pose proof (s_lt 0).
    destruct (Nat.eqb_spec a 1) as [E1|E1], (Nat.eqb_spec b 1) as [E2|E2], (Nat.eqb_spec a N) as [E3|E3], (Nat.eqb_spec b N) as [E4|E4]; subst; split; try lia;
      try (assert (s 0 = 0)%nat by lia; congruence).
  Qed.
  Lemma old_bidx1 a r j : (a = r \/ a = 1)%nat -> (j < r)%nat -> bidx a (old r j) = old a (bidx a j).
  Proof.
    intros H Hj. unfold bidx, LabelSpec.old. pose proof (s_lt j). pose proof (s_lt 0). destruct (Nat.eqb_spec a 1), (Nat.eqb_spec r N), (Nat.eqb_spec a N); subst; try lia.
  Qed.
  Lemma cols_mk r c f f' : (forall i j, (i < r)%nat -> (j < c)%nat -> f' i j = f i (old c j)) -> cols (mk r c f) (mk r c f').
  Proof. intro H. split; [reflexivity|]. split; [reflexivity|]. intros i j Hi Hj. cbn [mk mr mc] in *. rewrite !get_mk by (auto using old_lt). auto. Qed.
  Lemma cols_bc2 op A A' B B' : cols A A' -> cols B B' -> same_outcome cols (bc2 op A B) (bc2 op A' B').
  Proof.
    intros (A1 & A2 & A3) (B1 & B2 & B3). unfold bc2. rewrite A1, A2, B1, B2. destruct (bok (mr A) (mr B)) eqn:E1, (bok (mc A) (mc B)) eqn:E2; cbn [andb]; try reflexivity.
    cbn [same_outcome]. apply cols_mk. intros i j Hi Hj. unfold bget. rewrite A1, A2, B1, B2. destruct (old_bidx _ _ j E2 Hj) as (-> & ->).
    rewrite A3, B3; eauto using bidx_bound_l, bidx_bound_r.
  Qed.
  Lemma cols_mmap1 f A A' : cols A A' -> cols (mmap1 f A) (mmap1 f A').
  Proof. intros (H1 & H2 & H3). unfold mmap1. rewrite H1, H2. apply cols_mk. intros. now rewrite H3. Qed.
  Lemma cols_assign r c A A' : cols A A' -> same_outcome (fun B B' => cols B B' /\ mr B = r /\ mc B = c /\ wf B /\ wf B') (assign_shape r c A) (assign_shape r c A').
  Proof.
    intros (H1 & H2 & H3). unfold assign_shape. rewrite H1, H2. destruct (((mr A =? r)%nat || (mr A =? 1)%nat) && ((mc A =? c)%nat || (mc A =? 1)%nat)) eqn:C; [|reflexivity].
    apply andb_prop in C. destruct C as (C1 & C2). apply orb_prop in C1, C2. rewrite !Nat.eqb_eq in *. cbn [same_outcome].
    split; [|split; [reflexivity|split; [reflexivity|split; apply wf_mk]]]. apply cols_mk. intros i j Hi Hj. unfold bget. rewrite H1, H2, H3 by eauto using bidx_bound_a.
    now rewrite (old_bidx1 (mc A) c j).
  Qed.
  Lemma cols_row A A' d : cols A A' -> (d < mr A)%nat -> Permutation (row A' d) (row A d).
  Proof.
    intros (H1 & H2 & H3) Hd. unfold row. rewrite H2. rewrite (map_seq_ext (get A' d) (fun j => get A d (old (mc A) j))) by (intros; now apply H3). apply map_perm.
  Qed.
  Lemma std1_cols A A' : cols A A' -> std1 A' = std1 A.
  Proof. intro H. pose proof H as (H1 & _). unfold std1. rewrite H1. apply map_seq_ext. intros i Hi. now apply nstd_perm, cols_row. Qed.
  Lemma two_std_cols A A' : cols A A' -> two_std A' = two_std A.
  Proof. intro H. unfold two_std. now rewrite (std1_cols A A' H). Qed.
  Lemma own_bnds_cols A A' : cols A A' -> own_bnds A' = own_bnds A.
  Proof.
    intro H. pose proof H as (H1 & _). unfold own_bnds. rewrite H1. apply rmapM_ext. intros i Hi. apply in_seq in Hi.
    now rewrite (lmin_perm _ _ (cols_row A A' i H ltac:(lia))), (lmax_perm _ _ (cols_row A A' i H ltac:(lia))).
  Qed.
  Lemma inter_bnd_cols A A' B B' i : cols A A' -> cols B B' -> (i < mr A)%nat -> (i < mr B)%nat -> inter_bnd A' B' i = inter_bnd A B i.
  Proof.
    intros HA HB H1 H2. unfold inter_bnd. now rewrite (lmin_perm _ _ (cols_row A A' i HA H1)), (lmax_perm _ _ (cols_row A A' i HA H1)), (lmin_perm _ _ (cols_row B B' i HB H2)), (lmax_perm _ _ (cols_row B B' i HB H2)).
  Qed.
  Lemma inter_bnds_cols d A A' B B' : cols A A' -> cols B B' -> (d <= mr A)%nat -> (d <= mr B)%nat -> inter_bnds d A' B' = inter_bnds d A B.
  Proof. intros HA HB H1 H2. unfold inter_bnds. apply rmapM_ext. intros i Hi. apply in_seq in Hi. apply inter_bnd_cols; auto; lia. Qed.

  (** *** arrays whose rows belong to the particles *)
  Definition rows (A A' : mat R) : Prop :=
    mr A' = mr A /\ mc A' = mc A /\ forall i j, (i < mr A)%nat -> (j < mc A)%nat -> get A' i j = get A (old (mr A) i) j.
  Lemma rows_mk r c f f' : (forall i j, (i < r)%nat -> (j < c)%nat -> f' i j = f (old r i) j) -> rows (mk r c f) (mk r c f').
  Proof. intro H. split; [reflexivity|]. split; [reflexivity|]. intros i j Hi Hj. cbn [mk mr mc] in *. rewrite !get_mk by (auto using old_lt). auto. Qed.
  Lemma cols_mT A A' : cols A A' -> rows (mT A) (mT A').
  Proof. intros (H1 & H2 & H3). unfold mT. rewrite H1, H2. apply rows_mk. intros. now apply H3. Qed.
  Lemma rows_bc2 op A A' B B' : rows A A' -> rows B B' -> same_outcome rows (bc2 op A B) (bc2 op A' B').
  Proof.
    intros (A1 & A2 & A3) (B1 & B2 & B3). unfold bc2. rewrite A1, A2, B1, B2. destruct (bok (mr A) (mr B)) eqn:E1, (bok (mc A) (mc B)) eqn:E2; cbn [andb]; try reflexivity.
    cbn [same_outcome]. apply rows_mk. intros i j Hi Hj. unfold bget. rewrite A1, A2, B1, B2. destruct (old_bidx _ _ i E1 Hi) as (-> & ->).
    rewrite A3, B3; eauto using bidx_bound_l, bidx_bound_r.
  Qed.
  Lemma rows_mmap1 f A A' : rows A A' -> rows (mmap1 f A) (mmap1 f A').
  Proof. intros (H1 & H2 & H3). unfold mmap1. rewrite H1, H2. apply rows_mk. intros. now rewrite H3. Qed.
  Lemma rows_mmul A A' B : rows A A' -> same_outcome rows (mmul A B) (mmul A' B).
  Proof.
    intros (H1 & H2 & H3). unfold mmul. rewrite H1, H2. destruct (mc A =? mr B)%nat; [|reflexivity]. cbn [same_outcome]. apply rows_mk. intros i j Hi Hj.
    rewrite !nsum_seq. apply sumn_ext. intros l Hl. now rewrite H3.
  Qed.
  Lemma rows_gram A A' : rows A A' -> mmul (mT A') A' = mmul (mT A) A.
  Proof.
    intros (H1 & H2 & H3). unfold mmul. cbn [mT mk mr mc]. rewrite H1, H2, Nat.eqb_refl. f_equal. apply mk_ext. intros i j Hi Hj. fold (mT A). fold (mT A'). rewrite !nsum_seq.
    rewrite <- (sumn_old (mr A) (fun k => nmul (get (mT A) i k) (get A k j))). apply sumn_ext. intros k Hk. rewrite !get_mT by (try rewrite H1; try rewrite H2; auto using old_lt). now rewrite !H3.
  Qed.
  Lemma rows_sum0 A A' : rows A A' -> sum0 A' = sum0 A.
  Proof.
    intros (H1 & H2 & H3). unfold sum0. rewrite H2. apply mk_ext. intros j i Hj _. unfold col. rewrite !nsum_seq, H1. rewrite <- (sumn_old (mr A) (fun i => get A i j)).
    apply sumn_ext. intros. now apply H3.
  Qed.
  Definition lrows (l l' : list R) : Prop := List.length l' = List.length l /\ forall i, (i < List.length l)%nat -> nth i l' 0 = nth (old (List.length l) i) l 0.
  Lemma lrows_vec l l' : lrows l l' -> cols (vec l) (vec l').
  Proof. intros (H1 & H2). unfold vec. rewrite H1. apply cols_mk. intros i j _ Hj. now apply H2. Qed.
  Lemma rows_flat A A' : rows A A' -> (0 < mc A)%nat -> lrows (flat A) (flat A').
  Proof.
    intros (H1 & H2 & H3) H0. unfold flat. split; [now rewrite !col_length|]. rewrite col_length. intros i Hi. rewrite !nth_col by (try rewrite H1; auto using old_lt). now apply H3.
  Qed.

  (** *** score estimates *)
  Lemma rows_sqdist x x' y i j : rows x x' -> (i < mr x)%nat -> sqdist x' y i j = sqdist x y (old (mr x) i) j.
  Proof. intros (H1 & H2 & H3) Hi. unfold sqdist. rewrite H2. f_equal. apply map_seq_ext. intros k Hk. now rewrite H3. Qed.
  Lemma rows_cdist x x' y : rows x x' -> same_outcome rows (cdist_sq x y) (cdist_sq x' y).
  Proof.
    intro H. pose proof H as (H1 & H2 & _). unfold cdist_sq. rewrite H1, H2. destruct (mc x =? mc y)%nat; [|reflexivity]. cbn [same_outcome]. apply rows_mk. intros. now apply rows_sqdist.
  Qed.
  Lemma rows_column x x' ii : rows x x' -> same_outcome rows (column x ii) (column x' ii).
  Proof.
    intros (H1 & H2 & H3). unfold column. rewrite H1, H2. destruct (Nat.ltb_spec ii (mc x)); [|reflexivity]. cbn [same_outcome]. apply rows_mk. intros. now apply H3.
  Qed.
  Lemma rows_colslice x x' ii : rows x x' -> rows (colslice x ii) (colslice x' ii).
  Proof.
    intros (H1 & H2 & H3). unfold colslice. rewrite H1, H2. destruct (Nat.ltb_spec ii (mc x)); apply rows_mk; intros; auto.
  Qed.
  Lemma rows_rbf l A A' : rows A A' -> rows (rbf_of_sq l A) (rbf_of_sq l A').
  Proof. apply rows_mmap1. Qed.
  Lemma rows_K_sep x x' y ls : rows x x' -> same_outcome rows (K_sep x y (LVec ls)) (K_sep x' y (LVec ls)).
  Proof.
    intros H. cbn [K_sep]. pose proof H as (H1 & _). rewrite H1. apply (so_rfold eq rows); [now apply Forall2_refl| |].
    - unfold mones, mconst. apply rows_mk. reflexivity.
    - intros b b' [ii li] _ _ <- Hb. eapply so_bind; [apply (rows_cdist _ _ _ (rows_colslice x x' ii H))|]. intros t t' Ht. apply rows_bc2; auto using rows_rbf.
  Qed.
  Lemma rows_Ksz Zp ls x x' : rows x x' -> same_outcome rows (Ksz_vec Zp ls x) (Ksz_vec Zp ls x').
  Proof.
    intro H. unfold Ksz_vec. pose proof H as (_ & H2 & _). rewrite H2. eapply so_bind; [apply (so_rmapM eq rows); [now apply Forall2_refl|]|].
    - intros ii _ _ <-. eapply so_bind; [apply (rows_column x x' ii H)|]. intros xi xi' Hxi. eapply so_bind; [apply so_eq; reflexivity|]. intros zi _ <-.
      eapply so_bind; [apply (rows_cdist xi xi' zi Hxi)|]. intros c c' Hc. eapply so_bind; [apply so_eq; reflexivity|]. intros li _ <-. cbn [same_outcome]. now apply rows_rbf.
    - intros fs fs' Hf. destruct Hf as [|f f' fs fs' Hf Hfs]; [reflexivity|]. apply (so_rfold rows rows); auto. intros. now apply rows_bc2.
  Qed.
  Lemma rows_diffs x x' y ii : rows x x' -> same_outcome rows (diffs_at x y ii) (diffs_at x' y ii).
  Proof.
    intros (H1 & H2 & H3). unfold diffs_at. rewrite H1, H2. destruct (bok (mc x) (mc y)) eqn:E1; [|reflexivity]. destruct (pyidx (bdim (mc x) (mc y)) ii) as [k|] eqn:J; [|reflexivity].
    apply pyidx_some in J. destruct J as (J & _). cbn [same_outcome]. apply rows_mk. intros i j Hi Hj. rewrite H3 by eauto using bidx_bound_l. reflexivity.
  Qed.
  Lemma rows_grdx x x' y ls d : rows x x' -> same_outcome rows (grdx_K K_sep x y (LVec ls) d) (grdx_K K_sep x' y (LVec ls) d).
  Proof.
    intro H. unfold grdx_K. eapply so_bind; [apply (rows_diffs x x' y _ H)|]. intros D D' HD. eapply so_bind; [apply (rows_K_sep x x' y ls H)|]. intros k k' Hk.
    eapply so_bind; [apply (rows_bc2 nmul D D' k k' HD Hk)|]. intros p p' Hp. eapply so_bind; [apply so_eq; reflexivity|]. intros l2 _ <-. cbn [same_outcome]. now apply rows_mmap1.
  Qed.
  Context {S : Type} (E E' : Ext R S) (HE : env_renumbered N s E E').
  Lemma linalg_inv_same A : linalg_inv E' A = linalg_inv E A.
  Proof. unfold linalg_inv. now rewrite (er_inv _ _ _ _ HE). Qed.
  Lemma reg_inv_same Ks M : reg_inv E' Ks M = reg_inv E Ks M.
  Proof. unfold reg_inv. destruct (bc2 nadd Ks (smul nmilli (eye M))); [apply linalg_inv_same|reflexivity]. Qed.
  Lemma inner_inv_same C M Ki A : inner_inv E' C M Ki A = inner_inv E C M Ki A.
  Proof.
    unfold inner_inv. destruct (mmul Ki A); [|reflexivity]. cbn [rbind]. destruct (bc2 nadd (smul C (eye M)) a); [|reflexivity]. cbn [rbind].
    destruct (bc2 nadd a0 (smul nmilli (eye M))); [apply linalg_inv_same|reflexivity].
  Qed.
  Definition prep_rel (P P' : mat R * mat R * mat R * mat R) : Prop :=
    match P, P' with (a, b, c, u), (a', b', c', u') => rows a a' /\ b' = b /\ c' = c /\ u' = u /\ mc u = 1%nat end.
  Lemma prep_rows kern X X' Zp ls d : kern <> "periodic" -> rows X X' ->
    same_outcome prep_rel (prep E (K_of kern) (grdx_of kern) X Zp (LVec ls) d) (prep E' (K_of kern) (grdx_of kern) X' Zp (LVec ls) d).
  Proof.
    intros Hk Hx. unfold prep, K_of, grdx_of. destruct (String.eqb_spec kern "RBF") as [_|_].
    2:{ destruct (String.eqb_spec kern "periodic"); [contradiction|]. reflexivity. }
    eapply so_bind; [apply (rows_K_sep X X' Zp ls Hx)|]. intros Kxz Kxz' HK. eapply so_bind; [apply so_eq; reflexivity|]. intros Ks _ <-.
    rewrite reg_inv_same. eapply so_bind; [apply so_eq; reflexivity|]. intros Ki _ <-. rewrite (rows_gram Kxz Kxz' HK). eapply so_bind; [apply so_eq; reflexivity|]. intros A _ <-.
    eapply so_bind; [apply (rows_grdx X X' Zp ls d Hx)|]. intros G G' HG. cbn [same_outcome prep_rel]. rewrite (rows_sum0 (mopp G) (mopp G') (rows_mmap1 nopp G G' HG)). auto.
  Qed.
  Lemma mmul_mc (A B C : mat R) : mmul A B = Ok C -> mc C = mc B.
  Proof. unfold mmul. destruct (mc A =? mr B)%nat; [|discriminate]. intro H. injection H as <-. reflexivity. Qed.
  (** score at the (renumbered) samples themselves: renumbered *)
  Lemma score_rows kern C X X' Zp ls d : kern <> "periodic" -> rows X X' ->
    same_outcome lrows (score_function_multid_seperate E X Zp C kern (LVec ls) d) (score_function_multid_seperate E' X' Zp C kern (LVec ls) d).
  Proof.
    intros Hk Hx. unfold score_function_multid_seperate. eapply so_bind; [apply (prep_rows kern X X' Zp ls d Hk Hx)|].
    intros [[[a b] c] u] [[[a' b'] c'] u'] (Ha & -> & -> & -> & Hu). apply (so_rmap (fun A A' => rows A A' /\ mc A = 1%nat)).
    - unfold eval_at_samples. rewrite inner_inv_same. eapply so_bind; [apply so_eq; reflexivity|]. intros inn _ <-.
      eapply so_bind; [apply (rows_mmul _ _ inn (rows_mmap1 nopp a a' Ha))|]. intros m m' Hm. eapply so_bind; [apply (rows_mmul m m' b Hm)|]. intros m1 m1' Hm1.
      eapply so_with; [apply (rows_mmul m1 m1' u Hm1)|]. intros q q' Q _ Hq. split; [exact Hq|]. apply mmul_mc in Q. congruence.
    - intros A A' (HA & H1). apply rows_flat; [exact HA|lia].
  Qed.
  (** the returned function: the same function; on renumbered points it gives the renumbered values *)
  Definition fun_rel (fn fn' : mat R -> res (list R)) : Prop :=
    (forall x, fn' x = fn x) /\ forall x x', rows x x' -> same_outcome lrows (fn x) (fn' x').
  Lemma score_fun_rows kern C X X' Zp ls d : kern <> "periodic" -> rows X X' ->
    same_outcome fun_rel (score_function_multid_seperate_fun E X Zp C kern (LVec ls) d) (score_function_multid_seperate_fun E' X' Zp C kern (LVec ls) d).
  Proof.
    intros Hk Hx. unfold score_function_multid_seperate_fun. eapply so_bind; [apply (prep_rows kern X X' Zp ls d Hk Hx)|].
    intros [[[a b] c] u] [[[a' b'] c'] u'] (Ha & -> & -> & -> & Hu). cbn [same_outcome]. split.
    - intro x. unfold eval_fun. rewrite inner_inv_same. reflexivity.
    - intros x x' Hx'. apply (so_rmap (fun A A' => rows A A' /\ mc A = 1%nat)).
      + unfold eval_fun. rewrite inner_inv_same. eapply so_bind.
        { unfold Ksz_of. destruct (String.eqb kern "RBF"); [cbn [Ksz]; apply (rows_Ksz Zp ls x x' Hx')|]. destruct (String.eqb_spec kern "periodic"); [contradiction|reflexivity]. }
        intros k k' Hk'. eapply so_bind; [apply so_eq; reflexivity|]. intros inn _ <-. eapply so_bind; [apply (rows_mmul k k' (mopp inn) Hk')|]. intros m m' Hm.
        eapply so_bind; [apply (rows_mmul m m' b Hm)|]. intros m1 m1' Hm1. eapply so_with; [apply (rows_mmul m1 m1' u Hm1)|]. intros q q' Q _ Hq. split; [exact Hq|]. apply mmul_mc in Q. congruence.
      + intros A A' (HA & H1). apply rows_flat; [exact HA|lia].
  Qed.
  Lemma fill_rows_cols n (f f' : nat -> res (list R)) d : (forall i, (i < d)%nat -> same_outcome lrows (f i) (f' i)) ->
    same_outcome cols (fill_rows d n f) (fill_rows d n f').
  Proof.
    intro H. unfold fill_rows. eapply so_weaken; [apply (so_rfold_seq (fun _ => cols))|auto].
    - apply cols_mk. reflexivity.
    - intros i A A' Hi (A1 & A2 & A3). eapply so_bind; [apply H, Hi|]. intros r r' Hr. unfold setrow. rewrite A1, A2. destruct (pyidx (mr A) (Z.of_nat i)) as [j|]; [|reflexivity].
      eapply so_bind; [apply (cols_assign 1 (mc A) _ _ (lrows_vec r r' Hr))|]. intros v v' ((V1 & V2 & V3) & V4 & V5 & _). cbn [same_outcome]. apply cols_mk. intros a b Ha Hb.
      destruct (a =? j)%nat; [rewrite V3 by lia; now rewrite V5|now apply A3].
  Qed.
  Lemma uniform_same lo hi m : uniform E' lo hi m = uniform E lo hi m.
  Proof. unfold uniform. now rewrite (er_uniform _ _ _ _ HE). Qed.
  Lemma sample_box_same m bs : sim eq (sample_box E m bs) (sample_box E' m bs).
  Proof.
    unfold sample_box. eapply sim_bind; [apply (sim_mmap eq eq); [now apply Forall2_refl|]|].
    - intros b _ _ <- st. rewrite uniform_same. split; [now apply so_eq|reflexivity].
    - intros r r' Hr. apply sim_ret. replace r' with r; [reflexivity|]. induction Hr; congruence.
  Qed.
  Lemma normal_cols sc d : sim cols (normal E sc d N) (normal E' sc d N).
  Proof.
    intro st. unfold normal. destruct (er_normal _ _ _ _ HE st sc d) as (H1 & H2). destruct (x_normal E st sc d N) as [h st1], (x_normal E' st sc d N) as [h' st2]. cbn [fst snd] in *.
    split; [|exact H1]. cbn [same_outcome]. apply cols_mk. intros i j Hi Hj. unfold LabelSpec.old. rewrite Nat.eqb_refl. now apply H2.
  Qed.
End Label.
