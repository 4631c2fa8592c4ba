(** The PyTorch estimator and class on renumbered ensembles (no modelling content). *)
From Coq Require Import String List ZArith Reals Lra Lia Bool Permutation.
From Verif Require Import Base.Num Base.Py Base.Arr Lib.ArrLemmas Model.Ext Model.Cdist Model.Reweight Model.Score Model.ScoreTorch Model.DPFC Model.TDPFC.
From Verif Require Import Spec.FlowSpec Spec.RealSpec Spec.Contracts Spec.AffineSpec Spec.LabelSpec Lib.FlowLemmas Lib.StepLemmas Lib.RSum Lib.RBase Lib.Sim Lib.AffineLemmas Lib.TAffineScore Lib.LabelLemmas Lib.LabelRun.
Import ListNotations.
Local Open Scope string_scope.
Local Open Scope R_scope.

Section TScore.
  Context (N : nat) (s : nat -> nat) (Hs : renumbering N s).
  Notation cols := (columns_renumbered N s).
  Notation rows := (rows N s).
  Notation lrows := (lrows N s).
  Notation old := (old N s).
  Lemma rows_mT A A' : rows A A' -> cols (mT A) (mT A').
  Proof. intros (H1 & H2 & H3). unfold mT. rewrite H1, H2. apply (cols_mk N s Hs). intros. now apply H3. Qed.
  Lemma diff3_rows X X' Y i j k : rows X X' -> (i < mr X)%nat -> (k < bdim (mc X) (mc Y))%nat -> bok (mc X) (mc Y) = true -> diff3 X' Y i j k = diff3 X Y (old (mr X) i) j k.
  Proof. intros (H1 & H2 & H3) Hi Hk Hb. unfold diff3. rewrite H2, H3 by eauto using bidx_bound_l. reflexivity. Qed.
  Lemma rbf_vals_rows l X X' Y : rows X X' -> same_outcome rows (rbf_vals l X Y) (rbf_vals l X' Y).
  Proof.
    intro H. pose proof H as (H1 & H2 & _). unfold rbf_vals. rewrite H1, H2. destruct (bok (mc X) (mc Y)) eqn:B1; [|reflexivity]. destruct l as [l0|ls].
    - cbn [same_outcome]. apply (rows_mk N s Hs). intros i j Hi Hj. do 4 f_equal. apply map_seq_ext. intros k Hk. now rewrite (diff3_rows X X' Y) by auto.
    - destruct (bok (bdim (mc X) (mc Y)) (List.length ls)) eqn:B2; [|reflexivity]. cbn [same_outcome]. apply (rows_mk N s Hs). intros i j Hi Hj. do 3 f_equal. apply map_seq_ext. intros k Hk.
      now rewrite (diff3_rows X X' Y) by eauto using bidx_bound_l.
  Qed.
  Lemma rbf_kvals_rows m l X X' Y : rows X X' -> same_outcome rows (rbf_kvals m l X Y) (rbf_kvals m l X' Y).
  Proof.
    intro H. destruct m; [now apply rbf_vals_rows|]. destruct l as [l0|ls]; [now apply rbf_vals_rows|]. cbn [rbf_kvals]. pose proof H as (H1 & H2 & _). unfold rbf_cols. rewrite H1, H2.
    destruct (bok (mc X) (mc Y)) eqn:B1; [|reflexivity]. destruct (bok (mr Y) (List.length ls)) eqn:B2; [|reflexivity]. cbn [andb same_outcome]. apply (rows_mk N s Hs). intros i j Hi Hj. do 4 f_equal.
    apply map_seq_ext. intros k Hk. now rewrite (diff3_rows X X' Y) by auto.
  Qed.
  Definition rb_rel (o o' : RBF R) : Prop := rb_l o' = rb_l o /\ rb_multil o' = rb_multil o /\ rb_sv o' = rb_sv o /\
    match rb_K o, rb_K o' with Some K, Some K' => rows K K' | None, None => True | _, _ => False end.
  Lemma kernel_rows o X X' Y : rows X X' -> same_outcome (fun r r' => rows (fst r) (fst r') /\ rb_rel (snd r) (snd r')) (RBF_Kernel o X Y) (RBF_Kernel o X' Y).
  Proof.
    intro H. unfold RBF_Kernel. eapply so_bind; [apply (rbf_kvals_rows _ _ X X' Y H)|]. intros k k' Hk. pose proof (rows_mmap1 N s Hs (nmul (rb_sv o)) k k' Hk) as Q.
    cbn [same_outcome fst snd]. split; [exact Q|]. unfold rb_rel. cbn [rb_l rb_multil rb_sv rb_K]. auto.
  Qed.
  Definition rows3 (A A' : arr3 R) : Prop := a_d A' = a_d A /\ a_n A' = a_n A /\ a_k A' = a_k A /\ List.length (a_s A) = a_k A /\
    Forall2 (fun m m' => rows m m' /\ mr m = a_d A /\ mc m = a_n A) (a_s A) (a_s A').
  Lemma gradient_rows o o' X X' Y : rb_rel o o' -> rows X X' -> same_outcome rows3 (RBF_gradient_X o X Y) (RBF_gradient_X o' X' Y).
  Proof.
    intros (O1 & O2 & O3 & O4) H. pose proof H as (H1 & H2 & _). unfold RBF_gradient_X. rewrite H1, H2, O1. destruct (bok (mc X) (mc Y)) eqn:B1; [|reflexivity].
    eapply so_bind with (P := Forall2 (fun m m' => rows m m' /\ mr m = mr X /\ mc m = mr Y)).
    - destruct (rb_l o) as [l0|ls].
      + cbn [same_outcome]. apply Forall2_seq. intros k Hk. split; [|split; reflexivity]. apply (rows_mk N s Hs). intros i j Hi Hj. now rewrite (diff3_rows X X' Y) by auto.
      + destruct (bok (bdim (mc X) (mc Y)) (List.length ls)) eqn:B2; [|reflexivity]. cbn [same_outcome]. apply Forall2_seq. intros k Hk. split; [|split; reflexivity].
        apply (rows_mk N s Hs). intros i j Hi Hj. now rewrite (diff3_rows X X' Y) by eauto using bidx_bound_l.
    - intros sl sl' Hsl. destruct (rb_K o) as [K|], (rb_K o') as [K'|]; try contradiction; [|reflexivity]. pose proof O4 as (K1 & K2 & K3). rewrite K1, K2.
      destruct (bok (mr X) (mr K)) eqn:B2; cbn [andb]; [|reflexivity]. destruct (bok (mr Y) (mc K)) eqn:B3; [|reflexivity].
      cbn [same_outcome]. pose proof (Forall2_length _ _ _ Hsl) as HL. split; [reflexivity|]. split; [reflexivity|]. split; [cbn; auto|]. split; [cbn; now rewrite map_length|]. cbn [a_s a_d a_n].
      clear HL. induction Hsl as [|m m' sl sl' (Hm & Rm & Cm) Hsl IH]; cbn [map]; constructor; [|exact IH]. split; [|split; reflexivity].
      apply (rows_mk N s Hs). intros i j Hi Hj. destruct Hm as (M1 & M2 & M3). unfold bget. rewrite M1, M2, K1, K2. destruct (old_bidx N s Hs _ _ i B2 Hi) as (Q1 & Q2). rewrite Rm, Cm, Q1, Q2.
      rewrite M3, K3; rewrite ?Rm, ?Cm; eauto using bidx_bound_l, bidx_bound_r.
  Qed.
  Lemma sum0_3_rows G G' : rows3 G G' -> sum0_3 (Arr3 (a_d G') (a_n G') (a_k G') (map mopp (a_s G'))) = sum0_3 (Arr3 (a_d G) (a_n G) (a_k G) (map mopp (a_s G))).
  Proof.
    intros (H1 & H2 & H3 & H4 & H5). unfold sum0_3. cbn [a_n a_k]. rewrite H2, H3. apply mk_ext. intros j d Hj Hd. unfold slice. cbn [a_s a_d a_n].
    pose proof (Forall2_nth' _ _ _ (mzeros 0 0) (mzeros 0 0) d H5 ltac:(lia)) as (Q & Q1 & Q2). pose proof (Forall2_length _ _ _ H5) as HL.
    rewrite (nth_indep (map mopp (a_s G)) _ (mopp (mzeros 0 0))) by (rewrite map_length; lia). rewrite (nth_indep (map mopp (a_s G')) _ (mopp (mzeros 0 0))) by (rewrite map_length; lia).
    rewrite !(map_nth mopp). apply (rows_mmap1 N s Hs nopp) in Q. fold (mopp (nth d (a_s G) (mzeros 0 0))) in Q. fold (mopp (nth d (a_s G') (mzeros 0 0))) in Q.
    set (A := mopp (nth d (a_s G) (mzeros 0 0))) in *. set (A' := mopp (nth d (a_s G') (mzeros 0 0))) in *. assert (CA : mc A = a_n G) by exact Q2.
    apply (rows_sum0 N s Hs) in Q as Q3. apply (f_equal (fun m => get m j 0)) in Q3. pose proof Q as (_ & CA' & _). unfold sum0 in Q3. rewrite !get_mk in Q3 by lia. exact Q3.
  Qed.
  Context {S : Type} (E E' : Ext R S) (HE : env_renumbered N s E E').
  Lemma tinv_same A : tinv E' A = tinv E A.
  Proof. unfold tinv. now rewrite (linalg_inv_same N s E E' HE). Qed.
  Lemma tinner_same M Ki A : tinner E' M Ki A = tinner E M Ki A.
  Proof.
    unfold tinner. destruct (tmmul Ki A); [|reflexivity]. cbn [rbind]. destruct (tbc2 nadd (smul nmilli (eye M)) a); [|reflexivity]. cbn [rbind].
    destruct (tbc2 nadd a0 (smul nmilli (eye M))); [apply tinv_same|reflexivity].
  Qed.
  Definition tprep_rel (P P' : bool * mat R * mat R * mat R * mat R) : Prop :=
    match P, P' with (m, a, b, c, u), (m', a', b', c', u') => m' = m /\ rows a a' /\ b' = b /\ c' = c /\ u' = u end.
  Lemma tprep_rows X X' Zp l : rows X X' -> same_outcome (fun P P' => tprep_rel P P' /\ mr (snd (fst (fst (fst P)))) = mr X) (tprep E X Zp l) (tprep E' X' Zp l).
  Proof.
    intro HX. unfold tprep. eapply so_bind; [apply so_eq; reflexivity|]. intros m _ <-. eapply so_bind; [apply so_eq; reflexivity|]. intros K0 _ <-.
    eapply so_bind with (P := fun r r' => (rows (fst r) (fst r') /\ rb_rel (snd r) (snd r')) /\ mr (fst r) = mr X).
    { eapply so_with; [apply (kernel_rows K0 X X' Zp HX)|]. intros r r' Q _ Hr. split; [exact Hr|]. unfold RBF_Kernel in Q. destruct (rbf_kvals (rb_multil K0) (rb_l K0) X Zp) as [k|] eqn:V; [|discriminate]. injection Q as <-. cbn [fst].
      cbn. assert (V' : rbf_vals (rb_l K0) X Zp = Ok k \/ exists ls, rbf_cols ls X Zp = Ok k) by (unfold rbf_kvals in V; destruct (rb_multil K0), (rb_l K0); eauto). clear V.
      destruct V' as [V|(ls & V)]; [|unfold rbf_cols in V; destruct (bok (mc X) (mc Zp) && bok (mr Zp) (List.length ls)); [injection V as <-; reflexivity|discriminate]]. unfold rbf_vals in V. destruct (bok (mc X) (mc Zp)); [|discriminate]. destruct (rb_l K0); [injection V as <-; reflexivity|]. destruct (bok _ _); [injection V as <-; reflexivity|discriminate]. }
    intros [kxz K1] [kxz' K1'] ((Q1 & Q2) & Q3). cbn [fst snd] in Q1, Q2, Q3. eapply so_bind; [apply so_eq; reflexivity|]. intros Kz _ <-. eapply so_bind; [apply so_eq; reflexivity|]. intros [ks K2] _ <-.
    eapply so_bind; [apply so_eq; reflexivity|]. intros a _ <-. rewrite tinv_same. eapply so_bind; [apply so_eq; reflexivity|]. intros i _ <-.
    unfold tmmul. rewrite (rows_gram N s Hs kxz kxz' Q1). eapply so_bind; [apply so_eq; reflexivity|]. intros A _ <-.
    eapply so_bind; [apply (gradient_rows K1 K1' X X' Zp); auto|]. intros G G' HG. cbn [same_outcome]. split; [|exact Q3]. cbn [tprep_rel]. rewrite (sum0_3_rows G G' HG). auto.
  Qed.
  Lemma tmmul_rows A A' B : rows A A' -> same_outcome rows (tmmul A B) (tmmul A' B).
  Proof. intro H. now apply so_tor, (rows_mmul N s Hs). Qed.
  (** score at the (renumbered) samples themselves: renumbered *)
  Lemma tscore_rows C kern X X' Zp l : rows X X' ->
    same_outcome rows (torched_score_function_multid_seperate_all_dims E X Zp l C kern) (torched_score_function_multid_seperate_all_dims E' X' Zp l C kern).
  Proof.
    intro HX. unfold torched_score_function_multid_seperate_all_dims. pose proof HX as (X1 & X2 & _). rewrite X1.
    eapply so_bind; [apply (tprep_rows X X' Zp l HX)|]. intros [[[[m a] b] c] u] [[[[m' a'] b'] c'] u'] ((-> & Ha & -> & -> & ->) & Ra). cbn [fst snd] in Ra.
    eapply so_bind; [apply (so_rmapM_seq (fun q q' => lrows q q' /\ List.length q = mr X))|].
    - intros di Hdi. rewrite tinner_same. eapply so_bind; [apply so_eq; reflexivity|]. intros inn _ <-.
      eapply so_bind with (P := fun q q' => rows q q' /\ mr q = mr X).
      { eapply so_with; [apply (tmmul_rows _ _ inn (rows_mmap1 N s Hs nopp a a' Ha))|]. intros q q' Q _ Hq. split; [exact Hq|]. unfold tmmul, mmul in Q. cbn [mmap1 mk mc mr] in Q. destruct (_ =? _)%nat; [|discriminate]. injection Q as <-. exact Ra. }
      intros q q' (Hq & Rq). eapply so_bind with (P := fun q q' => rows q q' /\ mr q = mr X).
      { eapply so_with; [apply (tmmul_rows q q' b Hq)|]. intros r r' Q _ Hr. split; [exact Hr|]. unfold tmmul, mmul in Q. destruct (_ =? _)%nat; [|discriminate]. injection Q as <-. exact Rq. }
      intros r r' (Hr & Rr). eapply so_bind with (P := fun v v' => v' = v /\ mc v = 1%nat).
      { eapply so_with; [apply so_eq; reflexivity|]. intros v _ Q _ <-. split; [reflexivity|]. unfold tcolumn, column in Q. destruct (_ <? _)%nat; [|discriminate]. injection Q as <-. reflexivity. }
      intros v _ (-> & Cv). eapply so_bind with (P := fun q q' => rows q q' /\ mr q = mr X /\ mc q = 1%nat).
      { eapply so_with; [apply (tmmul_rows r r' v Hr)|]. intros t t' Q _ Ht. split; [exact Ht|]. unfold tmmul, mmul in Q. destruct (_ =? _)%nat; [|discriminate]. injection Q as <-. cbn [mk mr mc]. auto. }
      intros t t' (Ht & Rt & Ct). cbn [same_outcome]. split; [apply (rows_flat N s Hs); [exact Ht|lia]|]. unfold flat. now rewrite col_length.
    - intros cs cs' Hcs. cbn [same_outcome]. apply (rows_mk N s Hs). intros i d Hi Hd. change nzero with 0.
      destruct (Nat.lt_ge_cases d (List.length cs)) as [H|H].
      + pose proof (Forall2_nth' _ _ _ [] [] d Hcs H) as ((_ & Q) & L). rewrite L in Q. now apply Q.
      + rewrite (nth_overflow cs), (nth_overflow cs') by (rewrite <- ?(Forall2_length _ _ _ Hcs); auto). now rewrite !nth_overflow by (cbn; lia).
  Qed.
  Lemma tKsz_rows m Zp l kern t x x' : rows x x' -> same_outcome rows (tKsz m Zp l kern t x) (tKsz m Zp l kern t x').
  Proof.
    intro Hx. unfold tKsz. destruct (String.eqb kern "RBF"); [|reflexivity]. destruct m.
    - destruct l; try reflexivity; now apply rbf_vals_rows.
    - destruct t; [reflexivity|]. destruct (tl_lscale l) as [a|[|b [|c ls]]]; now apply rbf_vals_rows.
  Qed.
  Definition tfun_rel (fn fn' : bool -> mat R -> res (mat R)) : Prop := (forall t x, fn' t x = fn t x) /\ forall t x x', rows x x' -> same_outcome rows (fn t x) (fn' t x').
  Lemma tscore_fun_rows C kern X X' Zp l : rows X X' ->
    same_outcome tfun_rel (torched_score_function_multid_seperate_all_dims_fun E X Zp l C kern) (torched_score_function_multid_seperate_all_dims_fun E' X' Zp l C kern).
  Proof.
    intro HX. unfold torched_score_function_multid_seperate_all_dims_fun. eapply so_bind; [apply (tprep_rows X X' Zp l HX)|].
    intros [[[[m a] b] c] u] [[[[m' a'] b'] c'] u'] ((-> & Ha & -> & -> & ->) & Ra). cbn [same_outcome]. split.
    - intros t x. destruct (tKsz m Zp l kern t x); [|reflexivity]. cbn [rbind]. now rewrite tinner_same.
    - intros t x x' Hx. eapply so_bind; [apply tKsz_rows, Hx|]. intros k k' Hk. rewrite tinner_same. eapply so_bind; [apply so_eq; reflexivity|]. intros inn _ <-.
      eapply so_bind; [apply tmmul_rows, Hk|]. intros q q' Hq. eapply so_bind; [apply tmmul_rows, Hq|]. intros r r' Hr. now apply tmmul_rows.
  Qed.
  Lemma tstd1_cols A A' : cols A A' -> tstd1 A' = tstd1 A.
  Proof. intro H. pose proof H as (H1 & _). unfold tstd1. rewrite H1. apply map_seq_ext. intros i Hi. now apply tstd_perm, (cols_row N s Hs). Qed.
  Lemma two_tstd_cols A A' : cols A A' -> two_tstd A' = two_tstd A.
  Proof. intro H. unfold two_tstd. now rewrite (tstd1_cols A A' H). Qed.
  Lemma t_sample_box_same m bs : sim eq (t_sample_box E m bs) (t_sample_box E' m bs).
  Proof.
    intro st. unfold t_sample_box. destruct (forallb _ bs); [|split; reflexivity]. rewrite (er_tuniform _ _ _ _ HE). destruct (x_tuniform E st _ _ m) as [h st']. split; reflexivity.
  Qed.
  Lemma hull_bnd_cols z z' b b' i : cols z z' -> cols b b' -> (i < mr z)%nat -> (i < mr b)%nat -> hull_bnd z' b' i = hull_bnd z b i.
  Proof.
    intros HA HB H1 H2. unfold hull_bnd. now rewrite (lmin_perm _ _ (cols_row N s Hs z z' i HA H1)), (lmax_perm _ _ (cols_row N s Hs z z' i HA H1)), (lmin_perm _ _ (cols_row N s Hs b b' i HB H2)), (lmax_perm _ _ (cols_row N s Hs b b' i HB H2)).
  Qed.
  Lemma hull_bnds_cols d z z' b b' : cols z z' -> cols b b' -> (d <= mr z)%nat -> (d <= mr b)%nat -> hull_bnds d z' b' = hull_bnds d z b.
  Proof. intros HA HB H1 H2. unfold hull_bnds. apply rmapM_ext. intros i Hi. apply in_seq in Hi. apply hull_bnd_cols; auto; lia. Qed.
  Lemma dens_bnds_cols d z z' b b' : cols z z' -> cols b b' -> (d <= mr z)%nat -> (d <= mr b)%nat -> rmapM (dens_bnd z' b') (seq 0 d) = rmapM (dens_bnd z b) (seq 0 d).
  Proof.
    intros HA HB H1 H2. apply rmapM_ext. intros i Hi. apply in_seq in Hi. unfold dens_bnd. rewrite (hull_bnd_cols z z' b b' i) by (auto; lia).
    now rewrite (lmin_perm _ _ (cols_row N s Hs z z' i HA ltac:(lia))), (lmax_perm _ _ (cols_row N s Hs z z' i HA ltac:(lia))), (lmin_perm _ _ (cols_row N s Hs b b' i HB ltac:(lia))), (lmax_perm _ _ (cols_row N s Hs b b' i HB ltac:(lia))).
  Qed.
  Lemma tbc_cols op A A' B B' : cols A A' -> cols B B' -> same_outcome cols (tbc2 op A B) (tbc2 op A' B').
  Proof. intros. now apply so_tor, (cols_bc2 N s Hs). Qed.

  (** *** steps *)
  Context (dim : nat).
  Notation ens := (ens N s dim).
  Notation alike := (alike N s dim).
  Context (g : mat R) (Hg : cols g g).
  Lemma t_f_label m fd x x' t : alike fd -> ens x x' -> sim cols (t_f_seperate E m g fd x t) (t_f_seperate E' m g fd x' t).
  Proof.
    intros Hf Hx. pose proof Hx as (Cx & _). unfold t_f_seperate, t_own_bnds. rewrite (own_bnds_cols N s Hs x x' Cx), (two_tstd_cols x x' Cx).
    eapply sim_bind; [apply sim_lift, so_eq; reflexivity|]. intros bs _ <-. eapply sim_bind; [apply t_sample_box_same|]. intros Sx _ <-.
    eapply sim_bind; [apply sim_lift, tscore_rows, (cols_mT N s Hs), Cx|]. intros G G' HG. eapply sim_bind; [apply sim_lift, (fd_rel N s dim fd x x' t Hf Hx)|]. intros F F' HF. apply sim_lift.
    eapply so_bind; [apply tbc_cols; [apply (cols_mmap1 N s Hs), (cols_mmap1 N s Hs), Hg|apply rows_mT, HG]|]. intros C C' HC. now apply tbc_cols.
  Qed.
  Lemma t_em_label fd x x' t : alike fd -> ens x x' -> sim cols (t_em_step E g fd dim N x t) (t_em_step E' g fd dim N x' t).
  Proof.
    intros Hf Hx. unfold t_em_step. eapply sim_bind; [apply sim_lift, (fd_rel N s dim fd x x' _ Hf Hx)|]. intros F F' HF.
    eapply sim_bind; [apply sim_lift, tbc_cols; [apply Hx|apply (cols_mmap1 N s Hs), HF]|]. intros A A' HA.
    eapply sim_bind; [apply (normal_cols N s Hs E E' HE)|]. intros W W' HW. apply sim_lift. eapply so_bind; [apply tbc_cols; [exact Hg|exact HW]|]. intros B B' HB. now apply tbc_cols.
  Qed.
  Lemma t_det_label m fd x x' t : alike fd -> ens x x' -> sim cols (t_det_step (t_f_seperate E m g fd) x t) (t_det_step (t_f_seperate E' m g fd) x' t).
  Proof.
    intros Hf Hx. unfold t_det_step. eapply sim_bind; [apply t_f_label; auto|]. intros D D' HD. apply sim_lift, tbc_cols; [apply Hx|now apply (cols_mmap1 N s Hs)].
  Qed.
  Lemma sqdist_old x x' i j : ens x x' -> (i < N)%nat -> (j < N)%nat -> sqdist (mT x') (mT x') i j = sqdist (mT x) (mT x) (s i) (s j).
  Proof.
    intros Hx Hi Hj. pose proof Hx as ((X1 & X2 & X3) & Wx & Wx' & Rx & Cx). pose proof (proj1 Hs i Hi). pose proof (proj1 Hs j Hj).
    unfold sqdist. cbn [mT mk mc]. fold (mT x) (mT x'). rewrite X1. f_equal. apply map_seq_ext. intros d Hd. rewrite !get_mT by lia. now rewrite !(ens_get N s dim x x' d) by (auto; lia).
  Qed.
  Lemma flat_map_perm {A B} (f f' : A -> list B) l : (forall a, In a l -> Permutation (f a) (f' a)) -> Permutation (flat_map f l) (flat_map f' l).
  Proof. induction l as [|a l IH]; intro H; cbn; [constructor|]. apply Permutation_app; [apply H; now left|]. apply IH. intros. apply H. now right. Qed.
  Lemma t_cost_label x x' : ens x x' ->
    same_outcome (fun C C' => mr C = N /\ mc C = N /\ mr C' = N /\ mc C' = N /\ rect C /\ rect C' /\ forall i j, (i < N)%nat -> (j < N)%nat -> get C' i j = get C (s i) (s j)) (t_cost x) (t_cost x').
  Proof.
    intros Hx. pose proof Hx as ((X1 & X2 & X3) & Wx & Wx' & Rx & Cx). unfold t_cost, ot_dist, cdist_sq. rewrite !Nat.eqb_refl. cbn [rbind].
    change (mr (mT x)) with (mc x). change (mr (mT x')) with (mc x'). rewrite X2, Cx. set (D := mk N N (fun i j => sqdist (mT x) (mT x) i j)). set (D' := mk N N (fun i j => sqdist (mT x') (mT x') i j)).
    assert (HD : forall i j, (i < N)%nat -> (j < N)%nat -> get D' i j = get D (s i) (s j)).
    { intros i j Hi Hj. unfold D, D'. rewrite !get_mk by (auto; now apply Hs). now apply sqdist_old. }
    replace (lmax (flat_map (row D') (seq 0 (mr D')))) with (lmax (flat_map (row D) (seq 0 (mr D)))).
    - eapply so_bind; [apply so_eq; reflexivity|]. intros mx _ <-. cbn [same_outcome]. do 4 (split; [reflexivity|]). split; [apply wf_rect, wf_mmap1|]. split; [apply wf_rect, wf_mmap1|].
      intros i j Hi Hj. unfold divs. rewrite !get_mmap1 by (cbn; auto; now apply Hs). now rewrite HD.
    - symmetry. apply lmax_perm. change (mr D') with N. change (mr D) with N. transitivity (flat_map (fun i => row D (s i)) (seq 0 N)).
      + apply flat_map_perm. intros i Hi. apply in_seq in Hi. unfold row. change (mc D') with N. change (mc D) with N. rewrite (map_seq_ext (get D' i) (fun j => get D (s i) (s j))) by (intros; apply HD; lia).
        pose proof (map_perm N s Hs N (get D (s i))) as Q. unfold LabelSpec.old in Q. rewrite Nat.eqb_refl in Q. exact Q.
      + assert (F : forall l, flat_map (fun i => row D (s i)) l = flat_map (row D) (map s l)) by (induction l as [|a l IH]; [reflexivity|]; cbn [flat_map map]; now rewrite IH). rewrite F.
        apply Permutation_flat_map. pose proof (seq_perm N s Hs N) as Q. unfold LabelSpec.old in Q. rewrite Nat.eqb_refl in Q. exact Q.
  Qed.
  Lemma t_reweight_label e e' x x' : cols e e' -> ens x x' -> same_outcome cols (t_reweight_slice E N e x) (t_reweight_slice E' N e' x').
  Proof.
    intros He Hx. pose proof Hx as ((X1 & X2 & X3) & Wx & Wx' & Rx & Cx). unfold t_reweight_slice. eapply so_bind; [apply so_tor, (weights_label N s Hs e e' He)|].
    intros w w' (Lw & Lw' & Hw). eapply so_bind; [apply (t_cost_label x x' Hx)|]. intros C C' (C1 & C2 & C3 & C4 & C5 & C6 & C7).
    set (u := repeat (ndiv none1 (nofnat N)) N).
    assert (HT : forall i j, (i < N)%nat -> (j < N)%nat -> x_otemd E' w' u C' i j = x_otemd E w u C (s i) (s j)).
    { apply (er_otemd _ _ _ _ HE w u C w' u C'); auto; try (unfold u; now rewrite repeat_length).
      intros i Hi. unfold u. rewrite !(nth_indep _ 0 (ndiv none1 (nofnat N))) by (rewrite repeat_length; auto; now apply Hs). now rewrite !nth_repeat. }
    apply so_tor. unfold mmul. change (mc (smul (nofnat N) x)) with (mc x). change (mr (smul (nofnat N) x)) with (mr x). change (mc (smul (nofnat N) x')) with (mc x'). change (mr (smul (nofnat N) x')) with (mr x').
    cbn [mk mr mc]. rewrite X1, X2, Rx, Cx, Nat.eqb_refl. cbn [same_outcome]. apply (cols_mk N s Hs). intros d n Hd Hn. rewrite (old_N N s), !nsum_seq.
    fold (mk N N (x_otemd E w u C)) (mk N N (x_otemd E' w' u C')).
    rewrite <- (sumn_s N s Hs (fun l => nmul (get (smul (nofnat N) x) d l) (get (mk N N (x_otemd E w u C)) l (s n)))). apply sumn_ext. intros l Hl.
    pose proof (proj1 Hs l Hl). pose proof (proj1 Hs n Hn). unfold smul. rewrite !get_mmap1 by lia. rewrite !get_mk by auto. now rewrite HT, (ens_get N s dim x x' d l Hx) by auto.
  Qed.
End TScore.

Section TWhole.
  Context {S : Type} (E E' : Ext R S) (s : nat -> nat) (p : params R).
  Let N := p_N p.
  Let dim := List.length (p_y1 p).
  Context (Hs : renumbering N s) (HE : env_renumbered N s E E') (HP : label_free N s p).
  Context (grid : list R).
  Let k := List.length grid.
  Notation cols := (columns_renumbered N s).
  Notation FR := (FR N s dim k).
  Notation ens := (ens N s dim).
  Let Hg : cols (p_g p) (p_g p) := lf_g _ _ _ HP.
  Lemma FR_tsetsl A A' t y y' : FR A A' -> cols y y' -> same_outcome FR (tsetsl A t y) (tsetsl A' t y').
  Proof. intros. now apply so_tor, FR_setsl. Qed.
  Lemma t_rw_label A A' t (U : mat R -> res (mat R)) (e : mat R -> mat R) : FR A A' -> treats_alike N s dim U -> (forall u u', cols u u' -> cols (e u) (e u')) ->
    same_outcome FR (let! x := getsl A t in let! u := U x in let! y := t_reweight_slice E N (e u) x in tsetsl A t y)
      (let! x := getsl A' t in let! u := U x in let! y := t_reweight_slice E' N (e u) x in tsetsl A' t y).
  Proof.
    intros HA HU He. eapply so_bind; [apply (FR_getsl N s dim k A A' _ HA)|]. intros x x' Hx. eapply so_bind; [apply (fd_rel N s dim (fun x _ => U x) x x' 0 (fun _ => HU) Hx)|]. intros u u' Hu.
    eapply so_bind; [apply (t_reweight_label N s Hs E E' HE dim _ _ x x' (He u u' Hu) Hx)|]. intros y y' Hy. now apply FR_tsetsl.
  Qed.
  Lemma t_otto_body_label i tt A A' : FR A A' -> sim FR (t_otto_body E p A (i, tt)) (t_otto_body E' p A' (i, tt)).
  Proof.
    intros HA. unfold t_otto_body. fold dim. fold N. eapply sim_bind with (P := FR).
    - destruct (i =? 0)%nat.
      + apply sim_lift. apply (so_rfold_seq (fun _ => FR)); [exact HA|]. intros n B B' Hn HB. eapply so_bind; [apply so_eq; reflexivity|]. intros y _ <-.
        eapply so_bind; [apply (FR_setrow3 N s Hs dim k B B' n _ y HB)|]. intros C C' HC. destruct (p_brown p); [|exact HC]. eapply so_bind; [apply so_eq; reflexivity|]. intros y2 _ <-.
        now apply FR_setrow3.
      + eapply sim_bind; [apply sim_lift, (FR_getsl N s dim k A A' _ HA)|]. intros x x' Hx. eapply sim_bind with (P := cols).
        * destruct (i =? 1)%nat; [apply (t_em_label N s Hs E E' HE dim)|apply (t_det_label N s Hs E E' HE dim)]; auto; apply (f_alike s p HP).
        * intros y y' Hy. apply sim_lift. now apply FR_tsetsl.
    - intros B B' HB. destruct (p_reweight p && (0 <? i)%nat); [|now apply sim_ret]. apply sim_lift.
      apply (t_rw_label B B' (Z.of_nat i) (fun x => ocall2 (p_U p) x tt) (fun u => muls u dt) HB); [apply (lf_U _ _ _ HP)|]. intros. now apply (cols_mmap1 N s Hs).
  Qed.
  Lemma t_otto_label : sim FR (t_forward_sampling_Otto E p grid (zeros3 dim N k)) (t_forward_sampling_Otto E' p grid (zeros3 dim N k)).
  Proof.
    unfold t_forward_sampling_Otto. rewrite !enum'. apply (sim_mfold (fun _ => FR)).
    - now apply FR_zeros.
    - intros i B B' Hi HB. now apply t_otto_body_label.
  Qed.
  (** stochastic mode calls the constraint with one argument *)
  Lemma t_stoch_label : (p_reweight p = true -> treats_alike N s dim (ocall1 (p_U p))) ->
    sim FR (t_forward_sampling E p grid (zeros3 dim N k)) (t_forward_sampling E' p grid (zeros3 dim N k)).
  Proof.
    intro HU. unfold t_forward_sampling. rewrite !enum'. apply (sim_mfold (fun _ => FR)).
    - now apply FR_zeros.
    - intros i B B' Hi HB. unfold t_stoch_body. fold dim. fold N. destruct (i =? 0)%nat.
      + apply sim_lift. eapply so_bind; [apply so_eq; reflexivity|]. intros v0 _ <-. eapply so_bind; [apply (FR_setrow3 N s Hs dim k B B' 0 _ v0 HB)|]. intros C C' HC.
        eapply so_bind; [apply so_eq; reflexivity|]. intros v1 _ <-. apply (FR_setrow3 N s Hs dim k C C' 1 _ v1 HC).
      + eapply sim_bind; [apply sim_lift, (FR_getsl N s dim k B B' _ HB)|]. intros x x' Hx. eapply sim_bind; [apply (t_em_label N s Hs E E' HE dim); auto; apply (f_alike s p HP)|].
        intros y y' Hy. eapply sim_bind; [apply sim_lift, FR_tsetsl; eauto|]. intros C C' HC. destruct (p_reweight p); [|now apply sim_ret]. apply sim_lift.
        apply (t_rw_label C C' (Z.of_nat i) (ocall1 (p_U p)) (fun u => u) HC); auto.
  Qed.
  Context (kern : string) (Zf Zf' : arr3 R) (HZ : FR Zf Zf').
  Lemma t_density_label B B' t : FR B B' -> sim cols (t_density_estimation E p kern Zf B t) (t_density_estimation E' p kern Zf' B' t).
  Proof.
    intros HB. unfold t_density_estimation. fold dim.
    eapply sim_bind; [apply sim_lift, (FR_getsl N s dim k _ _ _ HZ)|]. intros z z' (Hz & Wz & Wz' & Rz & Cz).
    eapply sim_bind; [apply sim_lift, (FR_getsl N s dim k _ _ _ HB)|]. intros b b' (Hb & Wb & Wb' & Rb & Cb).
    rewrite (dens_bnds_cols N s Hs dim z z' b b'), (two_tstd_cols N s Hs z z' Hz) by (auto; lia).
    eapply sim_bind; [apply sim_lift, so_eq; reflexivity|]. intros bs _ <-. eapply sim_bind; [apply (t_sample_box_same N s E E' HE)|]. intros Sx _ <-. apply sim_lift.
    eapply so_bind; [apply (tscore_fun_rows N s Hs E E' HE nmilli kern _ _ Sx _ (cols_mT N s Hs z z' Hz))|]. intros fn fn' (_ & Hfn).
    eapply so_rmap; [apply Hfn, (cols_mT N s Hs), Hb|]. intros. now apply rows_mT.
  Qed.
  Lemma t_bw_density_label B B' t : FR B B' -> sim (rows N s) (t_bw_density_estimation E p kern Zf B t) (t_bw_density_estimation E' p kern Zf' B' t).
  Proof.
    intros HB. unfold t_bw_density_estimation. fold dim.
    eapply sim_bind; [apply sim_lift, (FR_getsl N s dim k _ _ _ HB)|]. intros b b' (Hb & Wb & Wb' & Rb & Cb).
    eapply sim_bind; [apply sim_lift, (FR_getsl N s dim k _ _ _ HZ)|]. intros z z' (Hz & Wz & Wz' & Rz & Cz).
    rewrite (hull_bnds_cols N s Hs dim z z' b b'), (two_tstd_cols N s Hs b b' Hb) by (auto; lia).
    eapply sim_bind; [apply sim_lift, so_eq; reflexivity|]. intros bs _ <-. eapply sim_bind; [apply (t_sample_box_same N s E E' HE)|]. intros Sx _ <-. apply sim_lift.
    now apply (tscore_rows N s Hs E E' HE), cols_mT.
  Qed.
  Lemma t_bw_stoch_label x x' t gro gro' : ens x x' -> cols gro gro' -> sim cols (t_bw_stoch_step E p x t gro) (t_bw_stoch_step E' p x' t gro').
  Proof.
    intros Hx Hgro. unfold t_bw_stoch_step. fold dim. fold N.
    eapply sim_bind; [apply sim_lift, (fd_rel N s dim _ x x' t (f_alike s p HP) Hx)|]. intros F F' HF.
    eapply sim_bind; [apply sim_lift, (tbc_cols N s Hs); [apply Hx|apply (cols_mmap1 N s Hs), HF]|]. intros a a' Ha.
    eapply sim_bind; [apply sim_lift, (tbc_cols N s Hs); [apply (cols_mmap1 N s Hs), (cols_mmap1 N s Hs), Hg|exact Hgro]|]. intros b b' Hb.
    eapply sim_bind; [apply sim_lift, (tbc_cols N s Hs); [exact Ha|exact Hb]|]. intros d d' Hd.
    eapply sim_bind; [apply (normal_cols N s Hs E E' HE)|]. intros W W' HW. apply sim_lift.
    eapply so_bind; [apply (tbc_cols N s Hs); [exact Hg|exact HW]|]. intros B B' HB. now apply (tbc_cols N s Hs).
  Qed.
  Lemma t_bw_det_label x x' t gro gro' gb gb' : ens x x' -> cols gro gro' -> cols gb gb' -> same_outcome cols (t_bw_det_step p x t gro gb) (t_bw_det_step p x' t gro' gb').
  Proof.
    intros Hx Hgro Hgb. unfold t_bw_det_step. eapply so_bind; [apply (fd_rel N s dim _ x x' t (f_alike s p HP) Hx)|]. intros F F' HF.
    eapply so_bind; [apply (tbc_cols N s Hs); [apply (cols_mmap1 N s Hs), Hg|exact Hgro]|]. intros b b' Hb. eapply so_bind; [apply (tbc_cols N s Hs); [exact HF|exact Hb]|]. intros d d' Hd.
    eapply so_bind; [apply (tbc_cols N s Hs); [apply (cols_mmap1 N s Hs), (cols_mmap1 N s Hs), Hg|exact Hgb]|]. intros e e' He. eapply so_bind; [apply (tbc_cols N s Hs); [exact Hd|exact He]|]. intros h h' Hh.
    apply (tbc_cols N s Hs); [apply Hx|now apply (cols_mmap1 N s Hs)].
  Qed.
  Lemma t_bw_label : sim FR (t_backward_simulation E p kern grid Zf (zeros3 dim N k)) (t_backward_simulation E' p kern grid Zf' (zeros3 dim N k)).
  Proof.
    unfold t_backward_simulation. fold dim. rewrite !enum'. eapply sim_bind; [apply (sim_mfold (fun _ => FR))|].
    - now apply FR_zeros.
    - intros i B B' Hi HB. unfold t_bw_body. fold dim. destruct (i =? 0)%nat.
      + apply sim_lift. now apply FR_pin.
      + cbv zeta. eapply sim_bind; [apply (t_density_label B B' _ HB)|]. intros gro gro' Hgro. eapply sim_bind with (P := cols).
        * destruct (((i =? 1)%nat && p_det p) || negb (p_det p)).
          -- eapply sim_bind; [apply sim_lift, (FR_getsl N s dim k _ _ _ HB)|]. intros x x' Hx. eapply sim_bind; [apply sim_lift, so_eq; reflexivity|]. intros t _ <-. now apply t_bw_stoch_label.
          -- eapply sim_bind; [apply (t_bw_density_label B B' _ HB)|]. intros gb gb' Hgb. eapply sim_bind; [apply sim_lift, (FR_getsl N s dim k _ _ _ HB)|]. intros x x' Hx.
             eapply sim_bind; [apply sim_lift, so_eq; reflexivity|]. intros t _ <-. apply sim_lift. apply t_bw_det_label; auto. now apply rows_mT.
        * intros y y' Hy. apply sim_lift. now apply FR_tsetsl.
    - intros A A' H. apply sim_lift. now apply FR_pin.
  Qed.
End TWhole.
