(** C70: particles have no labels: a run with the particles numbered differently is the same run with the particles numbered differently, and
    every query gets the same answer. *)
From Coq Require Import String List ZArith Reals Lra Lia Bool Permutation.
From Verif Require Import Base.Num Base.Py Base.Arr Lib.ArrLemmas Model.Ext Model.Cdist Model.Reweight Model.Score Model.DPFC.
From Verif Require Import Spec.FlowSpec Spec.RealSpec Spec.Contracts Spec.AffineSpec Spec.LabelSpec Lib.FlowLemmas Lib.StepLemmas Lib.RSum Lib.RBase Lib.Sim Lib.AffineLemmas Lib.AffineRun Lib.LabelLemmas Lib.LabelRun.
From Verif Require Import Run.RealExt Props.Witnesses.
Import ListNotations.
Local Open Scope string_scope.
Local Open Scope R_scope.

Section C70.
  Context {S : Type} (E E' : Ext R S) (s : nat -> nat) (p : params R).
  Let N := p_N p.
  Let dim := List.length (p_y1 p).
  Context (Hs : renumbering N s) (HE : env_renumbered N s E E') (HP : label_free N s p).

  Definition obj_rel (o o' : obj R) : Prop :=
    o_grid o' = o_grid o /\ FR N s dim (List.length (o_grid o)) (o_Z o) (o_Z o') /\ FR N s dim (List.length (o_grid o)) (o_B o) (o_B o') /\
    match o_Ztr o, o_Ztr o' with Some A, Some A' => FR N s dim (List.length (o_grid o)) A A' | None, None => True | _, _ => False end /\
    o_par o = p /\ o_par o' = p /\ o_kern o = kern_used (p_kern p) /\ o_kern o' = kern_used (p_kern p).
  Lemma FR_flow k A A' : FR N s dim k A A' -> flow_renumbered s A A'.
  Proof. intros (_ & _ & H1 & H2 & H3 & H4 & H5 & H6 & H7). split; [congruence|]. split; [congruence|]. split; [congruence|]. intros d i t Hd Hi Ht. apply H7; congruence. Qed.

  Lemma construct_label : p_det p = true -> sim obj_rel (construct E p) (construct E' p).
  Proof.
    intro Hd. unfold construct. rewrite Hd. fold dim. fold N. set (grid := timegrid (p_t1 p) (p_t2 p)). pose proof (kern_used_not_periodic (p_kern p)) as Hk.
    eapply sim_bind with (P := fun ZZ ZZ' => FR N s dim (List.length grid) (fst ZZ) (fst ZZ') /\
      match snd ZZ, snd ZZ' with Some A, Some A' => FR N s dim (List.length grid) A A' | None, None => True | _, _ => False end).
    - eapply sim_bind; [apply (otto_label E E' s p Hs HE HP grid _ Hk)|]. intros Z1 Z1' HZ. destruct (p_reweight p && p_brown p).
      + eapply sim_bind; [apply (otto_true_label E E' s p Hs HE HP grid _ Hk)|]. intros Zt Zt' HZt. apply sim_ret. cbn. auto.
      + apply sim_ret. cbn. auto.
    - intros ZZ ZZ' (HZ & HZt). eapply sim_bind; [apply (bw_label E E' s p Hs HE HP grid _ Hk (fst ZZ) (fst ZZ') HZ)|]. intros B B' HB. apply sim_ret.
      split; [reflexivity|]. split; [exact HZ|]. split; [exact HB|]. split; [exact HZt|]. cbn. auto.
  Qed.

  (** the object or exception, and the state of the generator afterwards *)
  Theorem C70_run s0 : p_det p = true ->
    same_outcome (object_renumbered s) (fst (construct E p s0)) (fst (construct E' p s0)) /\ snd (construct E' p s0) = snd (construct E p s0).
  Proof.
    intro Hd. destruct (construct_label Hd s0) as (H1 & H2). split; [|exact H2]. eapply so_weaken; [exact H1|]. intros o o' (G1 & G2 & G3 & G4 & G5 & G6 & G7 & G8).
    split; [congruence|]. split; [congruence|]. split; [exact G1|]. split; [exact (FR_flow _ _ _ G2)|]. split; [exact (FR_flow _ _ _ G3)|].
    destruct (o_Ztr o), (o_Ztr o'); auto. exact (FR_flow _ _ _ G4).
  Qed.

  (** *** queries *)
  Lemma covered_label o o' X ti : obj_rel o o' -> check_if_covered o' X ti = check_if_covered o X ti.
  Proof.
    intros (G1 & G2 & G3 & _ & G5 & G6 & _). apply so_eq_inv. unfold check_if_covered. rewrite G5, G6. fold dim.
    eapply so_weaken; [apply (so_rfold_seq (fun _ => @eq bool)); [reflexivity|]|auto]. intros i b _ Hi <-.
    eapply so_bind; [apply (FR_getsl N s dim _ _ _ ti G2)|]. intros z z' (Hz & _ & _ & Rz & _).
    eapply so_bind; [apply (FR_getsl N s dim _ _ _ ti G3)|]. intros bb bb' (Hb & _ & _ & Rb & _).
    rewrite (inter_bnd_cols N s Hs z z' bb bb' i) by (auto; lia). now apply so_eq.
  Qed.
  Lemma gauss_row_label gx b b' z z' di : columns_renumbered N s b b' -> columns_renumbered N s z z' -> (di < mr b)%nat -> (di < mr z)%nat -> gauss_row gx b' z' di = gauss_row gx b z di.
  Proof.
    intros Hb Hz H1 H2. unfold gauss_row. now rewrite (nmean_perm _ _ (cols_row N s Hs b b' di Hb H1)), (nstd_perm _ _ (cols_row N s Hs b b' di Hb H1)),
      (nmean_perm _ _ (cols_row N s Hs z z' di Hz H2)), (nstd_perm _ _ (cols_row N s Hs z z' di Hz H2)).
  Qed.
  Lemma bndsztr_label n z z' di : columns_renumbered N s z z' -> (di < mr z)%nat -> bndsztr n z' di = bndsztr n z di.
  Proof. intros Hz H. unfold bndsztr. now rewrite (lmin_perm _ _ (cols_row N s Hs z z' di Hz H)), (lmax_perm _ _ (cols_row N s Hs z z' di Hz H)). Qed.
  Lemma control_label o o' gx ti : obj_rel o o' -> sim eq (calculate_u E o gx ti) (calculate_u E' o' gx ti).
  Proof.
    intros (G1 & G2 & G3 & G4 & G5 & G6 & G7 & G8). unfold calculate_u, bridged. rewrite G1, G5, G6, G7, G8. fold dim. pose proof (kern_used_not_periodic (p_kern p)) as Hk. set (kern := kern_used (p_kern p)) in *.
    eapply sim_bind; [apply sim_lift, (FR_getsl N s dim _ _ _ ti G3)|]. intros b b' (Hb & _ & _ & Rb & Cb).
    eapply sim_bind; [apply sim_lift, (FR_getsl N s dim _ _ _ ti G2)|]. intros z z' Hz'. pose proof Hz' as (Hz & _ & _ & Rz & Cz).
    eapply sim_bind with (P := ens N s dim).
    { apply sim_lift. destruct (p_reweight p && p_brown p); [|exact Hz']. destruct (o_Ztr o), (o_Ztr o'); try contradiction; [|reflexivity]. exact (FR_getsl N s dim _ _ _ ti G4). }
    intros fw fw' (Hw & _ & _ & Rw & Cw). rewrite (inter_bnds_cols N s Hs dim fw fw' b b'), (two_std_cols N s Hs b b' Hb), (two_std_cols N s Hs z z' Hz), (two_std_cols N s Hs fw fw' Hw) by (auto; lia).
    eapply sim_bind; [apply sim_lift, so_eq; reflexivity|]. intros bs _ <-. destruct ((ti <=? 5)%Z || (Z.of_nat (List.length (o_grid o)) - 5 <=? ti)%Z).
    - apply sim_lift. apply (so_rfold_seq (fun _ => eq)); [reflexivity|]. intros i u _ Hi <-. rewrite (gauss_row_label gx b b' fw fw' i) by (auto; lia). now apply so_eq.
    - eapply sim_bind; [apply (sample_box_same N s E E' HE)|]. intros Sx _ <-. apply sim_lift. apply (so_rfold_seq (fun _ => eq)); [reflexivity|]. intros i u _ Hi <-.
      eapply so_bind; [apply (score_fun_rows N s Hs E E' HE kern nmilli _ _ (mT Sx) (two_std b) _ Hk (cols_mT N s Hs b b' Hb))|]. intros fb fb' (Hfb & _). rewrite Hfb.
      eapply so_bind; [apply so_eq; reflexivity|]. intros sb _ <-. eapply so_bind with (P := eq).
      + destruct (p_reweight p && p_brown p).
        * rewrite (bndsztr_label dim fw fw' i) by (auto; lia). eapply so_bind; [apply so_eq; reflexivity|]. intros bb _ <-. eapply so_bind; [apply so_eq; reflexivity|]. intros gz _ <-.
          eapply so_bind; [apply (score_fun_rows N s Hs E E' HE kern nmilli _ _ (mT Sx) (two_std fw) _ Hk (cols_mT N s Hs fw fw' Hw))|]. intros ff ff' (Hff & _). rewrite Hff. now apply so_eq.
        * eapply so_bind; [apply (score_fun_rows N s Hs E E' HE kern nmilli _ _ (mT Sx) (two_std z) _ Hk (cols_mT N s Hs z z' Hz))|]. intros ff ff' (Hff & _). rewrite Hff. now apply so_eq.
      + intros sf _ <-. now apply so_eq.
  Qed.
  Lemma sim_eq {A} (m m' : M S A) s0 : sim eq m m' -> m' s0 = m s0.
  Proof. intro H. destruct (H s0) as (H1 & H2). apply so_eq_inv in H1. destruct (m s0), (m' s0). cbn in *. congruence. Qed.
  Lemma session_label o o' qs s0 : obj_rel o o' -> let '(a, _, s1) := run_session E o qs s0 in let '(a', _, s1') := run_session E' o' qs s0 in a' = a /\ s1' = s1.
  Proof.
    intro Ho. revert s0. induction qs as [|q qs IH]; intro s0; [cbn; auto|]. cbn [run_session].
    assert (Q : exists a s1, run_query E o q s0 = (a, o, s1) /\ run_query E' o' q s0 = (a, o', s1)).
    { destruct q as [gx ti|X ti]; cbn [run_query].
      - rewrite (sim_eq _ _ s0 (control_label o o' gx ti Ho)). destruct (calculate_u E o gx ti s0) as [r s1]. eauto.
      - rewrite (covered_label o o' X ti Ho). eauto. }
    destruct Q as (a & s1 & -> & ->). specialize (IH s1). destruct (run_session E o qs s1) as [[l1 o1] s2], (run_session E' o' qs s1) as [[l1' o1'] s2']. destruct IH as (-> & ->). auto.
  Qed.

  (** every sequence of queries, whatever the generator state when they are asked, gets the same answers (values and exceptions), and uses the
      generator in the same way *)
  Theorem C70_answers s0 o o' qs s1 : p_det p = true -> fst (construct E p s0) = Ok o -> fst (construct E' p s0) = Ok o' ->
    let '(a, _, s2) := run_session E o qs s1 in let '(a', _, s2') := run_session E' o' qs s1 in a' = a /\ s2' = s2.
  Proof. intros Hd H H'. destruct (construct_label Hd s0) as (Q & _). rewrite H, H' in Q. now apply session_label. Qed.
End C70.

(** *** for every environment and every renumbering there is a renumbered environment, and it meets every contract that the original meets *)
Section Env.
  Context (N : nat) (s : nat -> nat) (Hs : renumbering N s).
  Definition undo (j : nat) : nat := match find (fun i => (s i =? j)%nat) (seq 0 N) with Some i => i | None => 0%nat end.
  Lemma undo_spec j : (j < N)%nat -> (undo j < N)%nat /\ s (undo j) = j.
  Proof.
    intro Hj. unfold undo. destruct (find (fun i => (s i =? j)%nat) (seq 0 N)) as [i|] eqn:F.
    - apply find_some in F. destruct F as (F1 & F2). apply in_seq in F1. apply Nat.eqb_eq in F2. split; [lia|exact F2].
    - exfalso. assert (Q : In j (map s (seq 0 N))).
      { apply (Permutation_in (l := seq 0 N)); [|apply in_seq; lia]. symmetry. pose proof (seq_perm N s Hs N) as P. unfold old in P. rewrite Nat.eqb_refl in P. exact P. }
      apply in_map_iff in Q. destruct Q as (i & E1 & E2). pose proof (find_none _ _ F i E2) as G. apply Nat.eqb_neq in G. contradiction.
  Qed.
  Lemma undo_s i : (i < N)%nat -> undo (s i) = i.
  Proof. intro Hi. destruct (undo_spec (s i) (proj1 Hs i Hi)) as (H1 & H2). now apply (proj2 Hs). Qed.
  Lemma undo_renumbering : renumbering N undo.
  Proof.
    split; [intros; now apply undo_spec|]. intros i j Hi Hj H. destruct (undo_spec i Hi) as (_ & <-), (undo_spec j Hj) as (_ & <-). now rewrite H.
  Qed.
  Context {S : Type} (E : Ext R S).
  Definition relist (a : list R) : list R := map (fun i => nth (undo i) a 0) (seq 0 N).
  Definition remat (C : mat R) : mat R := mk N N (fun i j => get C (undo i) (undo j)).
  Definition re_emd (emd : list R -> list R -> mat R -> nat -> nat -> R) (a b : list R) (C : mat R) : nat -> nat -> R :=
    if Nat.eqb (List.length a) N then fun i j => emd (relist a) (relist b) (remat C) (s i) (s j) else emd a b C.
  Definition re_env : Ext R S := {|
    x_normal := fun st sc d c => if Nat.eqb c N then let (h, st') := x_normal E st sc d c in ((fun i j => h i (s j)), st') else x_normal E st sc d c;
    x_uniform := x_uniform E; x_tuniform := x_tuniform E; x_inv := x_inv E; x_emd := re_emd (x_emd E); x_otemd := re_emd (x_otemd E) |}.
  Lemma rect_eq (A B : mat R) : rect A -> rect B -> mr A = mr B -> mc A = mc B -> (forall i j, (i < mr A)%nat -> (j < mc A)%nat -> get A i j = get B i j) -> A = B.
  Proof.
    destruct A as [r c a], B as [r' c' b]. intros (A1 & A2) (B1 & B2) H1 H2 H3. cbn [mr mc md] in *. rewrite <- H1 in *. rewrite <- H2 in *. clear H1 H2. rewrite Forall_forall in A2, B2. cut (a = b); [now intros ->|].
    apply (nth_ext _ _ [] []); [congruence|]. intros i Hi. apply (nth_ext _ _ 0 0).
    - rewrite A2, B2 by (apply nth_In; congruence). reflexivity.
    - intros j Hj. rewrite A2 in Hj by now apply nth_In. apply H3; [congruence|exact Hj].
  Qed.
  Lemma relist_eq a a' : List.length a = N -> (forall i, (i < N)%nat -> nth i a' 0 = nth (s i) a 0) -> relist a' = a.
  Proof.
    intros La H. unfold relist. rewrite <- (map_nth_seq a 0), La. apply map_seq_ext. intros i Hi. destruct (undo_spec i Hi) as (U1 & U2). rewrite H by auto. now rewrite U2.
  Qed.
  Lemma re_emd_ok emd : plan_renumbered N s emd (re_emd emd).
  Proof.
    intros a b C a' b' C' La Lb RC CC La' Lb' RC' CC' WC WC' Ha Hb HC i j Hi Hj. unfold re_emd. rewrite La', Nat.eqb_refl.
      rewrite (relist_eq a a' La Ha), (relist_eq b b' Lb Hb). replace (remat C') with C; [reflexivity|]. apply rect_eq; auto; try (apply wf_rect, wf_mk); try (cbn; congruence).
      intros u v Hu Hv. unfold remat. rewrite get_mk by congruence. destruct (undo_spec u ltac:(congruence)) as (U1 & U2), (undo_spec v ltac:(congruence)) as (V1 & V2).
      rewrite HC by auto. now rewrite U2, V2.
  Qed.
  Lemma re_env_ok : env_renumbered N s E re_env.
  Proof.
    constructor; try reflexivity; try apply re_emd_ok.
    intros st sc d. cbn [re_env x_normal]. rewrite Nat.eqb_refl. destruct (x_normal E st sc d N) as [h st']. cbn. auto.
  Qed.
  Lemma hist_relist a i : (i < N)%nat -> hist (relist a) i = hist a (undo i).
  Proof. intro Hi. unfold hist, relist. now rewrite nth_map_seq. Qed.
  Lemma re_emd_spec emd : emd_spec emd -> emd_spec (re_emd emd).
  Proof.
    intros H n a b C La Lb RC CC Ha Hb Hab HC. unfold re_emd. destruct (Nat.eqb_spec (List.length a) N) as [En|_]; [|now apply H]. assert (n = N) by congruence. rewrite H0 in *. clear n H0 En.
    pose proof undo_renumbering as Hu. pose proof (fun i Hi => proj1 Hu i Hi) as Hul. pose proof (fun i Hi => proj1 Hs i Hi) as Hsl.
    destruct (H N (relist a) (relist b) (remat C)) as ((P1 & P2 & P3) & P4).
    - unfold relist. now rewrite map_length, seq_length.
    - unfold relist. now rewrite map_length, seq_length.
    - reflexivity.
    - reflexivity.
    - intros i Hi. rewrite hist_relist by auto. apply Ha. now apply Hu.
    - intros i Hi. rewrite hist_relist by auto. apply Hb. now apply Hu.
    - rewrite (sumn_ext N (hist (relist a)) (fun i => hist a (undo i))), (sumn_ext N (hist (relist b)) (fun i => hist b (undo i))) by (intros; now apply hist_relist).
      now rewrite (sumn_s N undo Hu (hist a)), (sumn_s N undo Hu (hist b)).
    - intros i j Hi Hj. unfold remat. rewrite get_mk by auto. apply HC; now apply Hu.
    - set (Q := emd (relist a) (relist b) (remat C)) in *. split; [split; [|split]|].
      + intros i j Hi Hj. apply P1; now apply Hs.
      + intros i Hi. rewrite (sumn_s N s Hs (fun j => Q (s i) j)), P2 by auto. rewrite hist_relist by auto. now rewrite undo_s.
      + intros j Hj. rewrite (sumn_s N s Hs (fun i => Q i (s j))), P3 by auto. rewrite hist_relist by auto. now rewrite undo_s.
      + intros Q' (R1 & R2 & R3). apply Rle_trans with (plan_cost N (get (remat C)) Q).
        * right. unfold plan_cost. rewrite <- (sumn_s N s Hs (fun i => sumn N (fun j => get (remat C) i j * Q i j))). apply sumn_ext. intros i Hi.
          rewrite <- (sumn_s N s Hs (fun j => get (remat C) (s i) j * Q (s i) j)). apply sumn_ext. intros j Hj. unfold remat. rewrite get_mk by auto. now rewrite !undo_s.
        * apply Rle_trans with (plan_cost N (get (remat C)) (fun i j => Q' (undo i) (undo j))).
          -- apply P4. split; [intros i j Hi Hj; apply R1; now apply Hu|split].
             ++ intros i Hi. rewrite (sumn_s N undo Hu (fun j => Q' (undo i) j)), R2, hist_relist by auto. reflexivity.
             ++ intros j Hj. rewrite (sumn_s N undo Hu (fun i => Q' i (undo j))), R3, hist_relist by auto. reflexivity.
          -- right. unfold plan_cost. rewrite <- (sumn_s N undo Hu (fun i => sumn N (fun j => get C i j * Q' i j))). apply sumn_ext. intros i Hi.
             rewrite <- (sumn_s N undo Hu (fun j => get C (undo i) j * Q' (undo i) j)). apply sumn_ext. intros j Hj. unfold remat. now rewrite get_mk by auto.
  Qed.
  Theorem C70_environment : exists E', env_renumbered N s E E' /\ (emd_contract E -> emd_contract E') /\ (otemd_contract E -> otemd_contract E') /\ (inv_contract E -> inv_contract E') /\
    (uniform_in_range E -> uniform_in_range E').
  Proof. exists re_env. split; [exact re_env_ok|]. split; [exact (re_emd_spec (x_emd E))|]. split; [exact (re_emd_spec (x_otemd E))|]. auto. Qed.
End Env.

(** *** a concrete case: the reweighted run of Run/RealExt.v with particles 0, 1, 2 renumbered 2, 0, 1, including bridge mode *)
Definition turn (i : nat) : nat := match i with 0 => 2 | 1 => 0 | 2 => 1 | _ => i end%nat.
Lemma turn_ok : renumbering 3 turn.
Proof. split; intros [|[|[|i]]]; cbn; try lia. all: intros [|[|[|j]]]; cbn; lia. Qed.
Lemma real_label_free rw brown : label_free 3 turn (real_problem rw brown).
Proof.
  pose proof turn_ok as Ht. assert (F : forall t, treats_alike 3 turn 2 (fun x => call2 rf x t)).
  { intros t x x' _ _ _ _ Hx. cbn. now apply (cols_mmap1 3 turn Ht nopp). }
  constructor; try reflexivity; cbn [real_problem p_f p_f_true p_U p_g p_y1 List.length ocall2]; auto.
  - intros t x x' _ _ Rx Cx (H1 & H2 & H3). cbn [rU call2 same_outcome]. apply (lrows_vec 3 turn Ht). split; [now rewrite !map_length, !seq_length, H2|].
    rewrite map_length, seq_length. intros i Hi. rewrite !nth_map_seq by (rewrite ?H2; auto; now apply (old_lt 3 turn Ht)). now rewrite H3 by lia.
  - apply (cols_mk 3 turn Ht). reflexivity.
Qed.
Example W70 : forall rw brown s0, exists E' o o', env_renumbered 3 turn RealExt E' /\ emd_contract E' /\ fst (construct RealExt (real_problem rw brown) s0) = Ok o /\
  fst (construct E' (real_problem rw brown) s0) = Ok o' /\ List.length (o_grid o') = 21%nat /\ object_renumbered turn o o' /\
  forall qs s1, fst (fst (run_session E' o' qs s1)) = fst (fst (run_session RealExt o qs s1)).
Proof.
  intros rw brown s0. destruct (C70_environment 3 turn turn_ok RealExt) as (E' & HE & Hemd & _). exists E'.
  destruct (real_run rw brown s0) as (o & s' & Ho & L & _). destruct (C70_run RealExt E' turn (real_problem rw brown) turn_ok HE (real_label_free rw brown) s0 eq_refl) as (Q & _).
  rewrite Ho in Q. cbn [fst] in Q. destruct (fst (construct E' (real_problem rw brown) s0)) as [o'|e] eqn:Ho'; [|destruct Q]. cbn [same_outcome] in Q. exists o, o'.
  split; [exact HE|]. split; [apply Hemd; exact real_emd_ok|]. split; [now rewrite Ho|]. split; [reflexivity|]. split; [destruct Q as (_ & _ & -> & _); exact L|]. split; [exact Q|].
  intros qs s1. pose proof (C70_answers RealExt E' turn (real_problem rw brown) turn_ok HE (real_label_free rw brown) s0 o o' qs s1 eq_refl ltac:(now rewrite Ho) Ho') as A.
  destruct (run_session RealExt o qs s1) as [[a1 o1] t1], (run_session E' o' qs s1) as [[a2 o2] t2]. cbn. now destruct A.
Qed.
