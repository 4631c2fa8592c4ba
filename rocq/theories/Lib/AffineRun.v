(** Whole runs and queries in other units and with another origin (no modelling content). *)
From Coq Require Import String List ZArith Reals Lra Lia Bool.
From Verif Require Import Base.Num Base.Py Base.Arr Lib.ArrLemmas Model.Ext Model.Cdist Model.Reweight Model.Score Model.DPFC.
From Verif Require Import Spec.FlowSpec Spec.RealSpec Spec.Contracts Spec.AffineSpec Lib.FlowLemmas Lib.StepLemmas Lib.RSum Lib.RBase Lib.ReweightLemmas Lib.Sim Lib.AffineLemmas Lib.AffineScore Lib.AffineSteps.
Import ListNotations.
Local Open Scope string_scope.
Local Open Scope R_scope.

Lemma kern_used_not_periodic k : kern_used k <> "periodic".
Proof. unfold kern_used. destruct (String.eqb_spec k "periodic"); [discriminate|auto]. Qed.

Ltac blia := cbn beta in *; lia.
Section Run.
  Context {S : Type} (E : Ext R S) (al c : R) (v : nat -> R) (Hal : 0 < al) (HU : uniform_affine E).
  Context (p p' : params R) (HP : problem_image al c v p p').
  Context (HW : p_reweight p = true -> emd_plans (x_emd E) /\ (al = 1 \/ emd_unit_free E)).
  Let dim := List.length (p_y1 p).
  Let N := p_N p.
  Context (grid grid' : list R) (HG : grid_image c grid grid').
  Let k := List.length grid.
  Notation ens := (ensemble_image al v).
  Notation pts := (points_image al v).
  Notation arel := (arel al v).

  Lemma dim' : List.length (p_y1 p') = dim. Proof. apply (pi_y1 _ _ _ _ _ HP). Qed.
  Lemma y1_at d : (d < dim)%nat -> nth d (p_y1 p') 0 = al * nth d (p_y1 p) 0 + v d.
  Proof. apply (pi_y1 _ _ _ _ _ HP). Qed.
  Lemma y_get y y' (Hy : point_image al v y y') d : same_outcome (fun a a' => a' = al * a + v d) (pyget y (Z.of_nat d)) (pyget y' (Z.of_nat d)).
  Proof.
    destruct Hy as (L & H). destruct (Nat.lt_ge_cases d (List.length y)) as [Hd|Hd].
    - rewrite !(pyget_nat _ _ 0) by blia. cbn. now apply H.
    - unfold pyget. rewrite !pyidx_nat_none by blia. reflexivity.
  Qed.
  Lemma k' : List.length grid' = k. Proof. apply HG. Qed.

  (** flows of the right shape, entries in W related *)
  Definition FR (W : nat -> nat -> nat -> Prop) (A A' : arr3 R) : Prop := arel W A A' /\ a_d A = dim /\ a_n A = N /\ a_k A = k.
  Lemma FR_zeros : FR (fun _ _ _ => False) (zeros3 dim N k) (zeros3 dim N k).
  Proof. split; [|auto]. split; [apply wf3_zeros|]. split; [apply wf3_zeros|]. cbn. repeat split; auto. intros; contradiction. Qed.
  Lemma FR_weaken (W W' : nat -> nat -> nat -> Prop) A A' : FR W A A' -> (forall d i t, (d < dim)%nat -> (i < N)%nat -> (t < k)%nat -> W' d i t -> W d i t) -> FR W' A A'.
  Proof. intros (H & H1 & H2 & H3) K. split; [|auto]. eapply arel_weaken; [exact H|]. rewrite H1, H2, H3. exact K. Qed.
  Lemma FR_getsl (W : nat -> nat -> nat -> Prop) A A' t : FR W A A' -> (forall j d i, pyidx k t = Some j -> (d < dim)%nat -> (i < N)%nat -> W d i j) ->
    same_outcome (good al v dim N) (getsl A t) (getsl A' t).
  Proof.
    intros (H & H1 & H2 & H3) K. eapply so_weaken; [apply (arel_getsl al v W A A' t H)|].
    - rewrite H1, H2, H3. exact K.
    - intros x x' (Q1 & Q2 & Q3 & Q4 & Q5). split; [auto|]. split; [auto|]. split; [auto|]. split; congruence.
  Qed.
  Lemma FR_setsl (W W' : nat -> nat -> nat -> Prop) A A' t y y' : FR W A A' -> posr al v dim y y' ->
    (forall j d i s, pyidx k t = Some j -> s <> j -> (d < dim)%nat -> (i < N)%nat -> (s < k)%nat -> W' d i s -> W d i s) ->
    same_outcome (FR W') (setsl A t y) (setsl A' t y').
  Proof.
    intros (H & H1 & H2 & H3) Hy K. eapply so_weaken; [apply (arel_setsl al v dim W W' A A' t y y' H H1 Hy)|].
    - rewrite H1, H2, H3. exact K.
    - intros B B' (Q1 & Q2 & Q3 & Q4). split; [exact Q1|]. repeat split; congruence.
  Qed.
  Lemma FR_setrow3 (W W' : nat -> nat -> nat -> Prop) A A' d t y y' : FR W A A' -> y' = al * y + v d ->
    (forall j e i s, pyidx k t = Some j -> ~ (s = j /\ e = d) -> (e < dim)%nat -> (i < N)%nat -> (s < k)%nat -> W' e i s -> W e i s) ->
    same_outcome (FR W') (setrow3 A (Z.of_nat d) t y) (setrow3 A' (Z.of_nat d) t y').
  Proof.
    intros (H & H1 & H2 & H3) Hy K. eapply so_weaken; [apply (arel_setrow3 al v W W' A A' d t y y' H (fun _ => Hy))|].
    - rewrite H1, H2, H3. exact K.
    - intros B B' (Q1 & Q2 & Q3 & Q4). split; [exact Q1|]. repeat split; congruence.
  Qed.
  Lemma FR_setcol3 (W W' : nat -> nat -> nat -> Prop) A A' i t y y' : FR W A A' -> posc al v dim y y' ->
    (forall j d e s, pyidx k t = Some j -> ~ (s = j /\ e = i) -> (d < dim)%nat -> (e < N)%nat -> (s < k)%nat -> W' d e s -> W d e s) ->
    same_outcome (FR W') (setcol3 A (Z.of_nat i) t y) (setcol3 A' (Z.of_nat i) t y').
  Proof.
    intros (H & H1 & H2 & H3) Hy K. eapply so_weaken; [apply (arel_setcol3 al v dim W W' A A' i t y y' H H1 Hy)|].
    - rewrite H1, H2, H3. exact K.
    - intros B B' (Q1 & Q2 & Q3 & Q4). split; [exact Q1|]. repeat split; congruence.
  Qed.
  (** pin: afterwards all of that slice is related *)
  Lemma FR_pin (W W' : nat -> nat -> nat -> Prop) A A' y y' t : point_image al v y y' -> FR W A A' ->
    (forall j d i s, pyidx k t = Some j -> s <> j -> (d < dim)%nat -> (i < N)%nat -> (s < k)%nat -> W' d i s -> W d i s) ->
    same_outcome (FR W') (pin dim y t A) (pin dim y' t A').
  Proof.
    intros Hy HA K. unfold pin.
    eapply so_weaken; [apply (so_rfold_seq (fun n B B' => FR (fun d i s => match pyidx k t with Some j => (s <> j /\ W' d i s) \/ (s = j /\ (d < n)%nat) | None => W d i s end) B B' /\
      (pyidx k t = None -> n = 0%nat)))|].
    - split; [|auto]. eapply FR_weaken; [exact HA|]. intros d i s Hd Hi Hs. destruct (pyidx k t) as [j|] eqn:J; [|auto]. intros [(H1 & H2)|(H1 & H2)]; [|blia]. now apply (K j).
    - intros n B B' Hn (HB & _). eapply so_bind; [apply (y_get y y' Hy)|]. intros a a' Ha. destruct (pyidx k t) as [j|] eqn:J.
      + eapply so_weaken; [eapply FR_setrow3; [exact HB|exact Ha|]|].
        * intros j0 e i s Hj Hne He Hi Hs. assert (j0 = j) by congruence. subst j0. instantiate (1 := fun d i s => (s <> j /\ W' d i s) \/ (s = j /\ (d < Datatypes.S n)%nat)). cbn beta.
          intros [H|(H1 & H2)]; [now left|]. right. split; [auto|]. destruct (Nat.eq_dec e n); [exfalso; apply Hne; split; congruence|blia].
        * intros C C' HC. split; [exact HC|discriminate].
      + destruct HB as ((_ & _ & B1 & B2 & B3 & _) & B4 & B5 & B6). unfold setrow3. rewrite B1, B3, B4, B6, J. destruct (pyidx dim (Z.of_nat n)); reflexivity.
    - intros B B' (HB & H0). eapply FR_weaken; [exact HB|]. intros d i s Hd Hi Hs Hw. destruct (pyidx k t) as [j|] eqn:J.
      + destruct (Nat.eq_dec s j); [now right|now left].
      + specialize (H0 eq_refl). blia.
  Qed.

  (** *** forward flow, deterministic mode *)
  Notation upto := (fun n (d i t : nat) => (t < n)%nat).
  Context (kern : string) (Hkern : kern <> "periodic").
  Lemma f_drift : drift_rel al c v dim N (call2 (p_f p)) (call2 (p_f p')).
  Proof. intros x x' t R1 R2 Hr Hc Hx. now apply (pi_f _ _ _ _ _ HP). Qed.
  Lemma ftrue_drift : drift_rel al c v dim N (ocall2 (p_f_true p)) (ocall2 (p_f_true p')).
  Proof. intros x x' t R1 R2 Hr Hc Hx. now apply (pi_ftrue _ _ _ _ _ HP). Qed.
  Lemma prev_slice i j : (0 < i)%nat -> (i < k)%nat -> pyidx k (Z.of_nat i - 1) = Some j -> (j < i)%nat.
  Proof. intros H0 Hi J. apply pyidx_some in J. blia. Qed.
  Lemma this_slice i j : (i < k)%nat -> pyidx k (Z.of_nat i) = Some j -> j = i.
  Proof. intros Hi J. rewrite pyidx_nat in J by auto. congruence. Qed.

  Lemma otto_body_aff i A A' : (i < k)%nat -> FR (upto i) A A' ->
    sim (FR (upto (Datatypes.S i))) (otto_body E p kern A (i, nth i grid 0)) (otto_body E p' kern A' (i, nth i grid' 0)).
  Proof.
    intros Hi HA. unfold otto_body. rewrite dim', (pi_brown _ _ _ _ _ HP), (pi_rw _ _ _ _ _ HP), (pi_N _ _ _ _ _ HP), (pi_M _ _ _ _ _ HP). fold dim. fold N.
    replace (nth i grid' 0) with (nth i grid 0 + c) by (symmetry; now apply HG). eapply sim_bind with (P := FR (upto (Datatypes.S i))).
    - destruct (Nat.eqb_spec i 0) as [->|Hne].
      + apply sim_lift. eapply so_weaken; [apply (so_rfold_seq (fun n => FR (fun d _ t => t = 0%nat /\ (d < n)%nat)))|].
        * eapply FR_weaken; [exact HA|]. intros; blia.
        * intros n B B' Hn HB. eapply so_bind; [apply (y_get _ _ (pi_y1 _ _ _ _ _ HP))|]. intros a a' Ha.
          eapply so_bind; [eapply FR_setrow3 with (W' := fun d _ t => t = 0%nat /\ (d < Datatypes.S n)%nat); [exact HB|exact Ha|]|].
          { intros j e i s Hj Hne He Hi' Hs (H1 & H2). rewrite pyidx_0 in Hj by blia. injection Hj as <-. split; [auto|]. destruct (Nat.eq_dec e n); [tauto|blia]. }
          intros C C' HC. destruct (p_brown p); [|exact HC]. eapply so_bind; [apply (y_get _ _ (pi_y2 _ _ _ _ _ HP))|]. intros b b' Hb.
          eapply FR_setrow3; [exact HC|exact Hb|]. auto.
        * intros B B' HB. eapply FR_weaken; [exact HB|]. intros; blia.
      + eapply sim_bind; [apply sim_lift, (FR_getsl (upto i)); [exact HA|]|].
        { intros j d n Hj _ _. apply (prev_slice i j) in Hj; blia. }
        intros x x' Hx. eapply sim_bind with (P := posr al v dim).
        * destruct (Nat.eqb_spec i 1); [apply (em_step_aff E al c v dim N _ _ (pi_g _ _ _ _ _ HP)); [apply f_drift|exact Hx]|
            apply (det_step_aff E al c v Hal HU dim N _ _ (pi_g _ _ _ _ _ HP)); auto using f_drift].
        * intros y y' Hy. apply sim_lift. eapply FR_setsl; [exact HA|exact Hy|]. intros j d n s Hj Hs _ _ _ Hw. apply this_slice in Hj; [|auto]. blia.
    - intros B B' HB. destruct (p_reweight p) eqn:Rw; cbn [andb]; [|now apply sim_ret]. destruct (0 <? i)%nat; [|now apply sim_ret]. apply sim_lift.
      destruct (HW eq_refl) as (HE & HF). eapply so_bind; [apply (FR_getsl _ _ _ _ HB)|].
      { intros j d n Hj _ _. apply this_slice in Hj; blia. }
      intros x x' Hx. eapply so_bind; [apply (pi_U _ _ _ _ _ HP); try apply Hx; apply wf_rect, Hx|]. intros u u' Hu.
      eapply so_bind; [apply (reweight_aff E al v Hal dim N (muls u dt) (muls u' dt) x x' HE HF); [apply times_muls, Hu|exact Hx]|]. intros y y' Hy.
      eapply FR_setsl; [exact HB| |]. { destruct Hy as (Hy & _ & _ & Ry & _). now apply ens_posr. }
      auto.
  Qed.
  Lemma enum g0 : enumerate g0 = map (fun i => (i, nth i g0 0)) (seq 0 (List.length g0)). Proof. apply enumerate_map. Qed.
  Lemma otto_aff : sim (FR (fun _ _ _ => True)) (forward_sampling_Otto E p kern grid (zeros3 dim N k)) (forward_sampling_Otto E p' kern grid' (zeros3 dim N k)).
  Proof.
    unfold forward_sampling_Otto. rewrite !enum, k'. fold k. eapply sim_weaken; [apply (sim_mfold (fun n => FR (upto n)))|].
    - eapply FR_weaken; [apply FR_zeros|]. intros; blia.
    - intros i B B' Hi HB. now apply otto_body_aff.
    - intros A A' H. eapply FR_weaken; [exact H|]. auto.
  Qed.
  Lemma otto_true_body_aff i A A' : (i < k)%nat -> FR (upto i) A A' ->
    sim (FR (upto (Datatypes.S i))) (otto_true_body E p kern A (i, nth i grid 0)) (otto_true_body E p' kern A' (i, nth i grid' 0)).
  Proof.
    intros Hi HA. unfold otto_true_body. rewrite dim', (pi_N _ _ _ _ _ HP), (pi_M _ _ _ _ _ HP). fold dim. fold N.
    replace (nth i grid' 0) with (nth i grid 0 + c) by (symmetry; now apply HG). destruct (Nat.eqb_spec i 0) as [->|Hne].
    - apply sim_lift. eapply FR_pin; [apply (pi_y1 _ _ _ _ _ HP)|exact HA|]. intros j d n s Hj Hs _ _ _ Hw. rewrite pyidx_0 in Hj by blia. injection Hj as <-. blia.
    - eapply sim_bind; [apply sim_lift, (FR_getsl (upto i)); [exact HA|]|].
      { intros j d n Hj _ _. apply (prev_slice i j) in Hj; blia. }
      intros x x' Hx. eapply sim_bind with (P := posr al v dim).
      + destruct (Nat.eqb_spec i 1); [apply (em_step_aff E al c v dim N _ _ (pi_g _ _ _ _ _ HP)); [apply ftrue_drift|exact Hx]|
            apply (det_step_aff E al c v Hal HU dim N _ _ (pi_g _ _ _ _ _ HP)); auto using ftrue_drift].
      + intros y y' Hy. apply sim_lift. eapply FR_setsl; [exact HA|exact Hy|]. intros j d n s Hj Hs _ _ _ Hw. apply this_slice in Hj; [|auto]. blia.
  Qed.
  Lemma otto_true_aff : sim (FR (fun _ _ _ => True)) (forward_sampling_Otto_true E p kern grid (zeros3 dim N k)) (forward_sampling_Otto_true E p' kern grid' (zeros3 dim N k)).
  Proof.
    unfold forward_sampling_Otto_true. rewrite !enum, k'. fold k. eapply sim_weaken; [apply (sim_mfold (fun n => FR (upto n)))|].
    - eapply FR_weaken; [apply FR_zeros|]. intros; blia.
    - intros i B B' Hi HB. now apply otto_true_body_aff.
    - intros A A' H. eapply FR_weaken; [exact H|]. auto.
  Qed.

  (** *** forward flow, stochastic mode, in at most two dimensions *)
  Lemma stoch_particle_aff i n A A' : (0 < i)%nat -> (i < k)%nat -> (n < N)%nat -> FR (fun _ m t => (t < i)%nat \/ (t = i /\ (m < n)%nat)) A A' ->
    sim (FR (fun _ m t => (t < i)%nat \/ (t = i /\ (m < Datatypes.S n)%nat))) (stoch_particle E p i A n) (stoch_particle E p' i A' n).
  Proof.
    intros H0 Hi Hn HA. unfold stoch_particle. rewrite dim'. fold dim. eapply sim_bind; [apply sim_lift, (FR_getsl _ _ _ _ HA)|].
    { intros j d m Hj _ _. apply (prev_slice i j) in Hj; blia. }
    intros x x' ((X1 & X2 & X3) & _ & _ & Rx & Cx). assert (Hv : pts (vec (col x n)) (vec (col x' n))).
    { split; [reflexivity|]. split; [cbn; now rewrite !col_length|]. intros a d Ha Hd. cbn [vec mk mr mc] in Ha, Hd. rewrite col_length in Hd. assert (a = 0%nat) by blia. subst a.
      rewrite !get_vec by (rewrite col_length; blia). rewrite !nth_col by blia. apply X3; blia. }
    assert (Cv : mc (vec (col x n)) = dim). { cbn. now rewrite col_length. }
    eapply sim_bind; [apply sim_lift, (pi_f1 _ _ _ _ _ HP); auto; apply wf_rect, wf_vec|]. intros F F' HF.
    eapply sim_bind; [apply sim_lift, (posc_add al v dim); [now apply pts_posc|apply times_smul, HF]|]. intros a a' Ha.
    eapply sim_bind; [apply noise_sim|]. intros W _ <-. apply sim_lift.
    eapply so_bind; [apply (times_bc_mul al 1); [apply (pi_g _ _ _ _ _ HP)|apply times_refl]|]. intros B B' HB.
    eapply so_bind; [apply (posc_add al v dim); [exact Ha|eapply times_ext; [|exact HB]; ring]|]. intros y y' Hy.
    eapply FR_setcol3; [exact HA|exact Hy|]. intros j d e s Hj Hne _ _ _ [Hw|(-> & Hw)]; [now left|]. right. split; [auto|]. apply this_slice in Hj; [|auto]. blia.
  Qed.
  Context (Hdim2 : p_det p = true \/ (dim <= 2)%nat).
  Lemma stoch_body_aff i A A' : p_det p = false -> (i < k)%nat -> FR (upto i) A A' ->
    sim (FR (upto (Datatypes.S i))) (stoch_body E p A (i, nth i grid 0)) (stoch_body E p' A' (i, nth i grid' 0)).
  Proof.
    intros Hd Hi HA. unfold stoch_body. rewrite (pi_rw _ _ _ _ _ HP), (pi_N _ _ _ _ _ HP). fold N. destruct (Nat.eqb_spec i 0) as [->|Hne].
    - apply sim_lift. eapply so_bind; [apply (y_get _ _ (pi_y1 _ _ _ _ _ HP) 0%nat)|]. intros a a' Ha.
      eapply so_bind; [apply (FR_setrow3 _ (fun d _ t => t = 0%nat /\ d = 0%nat) A A' 0%nat 0%Z a a' HA Ha)|].
      { intros j e n s Hj Hne _ _ _ (-> & ->). rewrite pyidx_0 in Hj by blia. injection Hj as <-. tauto. }
      intros B B' HB. eapply so_bind; [apply (y_get _ _ (pi_y1 _ _ _ _ _ HP) 1%nat)|]. intros b b' Hb.
      apply (FR_setrow3 _ (upto 1%nat) B B' 1%nat 0%Z b b' HB Hb). intros j e n s Hj Hne He _ Hs Hw. assert (s = 0%nat) by blia. subst s.
      rewrite pyidx_0 in Hj by blia. injection Hj as <-. split; [auto|]. destruct Hdim2 as [|]; [congruence|]. destruct (Nat.eq_dec e 1); [tauto|blia].
    - eapply sim_bind with (P := FR (upto (Datatypes.S i))).
      + eapply sim_weaken; [rewrite <- (map_id (seq 0 N)); apply (sim_mfold (fun n => FR (fun _ m t => (t < i)%nat \/ (t = i /\ (m < n)%nat))))|].
        * eapply FR_weaken; [exact HA|]. intros; blia.
        * intros n B B' Hn HB. apply stoch_particle_aff; auto; blia.
        * intros B B' HB. eapply FR_weaken; [exact HB|]. intros; blia.
      + intros B B' HB. destruct (p_reweight p) eqn:Rw; [|now apply sim_ret]. apply sim_lift.
        destruct (HW eq_refl) as (HE & HF). eapply so_bind; [apply (FR_getsl _ _ _ _ HB)|].
        { intros j d n Hj _ _. apply this_slice in Hj; blia. }
        intros x x' Hx. eapply so_bind; [apply (pi_U1 _ _ _ _ _ HP); try apply Hx; apply wf_rect, Hx|]. intros u u' Hu.
        eapply so_bind; [apply (reweight_aff E al v Hal dim N u u' x x' HE HF Hu Hx)|]. intros y y' Hy.
        eapply FR_setsl; [exact HB| |]. { destruct Hy as (Hy & _ & _ & Ry & _). now apply ens_posr. }
        auto.
  Qed.
  Lemma stoch_aff : p_det p = false -> sim (FR (fun _ _ _ => True)) (forward_sampling E p grid (zeros3 dim N k)) (forward_sampling E p' grid' (zeros3 dim N k)).
  Proof.
    intro Hd. unfold forward_sampling. rewrite !enum, k', dim'. fold k. fold dim. eapply sim_bind; [apply (sim_mfold (fun n => FR (upto n)))|].
    - eapply FR_weaken; [apply FR_zeros|]. intros; blia.
    - intros i B B' Hi HB. now apply stoch_body_aff.
    - intros A A' H. apply sim_lift. eapply FR_pin; [apply (pi_y2 _ _ _ _ _ HP)|exact H|]. auto.
  Qed.

  (** *** backward flow *)
  Context (Zf Zf' : arr3 R) (HZ : FR (fun _ _ _ => True) Zf Zf').
  Notation from := (fun n (d i t : nat) => (k <= t + n)%nat).
  Lemma density_aff B B' W t : FR W B B' -> (forall j d i, pyidx k t = Some j -> (d < dim)%nat -> (i < N)%nat -> W d i j) ->
    sim (times (/ al)) (density_estimation E p kern Zf B t) (density_estimation E p' kern Zf' B' t).
  Proof.
    intros HB K. unfold density_estimation. rewrite dim', (pi_M _ _ _ _ _ HP), (pi_N _ _ _ _ _ HP). fold dim. fold N.
    eapply sim_bind; [apply sim_lift, (FR_getsl _ _ _ _ HZ); auto|]. intros z z' (Hz & Wz & Wz' & Rz & Cz).
    eapply sim_bind; [apply sim_lift, (FR_getsl _ _ _ _ HB K)|]. intros b b' (Hb & Wb & Wb' & Rb & Cb).
    eapply sim_bind; [apply sim_lift, (inter_bnds_aff al v Hal dim z z' b b'); auto; blia|]. intros bs bs' (Hbs & Lbs).
    eapply sim_bind; [apply sim_lift, so_eq; reflexivity|]. intros _ _ _.
    eapply sim_bind; [apply (sample_box_aff E al v Hal HU (p_M p) bs bs' Hbs)|]. intros Sx Sx' (HS & RS & CS). apply sim_lift.
    apply (fill_rows_aff (/ al)). intros i Hi.
    eapply so_bind; [apply (score_fun_aff E al v Hal kern nmilli); auto using (ens_mT al v), (two_std_aff al v Hal); cbn [mT mk mc]; congruence|]. intros fn fn' Hfn. now apply Hfn, ens_mT.
  Qed.
  Lemma bw_density_aff B B' W t : FR W B B' -> (forall j d i, pyidx k t = Some j -> (d < dim)%nat -> (i < N)%nat -> W d i j) ->
    sim (times (/ al)) (bw_density_estimation E p kern Zf B t) (bw_density_estimation E p' kern Zf' B' t).
  Proof.
    intros HB K. unfold bw_density_estimation. rewrite dim', (pi_M _ _ _ _ _ HP), (pi_N _ _ _ _ _ HP). fold dim. fold N.
    eapply sim_bind; [apply sim_lift, (FR_getsl _ _ _ _ HB K)|]. intros b b' (Hb & Wb & Wb' & Rb & Cb).
    eapply sim_bind; [apply sim_lift, (FR_getsl _ _ _ _ HZ); auto|]. intros z z' (Hz & Wz & Wz' & Rz & Cz).
    eapply sim_bind; [apply sim_lift, (inter_bnds_aff al v Hal dim z z' b b'); auto; blia|]. intros bs bs' (Hbs & Lbs).
    eapply sim_bind; [apply (sample_box_aff E al v Hal HU (p_M p) bs bs' Hbs)|]. intros Sx Sx' (HS & RS & CS). apply sim_lift.
    apply (fill_rows_aff (/ al)). intros i Hi. apply (score_aff E al v Hal); auto using (ens_mT al v), (two_std_aff al v Hal). cbn [mT mk mc]. congruence.
  Qed.
  Lemma g2_times gro gro' h : times (/ al) gro gro' -> same_outcome (times al) (bc2 nmul (smul h (msq (p_g p))) gro) (bc2 nmul (smul h (msq (p_g p'))) gro').
  Proof.
    intro H. eapply so_weaken; [apply (times_bc_mul (al * al) (/ al)); [apply times_smul, times_msq, (pi_g _ _ _ _ _ HP)|exact H]|].
    intros A A' HA. eapply times_ext; [|exact HA]. field. lra.
  Qed.
  Lemma g2_times' gro gro' : times (/ al) gro gro' -> same_outcome (times al) (bc2 nmul (msq (p_g p)) gro) (bc2 nmul (msq (p_g p')) gro').
  Proof.
    intro H. eapply so_weaken; [apply (times_bc_mul (al * al) (/ al)); [apply times_msq, (pi_g _ _ _ _ _ HP)|exact H]|].
    intros A A' HA. eapply times_ext; [|exact HA]. field. lra.
  Qed.
  Lemma bw_stoch_aff x x' t gro gro' : good al v dim N x x' -> times (/ al) gro gro' -> sim (posr al v dim) (bw_stoch_step E p x t gro) (bw_stoch_step E p' x' (t + c) gro').
  Proof.
    intros (Hx & Wx & Wx' & Rx & Cx) Hgro. unfold bw_stoch_step. rewrite dim', (pi_N _ _ _ _ _ HP). fold dim. fold N.
    eapply sim_bind; [apply sim_lift, f_drift; auto using wf_rect|]. intros F F' HF.
    eapply sim_bind; [apply sim_lift, (posr_sub al v dim); [now apply ens_posr|apply times_muls, HF]|]. intros a a' Ha.
    eapply sim_bind; [apply sim_lift, g2_times, Hgro|]. intros b b' Hb.
    eapply sim_bind; [apply sim_lift, (posr_add al v dim); [exact Ha|exact Hb]|]. intros d d' Hd.
    eapply sim_bind; [apply noise_sim|]. intros W _ <-. apply sim_lift.
    eapply so_bind; [apply (times_bc_mul al 1); [apply (pi_g _ _ _ _ _ HP)|apply times_refl]|]. intros B B' HB. apply posr_add; [exact Hd|]. eapply times_ext; [|exact HB]. ring.
  Qed.
  Lemma bw_det_aff x x' t gro gro' gb gb' : good al v dim N x x' -> times (/ al) gro gro' -> times (/ al) gb gb' ->
    same_outcome (posr al v dim) (bw_det_step p x t gro gb) (bw_det_step p' x' (t + c) gro' gb').
  Proof.
    intros (Hx & Wx & Wx' & Rx & Cx) Hgro Hgb. unfold bw_det_step.
    eapply so_bind; [apply f_drift; auto using wf_rect|]. intros F F' HF.
    eapply so_bind; [apply g2_times', Hgro|]. intros b b' Hb. eapply so_bind; [apply (times_bc_sub al); [exact HF|exact Hb]|]. intros d d' Hd.
    eapply so_bind; [apply g2_times, Hgb|]. intros e e' He. eapply so_bind; [apply (times_bc_add al); [exact Hd|exact He]|]. intros h h' Hh.
    apply (posr_sub al v dim); [now apply ens_posr|apply times_muls, Hh].
  Qed.
  Lemma grid_at j : (0 <= j < Z.of_nat k)%Z -> same_outcome (fun a a' => a' = a + c) (pyget grid j) (pyget grid' j).
  Proof.
    intro Hj. rewrite <- (Z2Nat.id j) by blia. rewrite !(pyget_nat _ _ 0) by (rewrite ?k'; change (List.length grid) with k; blia). cbn [same_outcome]. apply HG. change (List.length grid) with k. blia.
  Qed.
  Lemma bw_body_aff i t0 t0' B B' : (i < k - 1)%nat -> FR (from i) B B' ->
    sim (FR (from (Datatypes.S i))) (bw_body E p kern grid Zf B (i, t0)) (bw_body E p' kern grid' Zf' B' (i, t0')).
  Proof.
    intros Hi HB. unfold bw_body. rewrite dim', k', (pi_det _ _ _ _ _ HP). fold dim. change (List.length grid) with k. destruct (Nat.eqb_spec i 0) as [->|Hne].
    - apply sim_lift. eapply FR_pin; [apply (pi_y2 _ _ _ _ _ HP)|exact HB|]. intros j d n s Hj Hs _ _ Hk Hw. rewrite pyidx_m1 in Hj by blia. injection Hj as <-. blia.
    - assert (Hrev : forall j (d m : nat), pyidx k (Z.of_nat k - Z.of_nat i - 1 + 1) = Some j -> (d < dim)%nat -> (m < N)%nat -> (k <= j + i)%nat).
      { intros j d m Hj _ _. apply pyidx_some in Hj. blia. }
      eapply sim_bind; [apply (density_aff B B' (from i) _ HB Hrev)|]. intros gro gro' Hgro. eapply sim_bind with (P := posr al v dim).
      + destruct (((i =? 1)%nat && p_det p) || negb (p_det p)).
        * eapply sim_bind; [apply sim_lift, (FR_getsl _ _ _ _ HB Hrev)|]. intros x x' Hx.
          eapply sim_bind; [apply sim_lift, grid_at; blia|]. intros t t' ->. now apply bw_stoch_aff.
        * eapply sim_bind; [apply (bw_density_aff B B' (from i) _ HB Hrev)|]. intros gb gb' Hgb. eapply sim_bind; [apply sim_lift, (FR_getsl _ _ _ _ HB Hrev)|]. intros x x' Hx.
          eapply sim_bind; [apply sim_lift, grid_at; blia|]. intros t t' ->. apply sim_lift. now apply bw_det_aff.
      + intros y y' Hy. apply sim_lift. eapply FR_setsl; [exact HB|exact Hy|]. intros j d n s Hj Hs _ _ Hk Hw. apply pyidx_some in Hj. blia.
  Qed.
  Lemma bw_aff : sim (FR (fun _ _ _ => True)) (backward_simulation E p kern grid Zf (zeros3 dim N k)) (backward_simulation E p' kern grid' Zf' (zeros3 dim N k)).
  Proof.
    unfold backward_simulation. rewrite !enum, dim'. fold dim.
    assert (L : List.length (init grid) = (k - 1)%nat) by (unfold init; rewrite removelast_firstn_len, firstn_length; change (List.length grid) with k; blia).
    assert (L' : List.length (init grid') = (k - 1)%nat) by (unfold init; rewrite removelast_firstn_len, firstn_length, k'; blia).
    rewrite L, L'. eapply sim_bind; [apply (sim_mfold (fun n => FR (from n)))|].
    - eapply FR_weaken; [apply FR_zeros|]. intros; blia.
    - intros i B B' Hi HB. now apply bw_body_aff.
    - intros A A' H. apply sim_lift. eapply FR_pin; [apply (pi_y1 _ _ _ _ _ HP)|exact H|]. intros j d n s Hj Hs _ _ Hk _. rewrite pyidx_0 in Hj by blia. injection Hj as <-. blia.
  Qed.
End Run.
