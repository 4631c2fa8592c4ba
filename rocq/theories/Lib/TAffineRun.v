(** Whole torch runs in other units and with another origin (no modelling content). *)
From Coq Require Import String List ZArith Reals Lra Lia Bool.
From Verif Require Import Base.Num Base.Py Base.Arr Lib.ArrLemmas Model.Ext Model.Cdist Model.Reweight Model.Score Model.ScoreTorch Model.DPFC Model.TDPFC.
From Verif Require Import Spec.FlowSpec Spec.RealSpec Spec.Contracts Spec.AffineSpec Lib.FlowLemmas Lib.StepLemmas Lib.RSum Lib.RBase Lib.ReweightLemmas Lib.Sim Lib.AffineLemmas Lib.AffineScore Lib.AffineSteps Lib.AffineRun Lib.TAffineScore Lib.TAffineSteps.
Import ListNotations.
Local Open Scope string_scope.
Local Open Scope R_scope.

Section TRun.
  Context {S : Type} (E : Ext R S) (al c : R) (v : nat -> R) (Hal : 0 < al) (HU : tuniform_affine E).
  Context (p p' : params R) (HP : problem_image al c v p p').
  Context (HW : p_reweight p = true -> emd_plans (x_otemd E)).
  Let dim := List.length (p_y1 p).
  Let N := p_N p.
  Context (grid grid' : list R) (HG : grid_image c grid grid').
  Let k := List.length grid.
  Ltac klia := unfold k in *; cbn beta in *; lia.
  Notation FR := (FR al v p grid).
  Notation upto := (fun n (d i t : nat) => (t < n)%nat).
  Notation dim' := (dim' al c v p p' HP).
  Notation k' := (k' c grid grid' HG).

  Lemma FR_tsetsl (W W' : nat -> nat -> nat -> Prop) A A' t y y' : FR W A A' -> posr al v dim y y' ->
    (forall j d i s, pyidx k t = Some j -> s <> j -> (d < dim)%nat -> (i < N)%nat -> (s < k)%nat -> W' d i s -> W d i s) ->
    same_outcome (FR W') (tsetsl A t y) (tsetsl A' t y').
  Proof. intros H Hy K. apply so_tor. eapply FR_setsl; eauto. Qed.

  Lemma t_reweight_step U U' A A' i (e : mat R -> mat R) : emd_plans (x_otemd E) -> (i < k)%nat -> FR (upto (Datatypes.S i)) A A' ->
    (forall x x', good al v dim N x x' -> same_outcome (times 1) (U x) (U' x')) -> (forall u u', times 1 u u' -> times 1 (e u) (e u')) ->
    same_outcome (FR (upto (Datatypes.S i)))
      (let! x := getsl A (Z.of_nat i) in let! u := U x in let! y := t_reweight_slice E N (e u) x in tsetsl A (Z.of_nat i) y)
      (let! x := getsl A' (Z.of_nat i) in let! u := U' x in let! y := t_reweight_slice E N (e u) x in tsetsl A' (Z.of_nat i) y).
  Proof.
    intros Rw Hi HA HUU He. eapply so_bind; [apply (FR_getsl al v p grid _ _ _ _ HA)|].
    { intros j d n Hj _ _. apply this_slice in Hj; blia. }
    intros x x' Hx. eapply so_bind; [apply HUU, Hx|]. intros u u' Hu.
    eapply so_bind; [apply (t_reweight_aff E al v Hal dim N (e u) (e u') x x' Rw); [now apply He|exact Hx]|]. intros y y' Hy.
    eapply FR_tsetsl; [exact HA| |auto]. destruct Hy as (Hy & _ & _ & Ry & _). now apply ens_posr.
  Qed.
  Lemma t_otto_body_aff i A A' : (i < k)%nat -> FR (upto i) A A' ->
    sim (FR (upto (Datatypes.S i))) (t_otto_body E p A (i, nth i grid 0)) (t_otto_body E p' A' (i, nth i grid' 0)).
  Proof.
    intros Hi HA. unfold t_otto_body. rewrite dim', (pi_brown _ _ _ _ _ HP), (pi_rw _ _ _ _ _ HP), (pi_N _ _ _ _ _ HP), (pi_M _ _ _ _ _ HP). fold dim. fold N.
    replace (nth i grid' 0) with (nth i grid 0 + c) by (symmetry; now apply HG). eapply sim_bind with (P := FR (upto (Datatypes.S i))).
    - destruct (Nat.eqb_spec i 0) as [->|Hne].
      + apply sim_lift. eapply so_weaken; [apply (so_rfold_seq (fun n => FR (fun d _ t => t = 0%nat /\ (d < n)%nat)))|].
        * eapply FR_weaken; [exact HA|]. intros; blia.
        * intros n B B' Hn HB. eapply so_bind; [apply (y_get al v p grid _ _ (pi_y1 _ _ _ _ _ HP))|]. intros a a' Ha.
          eapply so_bind; [eapply FR_setrow3 with (W' := fun d _ t => t = 0%nat /\ (d < Datatypes.S n)%nat); [exact HB|exact Ha|]|].
          { intros j e i s Hj Hne He Hi' Hs (H1 & H2). rewrite pyidx_0 in Hj by blia. injection Hj as <-. split; [auto|]. destruct (Nat.eq_dec e n); [tauto|blia]. }
          intros C C' HC. destruct (p_brown p); [|exact HC]. eapply so_bind; [apply (y_get al v p grid _ _ (pi_y2 _ _ _ _ _ HP))|]. intros b b' Hb.
          eapply FR_setrow3; [exact HC|exact Hb|]. auto.
        * intros B B' HB. eapply FR_weaken; [exact HB|]. intros; blia.
      + eapply sim_bind; [apply sim_lift, (FR_getsl al v p grid (upto i)); [exact HA|]|].
        { intros j d n Hj _ _. apply (prev_slice p grid i j) in Hj; blia. }
        intros x x' Hx. eapply sim_bind with (P := posr al v dim).
        * destruct (Nat.eqb_spec i 1); [apply (t_em_step_aff E al c v dim N _ _ (pi_g _ _ _ _ _ HP)); [apply (f_drift al c v p p' HP)|exact Hx]|].
          apply (t_det_step_aff E al c v Hal dim N HU _ _ (pi_g _ _ _ _ _ HP)); [apply (f_drift al c v p p' HP)|exact Hx].
        * intros y y' Hy. apply sim_lift. eapply FR_tsetsl; [exact HA|exact Hy|]. intros j d n s Hj Hs _ _ _ Hw. apply this_slice in Hj; [|auto]. blia.
    - intros B B' HB. destruct (p_reweight p) eqn:Rw; cbn [andb]; [|now apply sim_ret]. destruct (0 <? i)%nat; [|now apply sim_ret]. apply sim_lift.
      apply (t_reweight_step (fun x => ocall2 (p_U p) x (nth i grid 0)) (fun x => ocall2 (p_U p') x (nth i grid 0 + c)) B B' i (fun u => muls u dt) (HW eq_refl)); auto.
      + intros x x' Hx. apply (pi_U _ _ _ _ _ HP); try apply Hx; apply wf_rect, Hx.
      + intros u u' Hu. now apply times_muls.
  Qed.
  Lemma t_otto_aff : sim (FR (fun _ _ _ => True)) (t_forward_sampling_Otto E p grid (zeros3 dim N k)) (t_forward_sampling_Otto E p' grid' (zeros3 dim N k)).
  Proof.
    unfold t_forward_sampling_Otto. rewrite !enum, k'. fold k. eapply sim_weaken; [apply (sim_mfold (fun n => FR (upto n)))|].
    - eapply FR_weaken; [apply FR_zeros|]. intros; blia.
    - intros i B B' Hi HB. now apply t_otto_body_aff.
    - intros A A' H. eapply FR_weaken; [exact H|]. auto.
  Qed.

  (** stochastic mode, in at most two dimensions *)
  Lemma t_stoch_body_aff i A A' : (dim <= 2)%nat -> (i < k)%nat -> FR (upto i) A A' ->
    sim (FR (upto (Datatypes.S i))) (t_stoch_body E p A (i, nth i grid 0)) (t_stoch_body E p' A' (i, nth i grid' 0)).
  Proof.
    intros Hd Hi HA. unfold t_stoch_body. rewrite dim', (pi_rw _ _ _ _ _ HP), (pi_N _ _ _ _ _ HP). fold N. fold dim.
    replace (nth i grid' 0) with (nth i grid 0 + c) by (symmetry; now apply HG). destruct (Nat.eqb_spec i 0) as [->|Hne].
    - apply sim_lift. eapply so_bind; [apply (y_get al v p grid _ _ (pi_y1 _ _ _ _ _ HP) 0%nat)|]. intros a a' Ha.
      eapply so_bind; [apply (FR_setrow3 al v p grid _ (fun d _ t => t = 0%nat /\ d = 0%nat) A A' 0%nat 0%Z a a' HA Ha)|].
      { intros j e n s Hj Hne _ _ _ (-> & ->). rewrite pyidx_0 in Hj by blia. injection Hj as <-. tauto. }
      intros B B' HB. eapply so_bind; [apply (y_get al v p grid _ _ (pi_y1 _ _ _ _ _ HP) 1%nat)|]. intros b b' Hb.
      apply (FR_setrow3 al v p grid _ (upto 1%nat) B B' 1%nat 0%Z b b' HB Hb). intros j e n s Hj Hne He _ Hs Hw. assert (s = 0%nat) by blia. subst s.
      rewrite pyidx_0 in Hj by blia. injection Hj as <-. split; [auto|]. fold dim in He. destruct (Nat.eq_dec e 1); [tauto|blia].
    - eapply sim_bind; [apply sim_lift, (FR_getsl al v p grid (upto i)); [exact HA|]|].
      { intros j d n Hj _ _. apply (prev_slice p grid i j) in Hj; blia. }
      intros x x' Hx. eapply sim_bind; [apply (t_em_step_aff E al c v dim N _ _ (pi_g _ _ _ _ _ HP)); [apply (f_drift al c v p p' HP)|exact Hx]|]. intros y y' Hy.
      eapply sim_bind with (P := FR (upto (Datatypes.S i))).
      { apply sim_lift. eapply FR_tsetsl; [exact HA|exact Hy|]. intros j d n s Hj Hs _ _ _ Hw. apply this_slice in Hj; [|auto]. blia. }
      intros B B' HB. destruct (p_reweight p) eqn:Rw; [|now apply sim_ret]. apply sim_lift.
      apply (t_reweight_step (ocall1 (p_U p)) (ocall1 (p_U p')) B B' i (fun u => u) (HW eq_refl)); auto.
      intros z z' Hz. apply (pi_U1 _ _ _ _ _ HP); try apply Hz; apply wf_rect, Hz.
  Qed.
  Lemma t_stoch_aff : (dim <= 2)%nat -> sim (FR (fun _ _ _ => True)) (t_forward_sampling E p grid (zeros3 dim N k)) (t_forward_sampling E p' grid' (zeros3 dim N k)).
  Proof.
    intro Hd. unfold t_forward_sampling. rewrite !enum, k'. fold k. eapply sim_weaken; [apply (sim_mfold (fun n => FR (upto n)))|].
    - eapply FR_weaken; [apply FR_zeros|]. intros; blia.
    - intros i B B' Hi HB. now apply t_stoch_body_aff.
    - intros A A' H. eapply FR_weaken; [exact H|]. auto.
  Qed.

  (** backward flow *)
  Context (kern : string) (Zf Zf' : arr3 R) (HZ : FR (fun _ _ _ => True) Zf Zf').
  Notation from := (fun n (d i t : nat) => (k <= t + n)%nat).
  Lemma t_density_aff B B' W t : FR W B B' -> (forall j d i, pyidx k t = Some j -> (d < dim)%nat -> (i < N)%nat -> W d i j) ->
    sim (times (/ al)) (t_density_estimation E p kern Zf B t) (t_density_estimation E p' kern Zf' B' t).
  Proof.
    intros HB K. unfold t_density_estimation. rewrite dim', (pi_M _ _ _ _ _ HP). fold dim.
    eapply sim_bind; [apply sim_lift, (FR_getsl al v p grid _ _ _ _ HZ); auto|]. intros z z' (Hz & Wz & Wz' & Rz & Cz).
    eapply sim_bind; [apply sim_lift, (FR_getsl al v p grid _ _ _ _ HB K)|]. intros b b' (Hb & Wb & Wb' & Rb & Cb). fold dim in Rz, Rb.
    eapply sim_bind; [apply sim_lift, (so_rmapM_i (fun i (b b' : R * R) => fst b' = al * fst b + v i /\ snd b' = al * snd b + v i)); intros i Hi; apply (dens_bnd_aff al v Hal); auto; blia|]. intros bs bs' (Hbs & Lbs).
    eapply sim_bind; [apply (t_sample_box_aff E al v Hal HU (p_M p) bs bs' Hbs)|]. intros Sx Sx' (HS & RS & CS). apply sim_lift.
    eapply so_bind; [apply (tscore_fun_aff E al v Hal nmilli kern _ _ _ _ _ _ (ens_mT al v _ _ Hz) HS)|].
    { cbn [mT mk mc]. congruence. } { cbn. apply (two_tstd_aff al v Hal), Hz. }
    intros fn fn' Hfn. eapply so_rmap; [apply Hfn; [apply ens_mT, Hb|cbn [mT mk mc]; congruence]|]. intros. now apply times_mT.
  Qed.
  Lemma t_bw_density_aff B B' W t : FR W B B' -> (forall j d i, pyidx k t = Some j -> (d < dim)%nat -> (i < N)%nat -> W d i j) ->
    sim (times (/ al)) (t_bw_density_estimation E p kern Zf B t) (t_bw_density_estimation E p' kern Zf' B' t).
  Proof.
    intros HB K. unfold t_bw_density_estimation. rewrite dim', (pi_M _ _ _ _ _ HP). fold dim.
    eapply sim_bind; [apply sim_lift, (FR_getsl al v p grid _ _ _ _ HB K)|]. intros b b' (Hb & Wb & Wb' & Rb & Cb).
    eapply sim_bind; [apply sim_lift, (FR_getsl al v p grid _ _ _ _ HZ); auto|]. intros z z' (Hz & Wz & Wz' & Rz & Cz). fold dim in Rz, Rb.
    eapply sim_bind; [apply sim_lift, (hull_bnds_aff al v Hal dim z z' b b'); auto; blia|]. intros bs bs' (Hbs & Lbs).
    eapply sim_bind; [apply (t_sample_box_aff E al v Hal HU (p_M p) bs bs' Hbs)|]. intros Sx Sx' (HS & RS & CS). apply sim_lift.
    eapply so_weaken; [apply (tscore_aff E al v Hal nmilli kern _ _ _ _ _ _ (ens_mT al v _ _ Hb) HS)|].
    { cbn [mT mk mc]. congruence. } { cbn. apply (two_tstd_aff al v Hal), Hb. }
    now intros A A' (H & _).
  Qed.
  Lemma tg2_times gro gro' h : times (/ al) gro gro' -> same_outcome (times al) (tbc2 nmul (smul h (msq (p_g p))) gro) (tbc2 nmul (smul h (msq (p_g p'))) gro').
  Proof. intro H. apply so_tor. now apply (g2_times al c v Hal p p' HP). Qed.
  Lemma tg2_times' gro gro' : times (/ al) gro gro' -> same_outcome (times al) (tbc2 nmul (msq (p_g p)) gro) (tbc2 nmul (msq (p_g p')) gro').
  Proof. intro H. apply so_tor. now apply (g2_times' al c v Hal p p' HP). Qed.
  Lemma t_bw_stoch_aff x x' t gro gro' : good al v dim N x x' -> times (/ al) gro gro' -> sim (posr al v dim) (t_bw_stoch_step E p x t gro) (t_bw_stoch_step E p' x' (t + c) gro').
  Proof.
    intros (Hx & Wx & Wx' & Rx & Cx) Hgro. unfold t_bw_stoch_step. rewrite dim', (pi_N _ _ _ _ _ HP). fold dim. fold N.
    eapply sim_bind; [apply sim_lift, (f_drift al c v p p' HP); auto using wf_rect|]. intros F F' HF.
    eapply sim_bind; [apply sim_lift, so_tor, (posr_sub al v dim); [now apply ens_posr|apply times_muls, HF]|]. intros a a' Ha.
    eapply sim_bind; [apply sim_lift, tg2_times, Hgro|]. intros b b' Hb.
    eapply sim_bind; [apply sim_lift, so_tor, (posr_add al v dim); [exact Ha|exact Hb]|]. intros d d' Hd.
    eapply sim_bind; [apply noise_sim|]. intros W _ <-. apply sim_lift.
    eapply so_bind; [apply (tbc_mul al 1); [apply (pi_g _ _ _ _ _ HP)|apply times_refl]|]. intros B B' HB. apply so_tor, posr_add; [exact Hd|]. eapply times_ext; [|exact HB]. ring.
  Qed.
  Lemma t_bw_det_aff x x' t gro gro' gb gb' : good al v dim N x x' -> times (/ al) gro gro' -> times (/ al) gb gb' ->
    same_outcome (posr al v dim) (t_bw_det_step p x t gro gb) (t_bw_det_step p' x' (t + c) gro' gb').
  Proof.
    intros (Hx & Wx & Wx' & Rx & Cx) Hgro Hgb. unfold t_bw_det_step.
    eapply so_bind; [apply (f_drift al c v p p' HP); auto using wf_rect|]. intros F F' HF.
    eapply so_bind; [apply tg2_times', Hgro|]. intros b b' Hb. eapply so_bind; [apply (tbc_sub al); [exact HF|exact Hb]|]. intros d d' Hd.
    eapply so_bind; [apply tg2_times, Hgb|]. intros e e' He. eapply so_bind; [apply (tbc_add al); [exact Hd|exact He]|]. intros h h' Hh.
    apply so_tor, (posr_sub al v dim); [now apply ens_posr|apply times_muls, Hh].
  Qed.
  Lemma t_grid_at j : (0 <= j < Z.of_nat k)%Z -> same_outcome (fun a a' => a' = a + c) (pyget grid j) (pyget grid' j).
  Proof.
    intro Hj. rewrite <- (Z2Nat.id j) by blia. rewrite !(pyget_nat _ _ 0) by (rewrite ?k'; change (List.length grid) with k; blia). cbn [same_outcome]. apply HG. change (List.length grid) with k. blia.
  Qed.
  Lemma t_bw_body_aff i t0 t0' B B' : (i < k - 1)%nat -> FR (from i) B B' ->
    sim (FR (from (Datatypes.S i))) (t_bw_body E p kern grid Zf B (i, t0)) (t_bw_body E p' kern grid' Zf' B' (i, t0')).
  Proof.
    intros Hi HB. unfold t_bw_body. rewrite dim', k', (pi_det _ _ _ _ _ HP). fold dim. change (List.length grid) with k. destruct (Nat.eqb_spec i 0) as [->|Hne].
    - apply sim_lift. eapply FR_pin; [apply (pi_y2 _ _ _ _ _ HP)|exact HB|]. intros j d n s Hj Hs _ _ Hk Hw. rewrite pyidx_m1 in Hj by blia. injection Hj as <-. unfold k in *. blia.
    - assert (Hrev : forall j (d m : nat), pyidx k (Z.of_nat k - Z.of_nat i - 1 + 1) = Some j -> (d < dim)%nat -> (m < N)%nat -> (k <= j + i)%nat).
      { intros j d m Hj _ _. apply pyidx_some in Hj. blia. }
      eapply sim_bind; [apply (t_density_aff B B' (from i) _ HB Hrev)|]. intros gro gro' Hgro. eapply sim_bind with (P := posr al v dim).
      + destruct (((i =? 1)%nat && p_det p) || negb (p_det p)).
        * eapply sim_bind; [apply sim_lift, (FR_getsl al v p grid _ _ _ _ HB Hrev)|]. intros x x' Hx.
          eapply sim_bind; [apply sim_lift, (t_grid_at _); blia|]. intros t t' ->. now apply t_bw_stoch_aff.
        * eapply sim_bind; [apply (t_bw_density_aff B B' (from i) _ HB Hrev)|]. intros gb gb' Hgb. eapply sim_bind; [apply sim_lift, (FR_getsl al v p grid _ _ _ _ HB Hrev)|]. intros x x' Hx.
          eapply sim_bind; [apply sim_lift, (t_grid_at _); blia|]. intros t t' ->. apply sim_lift. apply t_bw_det_aff; auto using times_mT.
      + intros y y' Hy. apply sim_lift. eapply FR_tsetsl; [exact HB|exact Hy|]. intros j d n s Hj Hs _ _ Hk Hw. apply pyidx_some in Hj. blia.
  Qed.
  Lemma t_bw_aff : sim (FR (fun _ _ _ => True)) (t_backward_simulation E p kern grid Zf (zeros3 dim N k)) (t_backward_simulation E p' kern grid' Zf' (zeros3 dim N k)).
  Proof.
    unfold t_backward_simulation. rewrite !enum, dim'. fold dim.
    assert (L : List.length (init grid) = (k - 1)%nat) by (unfold init; rewrite removelast_firstn_len, firstn_length; change (List.length grid) with k; blia).
    assert (L' : List.length (init grid') = (k - 1)%nat) by (unfold init; rewrite removelast_firstn_len, firstn_length, k'; fold k; blia).
    rewrite L, L'. eapply sim_bind; [apply (sim_mfold (fun n => FR (from n)))|].
    - eapply FR_weaken; [apply FR_zeros|]. intros d i t _ _ Ht. fold k in Ht. intros; blia.
    - intros i B B' Hi HB. now apply t_bw_body_aff.
    - intros A A' H. apply sim_lift. eapply FR_pin; [apply (pi_y1 _ _ _ _ _ HP)|exact H|]. intros j d n s Hj Hs _ _ Hk _. rewrite pyidx_0 in Hj by blia. injection Hj as <-. fold k in Hk. blia.
  Qed.
End TRun.
