(** C72: the limit-cycle examples. *)
From Coq Require Import String List ZArith Reals Lia Lra Bool.
From Verif Require Import Base.Num Base.Py Base.Arr Lib.ArrLemmas Model.Ext Model.DPFC Model.Controlled Model.LimitCycle.
From Verif Require Import Spec.FlowSpec Spec.TotalSpec Spec.Contracts Spec.ControlledSpec Spec.AffineSpec Spec.LimitCycleSpec.
From Verif Require Import Lib.FlowLemmas Lib.StepLemmas Lib.StochLemmas Props.Flows Props.Queries Props.Grid Props.ScoresR Props.Controlled Props.Undefined Props.Affine Run.RealExt Props.Witnesses.
Import ListNotations.
Local Open Scope R_scope.

Lemma lc0_R a b : lc0 (T := R) a b = fx a b.
Proof. unfold lc0, fx, nsq. cbn. ring. Qed.
Lemma lc1_R a b : lc1 (T := R) a b = fy a b.
Proof. unfold lc1, fy, nsq. cbn. ring. Qed.

(** ** the simulation of the uncontrolled system *)
Section Sim.
  Context {S : Type} (E : Ext R S).

  Lemma setcolumn_nat (F : list (list R)) t v : (t < List.length F)%nat -> setcolumn F (Z.of_nat t) v = Ok (upd F t v).
  Proof. intro H. unfold setcolumn. now rewrite pyidx_nat by auto. Qed.

  (** it never fails, and computes the Euler-Maruyama path *)
  Lemma lc_simulate_total tg s : (1 <= List.length tg)%nat -> exists F, lc_simulate E tg s = (Ok F, em_state E s (List.length tg - 1)) /\
    List.length F = List.length tg /\ (forall t, (t < List.length tg)%nat -> List.length (nth t F []) = 2%nat) /\ em_path E s F.
  Proof.
    intro Hn. unfold lc_simulate. rewrite (enumerate_map tg 0). set (n := List.length tg) in *.
    destruct (mfold_seq_total (lc_sim_body E) (fun i => (i, nth i tg 0))
      (fun i F s1 => List.length F = n /\ (forall t, (t < n)%nat -> List.length (nth t F []) = 2%nat) /\ s1 = em_state E s (i - 1) /\ ((1 <= i)%nat -> nth 0 F [] = [0; -1]) /\
         forall t, (t + 1 < i)%nat -> nth (t + 1) F [] = em_next (nth t F []) (noise_of E (em_state E s t))) n
      (repeat [0; 0] n) s) as (F & s' & H & L & L2 & -> & F0 & Fs).
    - split; [apply repeat_length|]. split; [intros t Ht; rewrite (nth_indep _ [] [0; 0]) by (rewrite repeat_length; auto); now rewrite nth_repeat|].
      split; [reflexivity|]. split; [lia|]. intros; lia.
    - intros i F s1 Hi (L & L2 & -> & F0 & Fs). unfold lc_sim_body. destruct (Nat.eqb_spec i 0) as [->|Hi0].
      + unfold lift. change 0%Z with (Z.of_nat 0). rewrite setcolumn_nat by lia. eexists. eexists. split; [reflexivity|].
        split; [now rewrite upd_length|]. split.
        { intros t Ht. destruct (Nat.eq_dec t 0) as [->|]; [rewrite upd_nth_same by lia; reflexivity|rewrite upd_nth_other by lia; auto]. }
        split; [reflexivity|]. split; [|intros; lia]. intros _. rewrite upd_nth_same by lia. cbn. reflexivity.
      + assert (Hx : List.length (nth (i-1) F []) = 2%nat) by (apply L2; lia).
        unfold bind, lift. replace (Z.of_nat i - 1)%Z with (Z.of_nat (i-1)) by lia. rewrite (pyget_nat F (i-1) []) by lia.
        destruct (nth (i-1) F []) as [|a [|b [|? ?]]] eqn:HF; try discriminate Hx.
        unfold lc_point. change 0%Z with (Z.of_nat 0). change 1%Z with (Z.of_nat 1). rewrite (pyget_nat [a; b] 0 0), (pyget_nat [a; b] 1 0) by (cbn; lia). cbn [rbind nth].
        unfold normal. destruct (x_normal E (em_state E s (i-1)) (nsqrt dt) 1 2) as [h s2] eqn:Hd.
        rewrite setcolumn_nat by lia. eexists. eexists. split; [reflexivity|].
        replace (nsqrt dt) with (sqrt (1/1000)) in Hd by reflexivity.
        split; [now rewrite upd_length|]. split.
        { intros t Ht. destruct (Nat.eq_dec t i) as [->|]; [rewrite upd_nth_same by lia; reflexivity|rewrite upd_nth_other by lia; auto]. }
        split. { replace (Datatypes.S i - 1)%nat with (Datatypes.S (i-1)) by lia. cbn [em_state]. unfold after_noise. now rewrite Hd. }
        split; [intros _; rewrite upd_nth_other by lia; apply F0; lia|].
        intros t Ht. destruct (Nat.eq_dec (t + 1) i) as [Et|Nt]; [|rewrite !upd_nth_other by lia; apply Fs; lia].
        rewrite Et, upd_nth_same by lia. rewrite upd_nth_other by lia. replace t with (i-1)%nat by lia. rewrite HF.
        unfold em_next, noise_of. rewrite Hd. cbn [fst nth seq map]. rewrite !get_mk by lia. rewrite lc0_R, lc1_R. unfold dt, lc_g, nmilli. cbn [nlit nadd nmul ROps]. reflexivity.
    - exists F. split; [exact H|]. split; [exact L|]. split; [exact L2|]. split; [apply F0; lia|]. intros t Ht. apply Fs. lia.
  Qed.

  Lemma arange_R Tend (n : nat) : INR n - 1 < 1000 * Tend <= INR n ->
    List.length (np_arange (T := R) 0 Tend dt) = n /\ forall i, (i < n)%nat -> nth i (np_arange (T := R) 0 Tend dt) 0 = INR i * (1/1000).
  Proof.
    intros H. unfold np_arange. cbv zeta.
    assert (Q : Z.to_nat (nceil (ndiv (nsub Tend 0) dt)) = n).
    { unfold dt, nmilli. cbn [nlit ndiv nsub ROps]. rewrite (ceil_unique _ (Z.of_nat n)); [lia|]. rewrite <- INR_IZR_INZ. unfold Rdiv. split; lra. }
    rewrite Q. rewrite map_length, seq_length. split; [auto|]. intros i Hi. rewrite nth_map_seq by auto. unfold dt, nmilli, nofnat.
    destruct i as [|[|i]]; cbn [nadd nsub nmul nlit ROps]; [cbn; lra|cbn; lra|]. rewrite <- INR_IZR_INZ. lra.
  Qed.
End Sim.

(** ** f as the class and the controlled simulation receive it *)
Lemma lc_field N : field 2 N (call2 (lc_callable (T := R))).
Proof. intros x t H1 H2. cbn [lc_callable call2]. unfold lc_f. rewrite H1. cbn [Nat.leb]. eexists. split; [reflexivity|]. cbn. auto. Qed.
Lemma lc_field1 reps : field1 2 reps (lc_callable (T := R)).
Proof. intros x H1 H2. cbn [lc_callable call1]. unfold lc_f. rewrite H1. cbn [Nat.eqb Nat.leb]. eexists. split; [reflexivity|]. cbn. auto. Qed.
(** one column at a time, the drift of the specification *)
Lemma lc_values x t F : call2 (lc_callable (T := R)) x t = Ok F -> mr x = 2%nat -> forall j, (j < mc x)%nat ->
  get F 0 j = fx (get x 0 j) (get x 1 j) /\ get F 1 j = fy (get x 0 j) (get x 1 j).
Proof.
  intros H H1 j Hj. cbn [lc_callable call2] in H. unfold lc_f in H. rewrite H1 in H. cbn [Nat.leb] in H. injection H as <-.
  rewrite !get_mk by lia. cbn [Nat.eqb]. rewrite <- lc0_R, <- lc1_R. auto.
Qed.

(** the function handed to the package is the system's drift: for every particle of a matrix of points, at every time, and for a single point *)
Theorem C72_drift : let f := p_f (lc_problem (T := R) 0 1 [0; -1] [0; -1] 1 1) in
  (forall x t, mr x = 2%nat -> exists F, call2 f x t = Ok F /\ mr F = 2%nat /\ mc F = mc x /\
     forall j, (j < mc x)%nat -> get F 0 j = fx (get x 0 j) (get x 1 j) /\ get F 1 j = fy (get x 0 j) (get x 1 j)) /\
  (forall x, mr x = 2%nat -> exists F, call1 f x = Ok F /\ mr F = 2%nat /\ mc F = mc x /\
     forall j, (j < mc x)%nat -> get F 0 j = fx (get x 0 j) (get x 1 j) /\ get F 1 j = fy (get x 0 j) (get x 1 j)) /\
  (forall a b, call1 f (vec [a; b]) = Ok (vec [fx a b; fy a b])) /\
  (forall t1 t2 y1 y2 N M, p_f (lc_problem (T := R) t1 t2 y1 y2 N M) = f /\ p_g (lc_problem (T := R) t1 t2 y1 y2 N M) = mk 1 1 (fun _ _ => 1/10)).
Proof.
  cbv zeta. assert (Q : forall x, mr x = 2%nat -> exists F, lc_f (T := R) x = Ok F /\ mr F = 2%nat /\ mc F = mc x /\
     forall j, (j < mc x)%nat -> get F 0 j = fx (get x 0 j) (get x 1 j) /\ get F 1 j = fy (get x 0 j) (get x 1 j)).
  { intros x H. destruct (lc_f (T := R) x) as [F|e] eqn:HF.
    - exists F. split; [reflexivity|]. assert (H2 := HF). unfold lc_f in H2. rewrite H in H2. cbn [Nat.leb] in H2. injection H2 as <-. split; [reflexivity|]. split; [reflexivity|].
      apply (lc_values x 0 _ HF H).
    - exfalso. unfold lc_f in HF. rewrite H in HF. cbn [Nat.leb] in HF. discriminate. }
  split; [intros x t H; exact (Q x H)|]. split.
  { intros x H. destruct (Q x H) as (F & HF & R1). exists F. split; [|exact R1]. cbn [p_f lc_problem lc_callable call1]. rewrite H. exact HF. }
  split.
  { intros a b. cbn [p_f lc_problem lc_callable call1]. rewrite <- lc0_R, <- lc1_R. reflexivity. }
  intros t1 t2 y1 y2 N M. split; [reflexivity|]. cbn. unfold lc_g. cbn. reflexivity.
Qed.

Section Script.
  Context {S : Type} (E : Ext R S) (HI : inv_contract E) (HO : no_overflow E).

  Lemma lc_posed t1 t2 y1 y2 N M : List.length y1 = 2%nat -> List.length y2 = 2%nat -> (1 <= N)%nat -> well_posed (lc_problem t1 t2 y1 y2 N M).
  Proof.
    intros H1 H2 HN. constructor; cbn [lc_problem p_y1 p_y2 p_N p_kern p_f p_g p_reweight]; rewrite ?H1, ?H2; auto; try lia; try discriminate.
    apply lc_field.
  Qed.

  Lemma script_unfold Tend n it iy steps N M s : INR n - 1 < 1000 * Tend <= INR n -> (it + steps < n)%nat -> (iy + steps < n)%nat ->
    exists F, lc_simulate E (np_arange 0 Tend dt) s = (Ok F, em_state E s (n - 1)) /\ List.length F = n /\
      (forall t, (t < n)%nat -> List.length (nth t F []) = 2%nat) /\ em_path E s F /\
      lc_script E Tend it iy steps N M s =
        match construct E (lc_problem (INR it * (1/1000)) (INR (it + steps) * (1/1000)) (nth iy F []) (nth (iy + steps) F []) N M) (em_state E s (n - 1)) with
        | (Ok o, s') => (Ok (F, o), s') | (Err e, s') => (Err e, s') end.
  Proof.
    intros Hn H1 H2. destruct (arange_R Tend n Hn) as (L & G).
    destruct (lc_simulate_total E (np_arange 0 Tend dt) s ltac:(lia)) as (F & HF & LF & L2 & P). rewrite L in *.
    exists F. split; [exact HF|]. split; [exact LF|]. split; [exact L2|]. split; [exact P|].
    unfold lc_script, bind, lift, ret. cbv zeta. change nzero with 0. rewrite HF.
    rewrite (pyget_nat (np_arange 0 Tend dt) it 0), (pyget_nat (np_arange 0 Tend dt) (it + steps) 0), (pyget_nat F iy []), (pyget_nat F (iy + steps) []) by lia.
    rewrite !G by lia. reflexivity.
  Qed.

  (** ** the scripts run to their end, whatever the random numbers, and the bridge joins two states of the simulated path *)
  Theorem C72_script Tend n it iy steps N M s : INR n - 1 < 1000 * Tend <= INR n -> (it + steps < n)%nat -> (iy + steps < n)%nat ->
    (1 <= N)%nat -> (1 <= steps)%nat ->
    exists F o s', lc_script E Tend it iy steps N M s = (Ok (F, o), s') /\
      List.length F = n /\ em_path E s F /\
      List.length (o_grid o) = (steps + 1)%nat /\ (forall i, (i <= steps)%nat -> nth i (o_grid o) 0 = INR (it + i) * (1/1000)) /\
      has_shape (o_Z o) 2 N (steps + 1) /\ has_shape (o_B o) 2 N (steps + 1) /\
      all_at (o_Z o) 0 (nth iy F []) /\ all_at (o_B o) 0 (nth iy F []) /\ all_at (o_B o) steps (nth (iy + steps) F []).
  Proof.
    intros Hn H1 H2 HN Hs. destruct (script_unfold Tend n it iy steps N M s Hn H1 H2) as (F & _ & LF & L2 & P & ->).
    set (p := lc_problem _ _ _ _ N M). assert (WP : well_posed p) by (apply lc_posed; auto; apply L2; lia).
    assert (Hst : p_t2 p = p_t1 p + INR steps * (1/1000)) by (cbn [p lc_problem p_t1 p_t2]; rewrite plus_INR; lra).
    destruct (C18_construction_succeeds_R E HI p (em_state E s (n - 1)) WP HO eq_refl) as (o & s' & Ho).
    { rewrite Hst. pose proof (pos_INR steps). lra. }
    rewrite Ho. exists F, o, s'. split; [reflexivity|]. split; [exact LF|]. split; [exact P|].
    destruct (C01_exact_multiple E p _ o s' steps Ho Hst) as (Lg & _ & _). split; [exact Lg|].
    split. { intros i Hi. rewrite (grid_eq E p _ o s' Ho) in *. rewrite length_grid in Lg. rewrite nth_grid by lia. cbn [p lc_problem p_t1]. rewrite plus_INR. lra. }
    destruct (C05_shape E p _ o s' Ho) as (A1 & A2 & _). rewrite Lg in A1, A2. cbn [p lc_problem p_y1 p_N] in A1, A2. rewrite L2 in A1, A2 by lia.
    split; [exact A1|]. split; [exact A2|].
    split. { apply (C03_forward_starts_at_y1 E p _ o s' Ho eq_refl). lia. }
    destruct (C04_time_reversed_boundaries E p _ o s' Ho ltac:(lia)) as (B0 & B1). rewrite Lg in B1. split; [exact B0|].
    replace (steps + 1 - 1)%nat with steps in B1 by lia. exact B1.
  Qed.

  (** ** script_1.py takes its times from grid index 10 but its states from index 100: because f does not depend on time, this has no effect on the flows *)
  Theorem C72_time_index Tend n it it' iy steps N M s F o s1 : uniform_affine E -> INR n - 1 < 1000 * Tend <= INR n ->
    (it + steps < n)%nat -> (it' + steps < n)%nat -> (iy + steps < n)%nat ->
    lc_script E Tend it iy steps N M s = (Ok (F, o), s1) ->
    exists o', lc_script E Tend it' iy steps N M s = (Ok (F, o'), s1) /\
      List.length (o_grid o') = List.length (o_grid o) /\
      (forall i, (i < List.length (o_grid o))%nat -> nth i (o_grid o') 0 = nth i (o_grid o) 0 + (INR it' - INR it) * (1/1000)) /\
      forall d m t, (d < 2)%nat -> (m < N)%nat -> (t < List.length (o_grid o))%nat -> get3 (o_Z o') d m t = get3 (o_Z o) d m t /\ get3 (o_B o') d m t = get3 (o_B o) d m t.
  Proof.
    intros HU Hn H1 H1' H2 H. destruct (script_unfold Tend n it iy steps N M s Hn H1 H2) as (F1 & HF1 & LF & L2 & P & Q). rewrite Q in H. clear Q.
    destruct (script_unfold Tend n it' iy steps N M s Hn H1' H2) as (F2 & HF2 & _ & _ & _ & Q). rewrite HF1 in HF2. injection HF2 as <-. rewrite Q. clear Q.
    set (p := lc_problem (INR it * _) _ _ _ N M) in *. set (p' := lc_problem (INR it' * _) _ _ _ N M).
    set (c := (INR it' - INR it) * (1/1000)).
    assert (PI : forall y, point_image 1 (fun _ => 0) y y) by (intro y; split; [auto|intros; lra]).
    assert (SO : forall r : res (mat R), same_outcome (times 1) r r) by (intros [a|e]; cbn; [split; [auto|split; [auto|intros; lra]]|auto]).
    assert (EI : forall x x', ensemble_image 1 (fun _ => 0) x x' -> rect x -> rect x' -> x' = x).
    { intros x x' (X1 & X2 & X3) R1 R2. apply wf_eq; [now apply rect_wf|now apply rect_wf|auto|auto|]. intros i j Hi Hj. rewrite X3 by lia. lra. }
    assert (PtI : forall x x', points_image 1 (fun _ => 0) x x' -> rect x -> rect x' -> x' = x).
    { intros x x' (X1 & X2 & X3) R1 R2. apply wf_eq; [now apply rect_wf|now apply rect_wf|auto|auto|]. intros i j Hi Hj. rewrite X3 by lia. lra. }
    assert (HP : problem_image 1 c (fun _ => 0) p p').
    { constructor; cbn [p p' lc_problem p_t1 p_t2 p_y1 p_y2 p_f p_g p_N p_M p_reweight p_U p_kern p_f_true p_brown p_det]; auto.
      - unfold c. lra.
      - unfold c. rewrite !plus_INR. lra.
      - intros x x' t R1 R2 _ _ X. rewrite (EI x x' X R1 R2). apply SO.
      - intros x x' R1 R2 _ _ X. rewrite (PtI x x' X R1 R2). apply SO.
      - split; [auto|]. split; [auto|]. intros; lra. }
    destruct (C66_run E 1 c (fun _ => 0) ltac:(lra) HU p p' HP ltac:(discriminate) (or_introl eq_refl) (em_state E s (n - 1))) as (C1 & C2).
    destruct (construct E p (em_state E s (n-1))) as [[oo|e] s2] eqn:Ho; [|discriminate]. injection H as <- -> ->.
    destruct (construct E p' (em_state E s (n-1))) as [[o'|e] s2] eqn:Ho'; [|destruct C1]. cbn [fst snd] in C1, C2. subst s2.
    exists o'. split; [reflexivity|]. destruct C1 as ((G1 & G2) & (_ & _ & _ & Z4) & (_ & _ & _ & B4) & _). split; [exact G1|]. split; [exact G2|].
    destruct (C05_shape E p _ o s1 Ho) as ((D1 & N1 & K1 & _) & (D2 & N2 & K2 & _) & _). cbn [p lc_problem p_y1 p_N] in D1, N1, D2, N2. rewrite L2 in D1, D2 by lia.
    intros d m t Hd Hm Ht. rewrite Z4, B4 by lia. split; lra.
  Qed.

  (** ** the whole script Bridge_2D_on_Limit_Cycle.py, controlled trajectories included *)
  Theorem C72_controlled Tend n it iy steps N M reps s : INR n - 1 < 1000 * Tend <= INR n -> (it + steps < n)%nat -> (iy + steps < n)%nat ->
    (1 <= N)%nat -> (1 <= steps)%nat ->
    exists F o s1 c s2, lc_script E Tend it iy steps N M s = (Ok (F, o), s1) /\
      controlled_simulation_script E o lc_callable (1/10) (nth iy F []) reps s1 = (Ok c, s2) /\
      has_shape (ct_F c) 2 reps steps /\ has_shape (ct_u c) 2 reps (steps + 1) /\
      simulated_until E steps o lc_callable (1/10) (nth iy F []) (ct_F c) (ct_u c) (ct_n c) s1 s2.
  Proof.
    intros Hn H1 H2 HN Hs. destruct (script_unfold Tend n it iy steps N M s Hn H1 H2) as (F1 & _ & LF & L2 & _ & Q).
    destruct (C72_script Tend n it iy steps N M s Hn H1 H2 HN Hs) as (F & o & s1 & H & _ & _ & Lg & _ & HZ & HB & _).
    pose proof H as H'. rewrite Q in H'. clear Q. set (p := lc_problem _ _ _ _ N M) in H'.
    destruct (construct E p (em_state E s (n-1))) as [[oo|e] s2] eqn:Ho; [|discriminate]. injection H' as -> -> ->.
    destruct (construct_consistent E p _ o s1 Ho) as (Pp & Hc). rewrite Lg in Hc. cbn [p lc_problem p_y1 p_N] in Hc.
    assert (Hf : field1 (List.length (nth iy F [])) reps (lc_callable (T := R))) by (rewrite L2 by lia; apply lc_field1).
    assert (Hk : o_kern o = "RBF"%string) by (destruct (construct_ok E p _ o s1 Ho) as (_ & Hk & _); exact Hk).
    destruct (C69_runs E o N (steps + 1) lc_callable (1/10) (nth iy F []) reps s1 HI HO Hc HN Hk ltac:(rewrite Pp; reflexivity) Hf) as (_ & (c & s2 & Hcs)).
    exists F, o, s1, c, s2. split; [exact H|]. split; [exact Hcs|].
    destruct (Nat.eq_dec steps 0) as [->|]; [lia|].
    destruct (C69_script E o N (steps + 1) lc_callable (1/10) (nth iy F []) reps Hc Hf s1 c s2 Hcs ltac:(lia)) as (A1 & A2 & A3 & A4 & _).
    rewrite L2 in A1, A2 by lia. replace (steps + 1 - 1)%nat with steps in * by lia. auto.
  Qed.
End Script.

(** ** the two scripts as they are in the repository *)
Example W72_script_1 : exists F o s', lc_script RealExt 500 10 100 2000 200 40 0%nat = (Ok (F, o), s') /\
  List.length (o_grid o) = 2001%nat /\ nth 0 (o_grid o) 0 = 1/100 /\ all_at (o_B o) 0 (nth 100 F []).
Proof.
  destruct real_parts as (HI & _ & _ & _ & HO).
  assert (Hn : INR (Z.to_nat 500000) - 1 < 1000 * 500 <= INR (Z.to_nat 500000)) by (rewrite INR_IZR_INZ, Z2Nat.id by lia; lra).
  destruct (C72_script RealExt HI HO 500 (Z.to_nat 500000) 10 100 2000 200 40 0%nat Hn) as (F & o & s' & H & _ & _ & L & G & _ & _ & _ & B & _); try lia.
  exists F, o, s'. split; [exact H|]. split; [rewrite L; reflexivity|]. split; [|exact B]. rewrite G by lia. cbn [Nat.add]. rewrite INR_IZR_INZ. cbn [Z.of_nat Pos.of_succ_nat Pos.succ]. lra.
Qed.
(** the whole bridge of script_1.py is the same if its initial time had been taken at index 100, like its initial state *)
Example W72_time_index : exists F o o' s', lc_script RealExt 500 10 100 2000 200 40 0%nat = (Ok (F, o), s') /\
  lc_script RealExt 500 100 100 2000 200 40 0%nat = (Ok (F, o'), s') /\ List.length (o_grid o) = 2001%nat /\
  get3 (o_Z o') 1 150 1000 = get3 (o_Z o) 1 150 1000.
Proof.
  destruct real_parts as (HI & _ & _ & _ & HO).
  assert (Hn : INR (Z.to_nat 500000) - 1 < 1000 * 500 <= INR (Z.to_nat 500000)) by (rewrite INR_IZR_INZ, Z2Nat.id by lia; lra).
  destruct (C72_script RealExt HI HO 500 (Z.to_nat 500000) 10 100 2000 200 40 0%nat Hn) as (F & o & s' & H & _ & _ & L & _); try lia.
  destruct (C72_time_index RealExt 500 (Z.to_nat 500000) 10 100 100 2000 200 40 0%nat F o s' RealExt_uniform Hn) as (o' & H' & _ & _ & G); try lia; auto.
  exists F, o, o', s'. split; [exact H|]. split; [exact H'|]. split; [rewrite L; reflexivity|]. apply G; rewrite ?L; lia.
Qed.
