(** C73 over the reals: the Kuramoto class and the script run to their end, and the phases they produce lie in [0, 2 pi). *)
From Coq Require Import String List ZArith Reals Lia Lra Bool.
From Verif Require Import Base.Num Base.Py Base.Arr Lib.ArrLemmas Model.Ext Model.Cdist Model.Score Model.DPFC Model.Kuramoto.
From Verif Require Import Spec.FlowSpec Spec.TotalSpec Spec.RealSpec Spec.Contracts Spec.KuramotoSpec Spec.OscSpec.
From Verif Require Import Lib.RBase Lib.RSum Lib.FlowLemmas Lib.StepLemmas Lib.StochLemmas Lib.RunLemmas Lib.TotalLemmas Lib.KuramotoLemmas Lib.KuramotoTotal.
From Verif Require Props.LimitCycle.
From Verif Require Import Props.Kuramoto Props.KuramotoSim Props.Oscillators.
Import ListNotations.
Local Open Scope R_scope.

(** all entries of a slice are phases in [0, 2 pi) *)
Definition phases (x : mat R) : Prop := forall d m, (d < mr x)%nat -> (m < mc x)%nat -> 0 <= get x d m < 2 * PI.

Section Phases.
  Context {S : Type} (E : Ext R S) (wrap : R -> R) (HW : wraps wrap) (mvn : S -> list R -> mat R -> nat -> (nat -> nat -> R) * S).
  Lemma wrap_range x : 0 <= wrap x < 2 * PI. Proof. apply HW. Qed.
  Lemma step_phases rw h kern m g fd U i t x x' s s' : phase_step E wrap rw h kern m g fd U i t x x' s s' -> mr x' = mr x -> mc x' = mc x -> phases x'.
  Proof.
    intros H R C d n Hd Hn. rewrite R in Hd. rewrite C in Hn.
    assert (Hm : forall y, (if (i =? 1)%nat then phase_noisy_step E wrap h g fd (nsub t h) else phase_flow_step E wrap h kern m g fd (nsub t h)) x y s s' -> 0 <= get y d n < 2 * PI).
    { intros y Q. destruct (i =? 1)%nat.
      - destruct Q as (F & W & _ & _ & Q). rewrite Q by auto. apply wrap_range.
      - destruct Q as (F & bnds & rows & G & _ & _ & _ & _ & _ & Q). rewrite Q by auto. apply wrap_range. }
    unfold phase_step in H. destruct rw.
    - destruct H as (y & u & _ & Ry & Cy & _ & _ & Q). unfold phase_reweighted in Q. cbv zeta in Q.
      destruct Q as (mx & cost & _ & _ & _ & _ & _ & Q). rewrite Q by congruence. apply wrap_range.
    - now apply Hm.
  Qed.
  Lemma back_phases noisy h kern m g fd t z b b' s s' : phase_back_step E wrap noisy h kern m g fd t z b b' s s' -> mr b' = mr b -> mc b' = mc b -> phases b'.
  Proof.
    intros (F & G & s1 & _ & _ & Q) R C d n Hd Hn. rewrite R in Hd. rewrite C in Hn. destruct noisy.
    - destruct Q as (W & _ & Q). rewrite Q by auto. apply wrap_range.
    - destruct Q as (G' & _ & Q). rewrite Q by auto. apply wrap_range.
  Qed.

  (** every state the class computes is a phase in [0, 2 pi); the two it copies are not reduced: the initial ensemble of the forward flow and
      the first column of the reversed flow *)
  Theorem C73_phases p s0 o s1 : k_construct E wrap mvn p s0 = (Ok o, s1) ->
    (forall i, (1 <= i < List.length (ko_grid o))%nat -> phases (slice (ko_Z o) i)) /\
    (List.length (ko_grid o) = k_k p -> forall i, (1 <= i < List.length (ko_grid o))%nat -> phases (slice (ko_B o) i)).
  Proof.
    intro H. set (n := List.length (ko_grid o)).
    assert (G : ko_grid o = np_arange (k_t1 p) (nadd (k_t2 p) (ndiv (k_dt p) ntwo)) (k_dt p)). { destruct (run_parts E wrap mvn p s0 o s1 H) as (? & ? & ? & _ & _ & ->). reflexivity. }
    assert (A : forall i, (1 <= i < n)%nat -> phases (slice (ko_Z o) i)).
    { intros i Hi. destruct (C73_forward_flow E wrap mvn p s0 o s1 H) as (_ & Hk & HS & h & sa & sm & sg & _ & _ & _ & _ & Hst & _). { rewrite <- G. fold n. lia. }
      rewrite <- G in Hk, Hst. fold n in Hk, Hst. destruct (sh_slice _ _ _ _ i HS ltac:(lia)) as (_ & R1 & C1). destruct (sh_slice _ _ _ _ (i-1) HS ltac:(lia)) as (_ & R2 & C2).
      eapply step_phases; [apply Hst; exact Hi|congruence|congruence]. }
    split; [exact A|]. intros Hk i Hi. fold n in Hk.
    destruct (C73_reverse_flow E wrap mvn p s0 o s1 H) as (HS & Hl & _ & sm & sg & _ & _ & Hst). { rewrite <- G. exact Hk. } { rewrite <- G. fold n. lia. }
    rewrite <- G in HS, Hl, Hst. fold n in HS, Hl, Hst. destruct (Nat.eq_dec i (n - 1)) as [->|Hne]; [rewrite Hl; apply A; lia|].
    destruct (sh_slice _ _ _ _ i HS ltac:(lia)) as (_ & R1 & C1). destruct (sh_slice _ _ _ _ (i+1) HS ltac:(lia)) as (_ & R2 & C2).
    eapply back_phases; [apply Hst; lia|congruence|congruence].
  Qed.

  (** reduction does not change what an oscillator sees: drift, order parameter and constraint take the same values on the unreduced state *)
  Theorem C73_reduction_harmless n K w x : (1 <= n)%nat ->
    order_parameter n (fun i => wrap (x i)) = order_parameter n x /\ forall j, (j < n)%nat -> kuramoto n K w (fun i => wrap (x i)) j = kuramoto n K w x j.
  Proof.
    intro Hn. assert (Q : forall i, (i < n)%nat -> same_phase (wrap (x i)) (x i + 0)) by (intros i _; rewrite Rplus_0_r; apply HW).
    split; [apply (order_phase n Hn) with 0; exact Q|]. intros j Hj. apply (C74_drift_invariant n K w) with 0; auto.
  Qed.
End Phases.

(** ** the class runs to its end *)
Section Runs.
  Context {S : Type} (E : Ext R S) (HI : inv_contract E) (HO : no_overflow E) (wrap : R -> R) (mvn : S -> list R -> mat R -> nat -> (nat -> nat -> R) * S).

  Theorem C73_runs p s : k_well_posed p -> (1 <= k_k p)%nat ->
    (List.length (np_arange (k_t1 p) (nadd (k_t2 p) (ndiv (k_dt p) ntwo)) (k_dt p)) <= k_k p)%nat ->
    exists o s', k_construct E wrap mvn p s = (Ok o, s').
  Proof.
    intros WP Hk Hg. destruct (k_construct_tot E wrap mvn p WP HO) with (s := s) as (o & s' & H & _); auto; [|eauto]. apply scores_all_ok_R; auto. apply WP.
  Qed.

  (** the control exists at any points, at every grid index *)
  Theorem C73_control_exists p s o s' gx ti st : k_well_posed p -> k_construct E wrap mvn p s = (Ok o, s') -> mr gx = List.length (k_y1 p) ->
    (1 <= List.length (ko_grid o))%nat -> List.length (ko_grid o) = k_k p -> (ti < k_k p)%nat ->
    exists u st', k_calculate_u E o gx (Z.of_nat ti) st = (Ok u, st') /\ mr u = List.length (k_y1 p) /\ mc u = mc gx.
  Proof.
    intros WP H Hg H1 Hk Ht. destruct (k_construct_tot E wrap mvn p WP HO) with (s := s) as (o' & s2 & Ho & A1 & A2 & A3 & A4); [apply scores_all_ok_R; auto; apply WP| |lia|].
    { destruct (run_parts E wrap mvn p s o s' H) as (? & ? & ? & _ & _ & Q). rewrite Q in Hk. cbn [ko_grid] in Hk. lia. }
    rewrite H in Ho. injection Ho as <- <-.
    destruct (k_calculate_u_tot E p WP HO) with (o := o) (gx := gx) (ti := ti) (k := k_k p) (s := st) as (u & st' & Hu & U1 & U2); auto; [apply scores_all_ok_R; auto; apply WP|].
    exists u, st'. auto.
  Qed.
End Runs.

(** ** the script runs to its end *)
Section SimTot.
  Context {S : Type} (E : Ext R S) (wrap : R -> R) (p : kpar R) (WP : k_well_posed p) (HO : no_overflow E) (HS : scores_all_ok E (List.length (k_y1 p))).
  Context (o : kobj R) (Hp : ko_par o = p) (K : R) (ws : list R) (g h : R) (y0 : list R) (reps k : nat).
  Let dim := List.length y0.
  Let n := List.length (ko_grid o).
  Context (Hdim : List.length (k_y1 p) = dim) (Hws : List.length ws = dim)
    (HZ : sh (ko_Z o) (List.length (k_y1 p)) (k_N p) k) (HB : sh (ko_B o) (List.length (k_y1 p)) (k_N p) k) (Hnk : (n <= k)%nat) (Hn1 : (1 <= n)%nat).

  Lemma setcol3_tot (A : arr3 R) r t v : sh A dim reps n -> (r < reps)%nat -> (t < n)%nat -> List.length v = dim ->
    exists A', setcol3 A (Z.of_nat r) (Z.of_nat t) (vec v) = Ok A' /\ sh A' dim reps n.
  Proof.
    intros HA Hr Ht Lv. assert (Q : exists A', setcol3 A (Z.of_nat r) (Z.of_nat t) (vec v) = Ok A').
    { unfold setcol3. pose proof HA as (W & D & N & KK). rewrite D, N, KK. rewrite !pyidx_nat by auto. unfold assign_shape. cbn [vec mk mr mc]. rewrite Lv, !Nat.eqb_refl. cbn. eauto. }
    destruct Q as (A' & Q). exists A'. split; [exact Q|]. apply (setcol3_ok _ _ _ _ _ _ _ _ HA Q).
  Qed.
  Lemma setentry_tot (A : mat R) i j v : (i < mr A)%nat -> (j < mc A)%nat -> exists A', setentry A i j v = Ok A' /\ mr A' = mr A /\ mc A' = mc A.
  Proof.
    intros Hi Hj. unfold setentry. destruct (Nat.ltb_spec i (mr A)); [|lia]. destruct (Nat.ltb_spec j (mc A)); [|lia]. cbn [andb]. eauto.
  Qed.
  Lemma getcol3_tot (A : arr3 R) t r : sh A dim reps n -> (t < n)%nat -> exists v, getcol3 A (Z.of_nat t) r = Ok v /\ List.length v = dim.
  Proof.
    intros HA Ht. unfold getcol3. rewrite getsl_nat by (destruct HA as (_ & _ & _ & ->); lia). cbn [rbind]. eexists. split; [reflexivity|]. rewrite col_length. apply (sh_slice _ _ _ _ t HA Ht).
  Qed.
  Lemma normal_tot sc r c : tot (normal E sc r c) (fun _ => True).
  Proof. intro s. unfold normal. destruct (x_normal E s sc r c) as [f s']. eauto. Qed.

  Definition good (c : ksim R) : Prop := sh (ks_F c) dim reps n /\ sh (ks_n c) dim reps n /\ sh (ks_u c) dim reps n /\
    mr (ks_RF c) = n /\ mc (ks_RF c) = reps /\ mr (ks_Rn c) = n /\ mc (ks_Rn c) = reps.
  Lemma sim_body_tot c r i t : good c -> (r < reps)%nat -> (i + 1 < n)%nat -> tot (k_sim_body E wrap o K ws g h y0 r c (i, t)) good.
  Proof.
    intros (G1 & G2 & G3 & G4 & G5 & G6 & G7) Hr Hi. unfold k_sim_body. fold dim n. destruct (Nat.eqb_spec i 0) as [->|H0].
    - apply tot_lift. change 0%Z with (Z.of_nat 0). destruct (setcol3_tot (ks_F c) r 0 y0) as (F & -> & S1); auto; try lia. cbn [rbind].
      destruct (setcol3_tot (ks_n c) r 0 y0) as (Fn & -> & S2); auto; try lia. cbn [rbind]. eexists. split; [reflexivity|]. unfold good. cbn. auto 8.
    - cbv zeta. destruct (Nat.eqb_spec i (n - 1)); [lia|]. replace (Z.of_nat i - 1)%Z with (Z.of_nat (i-1)) by lia.
      apply (tot_bind _ _ (fun x => List.length x = dim)); [apply tot_lift; apply getcol3_tot; auto; lia|]. intros x Lx.
      apply (tot_bind _ _ (fun u => ism dim 1 u)).
      { rewrite <- Hdim. apply (k_calculate_u_tot E p WP HO HS) with (k := k); auto; lia. }
      intros uu (U1 & U2).
      apply (tot_bind _ _ (fun A => sh A dim reps n)); [apply tot_lift; apply setcol3_tot; auto; try lia; now rewrite col_length|]. intros us Sus.
      apply (tot_bind _ _ (fun v => True)); [apply tot_lift; unfold kur_f1; rewrite Lx, Hws, Nat.eqb_refl; eauto|]. intros fx _.
      apply (tot_bind _ _ (fun _ => True)); [apply normal_tot|]. intros no _.
      apply (tot_bind _ _ (fun A => sh A dim reps n)); [apply tot_lift; apply setcol3_tot; auto; try lia; now rewrite map_length, seq_length|]. intros F SF.
      apply (tot_bind _ _ (fun x => List.length x = dim)); [apply tot_lift; apply getcol3_tot; auto; lia|]. intros x' Lx'.
      apply (tot_bind _ _ (fun v => True)); [apply tot_lift; unfold kur_f1; rewrite Lx', Hws, Nat.eqb_refl; eauto|]. intros fx' _.
      apply (tot_bind _ _ (fun _ => True)); [apply normal_tot|]. intros no' _.
      apply (tot_bind _ _ (fun A => sh A dim reps n)); [apply tot_lift; apply setcol3_tot; auto; try lia; now rewrite map_length, seq_length|]. intros Fn SFn.
      apply (tot_bind _ _ (fun A => mr A = n /\ mc A = reps)). { apply tot_lift. destruct (setentry_tot (ks_RF c) i r (kur_R dim (map (fun d => wrap (nadd (nadd (nadd (nth d x nzero) (nmul h (nth d fx nzero))) (nmul (nmul h (nsq g)) (get uu d 0))) (nmul g (get no 0 d)))) (seq 0 dim)))) as (A & HA & A1 & A2); try lia. exists A. split; [exact HA|lia]. }
      intros RF (R1 & R2).
      apply (tot_bind _ _ (fun A => mr A = n /\ mc A = reps)). { apply tot_lift. destruct (setentry_tot (ks_Rn c) i r (kur_R dim (map (fun d => wrap (nadd (nadd (nth d x' nzero) (nmul h (nth d fx' nzero))) (nmul g (get no' 0 d)))) (seq 0 dim)))) as (A & HA & A1 & A2); try lia. exists A. split; [exact HA|lia]. }
      intros Rn (R3 & R4). apply tot_ret. unfold good. cbn. auto 8.
  Qed.
  Lemma simulation_tot : tot (k_simulation E wrap o K ws g h y0 (ko_grid o) reps) (fun _ => True).
  Proof.
    unfold k_simulation. fold dim n.
    assert (SN : sh (Arr3 dim reps n (repeat (mconst dim reps (ndiv nzero nzero)) n)) dim reps n).
    { split; [|auto]. split; [apply repeat_length|]. intros m Hm. cbn [a_k] in Hm. unfold slice. cbn [a_s]. rewrite (nth_indep _ _ (mconst dim reps (ndiv nzero nzero))) by (rewrite repeat_length; auto). rewrite nth_repeat. split; [apply wf_mk|]. split; reflexivity. }
    match goal with |- tot (mfold _ _ ?c) _ => assert (G0 : good c) by (unfold good; cbn [ks_F ks_n ks_u ks_RF ks_Rn]; split; [exact SN|]; split; [exact SN|]; split; [apply sh_zeros|cbn; auto]) end.
    intro s. match goal with |- exists a s', mfold ?f ?l ?c s = _ /\ _ => destruct (tot_mfold f l c good G0) with (s := s) as (a & s' & Ha & _); [|eauto] end.
    intros c r Hc Hr. apply in_seq in Hr. apply tot_mfold; [exact Hc|]. intros c' [i t] Hc' Hin.
    rewrite (enumerate_map _ nzero) in Hin. apply in_map_iff in Hin. destruct Hin as (j & Ej & Hj). injection Ej as <- <-. apply in_seq in Hj. rewrite init_length in Hj. fold n in Hj.
    apply sim_body_tot; auto; lia.
  Qed.
End SimTot.

Lemma kur_field K ws dim N : List.length ws = dim -> field dim N (kur_f (T := R) K ws).
Proof. intros H x t H1 H2. unfold kur_f. rewrite H1, H, Nat.eqb_refl. eexists. split; [reflexivity|]. cbn. auto. Qed.
Lemma script_grid : List.length (np_arange (T := R) 0 (1/2 + 1/1000/2) (1/1000)) = 501%nat /\
  forall i, (i < 501)%nat -> nth i (np_arange (T := R) 0 (1/2 + 1/1000/2) (1/1000)) 0 = INR i * (1/1000).
Proof.
  apply LimitCycle.arange_R. rewrite INR_IZR_INZ. cbn [Z.of_nat Pos.of_succ_nat Pos.succ]. lra.
Qed.

Section Script.
  Context {S : Type} (E : Ext R S) (HI : inv_contract E) (HO : no_overflow E) (wrap : R -> R) (HW : wraps wrap)
    (mvn : S -> list R -> mat R -> nat -> (nat -> nat -> R) * S).
  Context (K freq g : R) (N m reps : nat) (y0 : list R) (HN : (1 <= N)%nat) (Hy : y0 <> []).
  Let dim := List.length y0.

  (** whatever the random numbers and the transport plans, the script builds the object with its parameters (with the constraint and its reweighting
      switched on) and simulates with it: 501 grid points 0, 0.001, ..., 0.5, an ensemble and a reversed ensemble of the
      declared shapes, phases in [0, 2 pi), and for each repetition a controlled and an uncontrolled path from y0 whose recorded order
      parameters are those of the recorded states.  The last grid point of the paths is never computed. *)
  Theorem C73_script s : exists o c s', k_script E wrap mvn K freq g N m reps y0 s = (Ok (o, c), s') /\
    ko_par o = {| k_t1 := 0; k_t2 := 1/2; k_y1 := y0; k_f := kur_f K (kur_ws dim freq); k_g := g; k_N := N; k_k := 501; k_M := m;
                  k_reweight := true; k_U := kur_U dim; k_kern := "RBF"; k_dt := 1/1000 |} /\
    (exists s1, k_construct E wrap mvn (ko_par o) s = (Ok o, s1) /\
       k_simulation E wrap o K (kur_ws dim freq) g (1/1000) y0 (ko_grid o) reps s1 = (Ok c, s')) /\
    List.length (ko_grid o) = 501%nat /\ (forall i, (i < 501)%nat -> nth i (ko_grid o) 0 = INR i * (1/1000)) /\
    sh (ko_Z o) dim N 501 /\ sh (ko_B o) dim N 501 /\
    (forall i, (1 <= i < 501)%nat -> phases (slice (ko_Z o) i) /\ phases (slice (ko_B o) i)) /\
    sh (ks_F c) dim reps 501 /\ sh (ks_n c) dim reps 501 /\
    forall r, (r < reps)%nat -> st (ks_F c) 0 r = y0 /\ st (ks_n c) 0 r = y0 /\
      forall t, (1 <= t < 500)%nat ->
        (forall d, (d < dim)%nat -> 0 <= nth d (st (ks_F c) t r) 0 < 2 * PI /\ 0 <= nth d (st (ks_n c) t r) 0 < 2 * PI) /\
        get (ks_RF c) t r = order_parameter dim (fun d => nth d (st (ks_F c) t r) 0) /\ 0 <= get (ks_RF c) t r <= 1 /\
        get (ks_Rn c) t r = order_parameter dim (fun d => nth d (st (ks_n c) t r) 0) /\ 0 <= get (ks_Rn c) t r <= 1.
  Proof.
    assert (H1 : (1 <= dim)%nat) by (unfold dim; destruct y0; [congruence|cbn; lia]).
    destruct script_grid as (LG & VG). unfold k_script. fold dim.
    set (gr := np_arange nzero _ _). assert (EG : gr = np_arange (T := R) 0 (1/2 + 1/1000/2) (1/1000)).
    { unfold gr, nhalf, nmilli, nzero, ntwo. cbn [nadd nsub ndiv nlit ROps]. f_equal. lra. }
    set (p := Build_kpar _ _ _ _ _ _ _ _ _ _ _ _).
    assert (Q : np_arange (k_t1 p) (nadd (k_t2 p) (ndiv (k_dt p) ntwo)) (k_dt p) = gr).
    { rewrite EG. cbn [p k_t1 k_t2 k_dt]. unfold nhalf, nmilli, nzero, ntwo. cbn [nadd nsub ndiv nlit ROps]. f_equal. lra. }
    destruct (C74_frequencies dim freq) as (LW & _).
    assert (WP : k_well_posed p).
    { constructor; cbn [p k_y1 k_N k_kern k_f k_reweight k_U]; auto.
      - now apply kur_field.
      - intros _ x Hx Cx. destruct (C74_constraint x ltac:(lia)) as (u & Hu & U1 & U2 & _). rewrite Hx in Hu. exists u. rewrite <- Cx. auto. }
    assert (HS : scores_all_ok E (List.length (k_y1 p))) by now apply scores_all_ok_R.
    assert (Hk : k_k p = 501%nat) by (cbn [p k_k]; rewrite EG; exact LG).
    destruct (k_construct_tot E wrap mvn p WP HO HS s) as (o & s1 & Ho & A1 & A2 & A3 & A4). { rewrite Q, EG, LG, Hk. lia. } { rewrite Hk. lia. }
    rewrite Q in A4. rewrite Hk in A2, A3. assert (Ln : List.length (ko_grid o) = 501%nat) by (rewrite A4, EG; exact LG).
    destruct (simulation_tot E wrap p WP HO HS o A1 K (kur_ws dim freq) g nmilli y0 reps 501) with (s := s1) as (c & s2 & Hc & _); auto; try lia.
    exists o, c, s2. split. { unfold bind, ret. rewrite Ho. rewrite <- A4. rewrite Hc. reflexivity. }
    split. { rewrite A1. unfold p. replace (List.length gr) with 501%nat by (rewrite EG; now rewrite LG). reflexivity. }
    split. { exists s1. rewrite A1. split; [exact Ho|exact Hc]. }
    split; [exact Ln|]. split. { intros i Hi. rewrite A4, EG. now apply VG. }
    split; [exact A2|]. split; [exact A3|].
    destruct (C73_phases E wrap HW mvn p s o s1 Ho) as (P1 & P2). rewrite Ln, Hk in *. split. { intros i Hi. split; [apply P1; auto|apply P2; auto]. }
    destruct (C73_simulation E wrap o K (kur_ws dim freq) g nmilli y0 reps 501) with (s := s1) (c := c) (s' := s2) as (B1 & B2 & B3 & sg & _ & _ & B4);
      auto; try (rewrite A1; auto; fail); try lia.
    rewrite Ln in *. fold dim in B1, B2, B4. split; [exact B1|]. split; [exact B2|]. intros r Hr. destruct (B4 r Hr) as (_ & S1 & S2 & S3 & _).
    split; [exact S1|]. split; [exact S2|]. intros t Ht. destruct (S3 t ltac:(lia) ltac:(lia)) as (C1 & C2 & C3).
    assert (L1 : List.length (st (ks_F c) t r) = dim). { unfold st. rewrite col_length. apply (sh_slice _ _ _ _ t B1 ltac:(lia)). }
    assert (L2 : List.length (st (ks_n c) t r) = dim). { unfold st. rewrite col_length. apply (sh_slice _ _ _ _ t B2 ltac:(lia)). }
    assert (L3 : List.length (st (ks_F c) (t-1) r) = dim). { unfold st. rewrite col_length. apply (sh_slice _ _ _ _ (t-1) B1 ltac:(lia)). }
    split.
    { intros d Hd. destruct C1 as (v & s3 & W & s4 & W' & _ & _ & _ & _ & _ & _ & C1). destruct (C1 d) as (_ & X1 & X2); [congruence|].
      change (nth d (st (ks_F c) t r) 0) with (nth d (st (ks_F c) t r) nzero). change (nth d (st (ks_n c) t r) 0) with (nth d (st (ks_n c) t r) nzero). rewrite X1, X2. split; apply HW. }
    pose proof (C74_order_parameter (st (ks_F c) t r)) as O1. pose proof (C74_order_parameter (st (ks_n c) t r)) as O2. rewrite L1 in O1. rewrite L2 in O2.
    rewrite C2, C3, O1, O2. split; [reflexivity|]. split; [split; [now apply order_ge0|now apply order_le1]|]. split; [reflexivity|]. split; [now apply order_ge0|now apply order_le1].
  Qed.
End Script.
