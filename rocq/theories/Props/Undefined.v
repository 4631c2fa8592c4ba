(** C25 and C69 in real arithmetic with undefined results; C69 over the reals; witnesses. *)
From Coq Require Import String List ZArith Reals Lia Lra Bool.
From Verif Require Import Base.Num Base.Py Base.Arr Lib.ArrLemmas Model.Ext Model.Cdist Model.Score Model.DPFC Model.Controlled.
From Verif Require Import Spec.FlowSpec Spec.QuerySpec Spec.TotalSpec Spec.ControlledSpec.
From Verif Require Import Lib.FlowLemmas Lib.QueryLemmas Lib.StochLemmas Props.Flows Props.Queries Props.Controlled Props.Total Run.PartialReal.
From Verif Require Import Spec.Contracts Props.Grid Props.ScoresR Props.Witnesses Run.RealExt.
Import ListNotations.
Local Open Scope R_scope.

Section Undefined.
  Context {S : Type} (E : Ext (option R) S).

  Lemma const_slice_score (A : arr3 (option R)) dim N k t y d x : has_shape A dim N k -> (1 <= N)%nat -> (t < k)%nat ->
    all_at A t y -> (d < dim)%nat -> (exists v, nth d y nzero = Some v) -> gauss_score (slice A t) d x = None.
  Proof.
    intros HA HN Ht Hat Hd (v & Hv). apply has_shape_sh in HA. destruct (sh_slice _ _ _ _ t HA Ht) as (_ & R & C).
    unfold gauss_score. rewrite (pstd_const _ v).
    - change (nsq (Some 0)) with (Some (0 * 0)). rewrite Rmult_0_l. apply pdiv_zero.
    - intro H. apply (f_equal (@List.length _)) in H. rewrite row_length, C in H. cbn in H. lia.
    - intros z Hz. unfold row in Hz. apply in_map_iff in Hz. destruct Hz as (n & <- & Hn). apply in_seq in Hn. rewrite C in Hn.
      destruct HA as (_ & D & Nn & _). rewrite <- Hv. apply Hat; lia.
  Qed.

  (** the control is undefined in every coordinate at the first and at the last grid index, whatever the point *)
  Theorem C25_undefined p s o s' gx ti s0 : construct E p s = (Ok o, s') -> (1 <= p_N p)%nat ->
    let k := List.length (o_grid o) in let dim := List.length (p_y1 p) in (2 <= k)%nat ->
    (forall v, In v (p_y1 p ++ p_y2 p) -> exists r, v = Some r) -> (dim <= mc gx)%nat ->
    (dim <= List.length (p_y2 p))%nat ->
    (ti = 0 \/ ti = - Z.of_nat k \/ ti = Z.of_nat k - 1 \/ ti = - 1)%Z ->
    exists u, calculate_u E o gx ti s0 = (Ok u, s0) /\ forall d i, (d < dim)%nat -> (i < mr gx)%nat -> get u d i = None.
  Proof.
    intros Hc HN k dim Hk Hy Hg Hy2 Ht. destruct (construct_consistent E p s o s' Hc) as (Hp & Hcs). fold dim k in Hcs.
    destruct (C04_time_reversed_boundaries E p s o s' Hc Hk) as (B0 & B1). fold k in B1.
    assert (exists A, forward_of o A) as (A & HA).
    { unfold forward_of. destruct (p_reweight (o_par o) && p_brown (o_par o)) eqn:Hb; [|eauto]. destruct Hcs as (_ & _ & _ & _ & Hz). destruct (Hz Hb) as (Zt & -> & _). eauto. }
    assert (Hj : exists j, selects k ti j /\ (j = 0 \/ j = k - 1)%nat).
    { destruct Ht as [ -> | [ -> | [ -> | -> ]]]; [exists 0%nat|exists 0%nat|exists (k-1)%nat|exists (k-1)%nat]; unfold selects; split; try lia. }
    destruct Hj as (j & Hs & Hj).
    destruct (C21_gaussian_window E o dim (p_N p) k Hcs A HA gx ti j s0 HN Hs ltac:(unfold edge; lia) Hg) as (u & Hu & _ & _ & Hv & _).
    exists u. split; [exact Hu|]. intros d i Hd Hi. rewrite Hv by auto.
    assert (HB : has_shape (o_B o) dim (p_N p) k) by apply Hcs.
    assert (D : forall y, (y = p_y1 p \/ y = p_y2 p) -> exists v, nth d y nzero = Some v).
    { intros y Hyy. apply Hy. apply in_or_app. destruct Hyy as [ -> | -> ]; [left|right]; apply nth_In; unfold dim in *; lia. }
    destruct Hj as [ -> | -> ].
    - rewrite (const_slice_score (o_B o) dim (p_N p) k 0 (p_y1 p) d) by (auto; lia). apply psub_none.
    - rewrite (const_slice_score (o_B o) dim (p_N p) k (k-1) (p_y2 p) d) by (auto; lia). apply psub_none.
  Qed.

  (** hence every controlled trajectory of the documented simulation ends in an undefined state *)
  Theorem C69_last_state_undefined p s o s' f g reps s0 c s1 : construct E p s = (Ok o, s') -> (1 <= p_N p)%nat ->
    let k := List.length (o_grid o) in let dim := List.length (p_y1 p) in (2 <= k)%nat ->
    (forall v, In v (p_y1 p ++ p_y2 p) -> exists r, v = Some r) -> (dim <= List.length (p_y2 p))%nat -> field1 dim reps f ->
    controlled_simulation E o f g (p_y1 p) reps s0 = (Ok c, s1) ->
    forall d r, (d < dim)%nat -> (r < reps)%nat -> get3 (ct_F c) d r (k-1) = None.
  Proof.
    intros Hc HN k dim Hk Hy Hy2 Hf H d r Hd Hr. destruct (construct_consistent E p s o s' Hc) as (Hp & Hcs). fold dim k in Hcs.
    destruct (C69_controlled_simulation E o (p_N p) k f g (p_y1 p) reps Hcs Hf s0 c s1 H ltac:(lia)) as (SF & _ & _ & _ & _ & st & _ & _ & Hst).
    fold k in Hst. destruct (Hst (k-1)%nat ltac:(lia)) as (u & n1 & n2 & t1 & t2 & fx & fy & Hu & _ & _ & _ & _ & Hx).
    destruct SF as (DF & NF & KF & LF & FF). fold dim in DF. destruct (Hx d r ltac:(lia) ltac:(lia)) as (_ & -> & _).
    assert (SF : sh (ct_F c) dim reps k) by (apply has_shape_sh; split; [exact DF|auto]).
    destruct (sh_slice _ _ _ _ (k-1-1)%nat SF ltac:(lia)) as (_ & RF & CF).
    destruct (C25_undefined p s o s' (mT (slice (ct_F c) (k-1-1))) (Z.of_nat (k-1)) (st (k-1-1)%nat) Hc HN Hk Hy) as (v & Hv & Hn).
    { cbn [mT mk mc]. rewrite RF. unfold dim. lia. } { exact Hy2. } { fold k. lia. }
    rewrite Hu in Hv. injection Hv as -> _. rewrite Hn by (try (cbn [mT mk mr]; rewrite CF); auto).
    rewrite pmul_none_r, padd_none_r. apply padd_none.
  Qed.
End Undefined.

(** ** over the reals, with a correct matrix inverse, both simulations run to their end *)
Lemma u_answers {S : Type} (E : Ext R S) o dim N k gx t s0 : inv_contract E -> no_overflow E ->
  consistent o dim N k -> (1 <= N)%nat -> o_kern o = "RBF"%string -> p_reweight (o_par o) && p_brown (o_par o) = false ->
  mc gx = dim -> (t < k)%nat -> exists u s1, calculate_u E o gx (Z.of_nat t) s0 = (Ok u, s1).
Proof.
  intros HI HO Hc HN HK Hb Hg Ht.
  destruct (Z_le_dec 6 (Z.of_nat t)) as [H6|H6]; [destruct (Z_le_dec (Z.of_nat t) (Z.of_nat k - 6)) as [H7|H7]|].
  - apply (C22_interior_answers E HI o dim N k); auto.
  - destruct (C21_gaussian_window E o dim N k Hc (o_Z o) ltac:(unfold forward_of; now rewrite Hb) gx (Z.of_nat t) t s0) as (u & Hu & _); auto; try (unfold selects, edge); try (subst dim; lia). eauto.
  - destruct (C21_gaussian_window E o dim N k Hc (o_Z o) ltac:(unfold forward_of; now rewrite Hb) gx (Z.of_nat t) t s0) as (u & Hu & _); auto; try (unfold selects, edge); try (subst dim; lia). eauto.
Qed.
Theorem C69_runs {S : Type} (E : Ext R S) o N k f g y1 reps s : inv_contract E -> no_overflow E -> let dim := List.length y1 in
  consistent o dim N k -> (1 <= N)%nat -> o_kern o = "RBF"%string -> p_reweight (o_par o) && p_brown (o_par o) = false -> field1 dim reps f ->
  (exists c s', controlled_simulation E o f g y1 reps s = (Ok c, s')) /\ (exists c s', controlled_simulation_script E o f g y1 reps s = (Ok c, s')).
Proof.
  intros HI HO dim Hc HN HK Hb Hf. split.
  - apply (sim_total E o N k f g y1 reps Hc Hf). intros gx t s0 Hg Ht. apply (u_answers E o dim N k); auto; lia.
  - apply (script_total E o N k f g y1 reps Hc Hf). intros gx t s0 Hg Ht. apply (u_answers E o dim N k); auto; lia.
Qed.

(** ** witnesses *)
(** the 21-point run of Witnesses.v, simulated with four trajectories under the drift x |-> -x *)
Definition back : callable R := {| call1 := fun x => Ok (mopp x); call2 := fun x _ => Ok (mopp x) |}.
Lemma back_field dim reps : field1 dim reps back.
Proof. intros x H1 H2. exists (mopp x). cbn. auto. Qed.
Lemma back_columnwise dim reps r : (r < reps)%nat -> columnwise dim reps r back.
Proof.
  intros Hr x y H1 H2 H. cbn in H. injection H as <-. eexists. split; [reflexivity|]. split; [reflexivity|]. split; [reflexivity|].
  intros d Hd. unfold mopp. rewrite !get_mmap1 by (cbn; lia). now rewrite get_mk by lia.
Qed.
Example W69 : exists o s' c s'', construct RealExt fan 0%nat = (Ok o, s') /\
  controlled_simulation RealExt o back (1/10) [0; 1] 4 s' = (Ok c, s'') /\ List.length (o_grid o) = 21%nat /\
  simulated RealExt o back (1/10) [0; 1] (ct_F c) (ct_u c) (ct_n c) s' s'' /\
  (exists c1, controlled_simulation (alone RealExt 4 2) o back (1/10) [0; 1] 1 s' = (Ok c1, s'')) /\
  exists c2 s2, controlled_simulation_script RealExt o back (1/10) [0; 1] 4 s' = (Ok c2, s2) /\ has_shape (ct_F c2) 2 4 20 /\ get3 (ct_u c2) 1 3 20 = 0.
Proof.
  destruct real_parts as (HI & _ & _ & HU & HO). destruct (fan_run 0) as (o & s' & H & L).
  destruct (construct_consistent _ _ _ _ _ H) as (P & Hc). rewrite L in Hc. cbn [fan p_y1 List.length p_N] in Hc.
  destruct (C69_runs RealExt o 3 21 back (1/10) [0; 1] 4 s' HI HO Hc ltac:(lia) (fan_kern _ _ _ H) ltac:(rewrite P; reflexivity) (back_field _ _)) as ((c & s'' & Hs) & (c2 & s2 & Hs2)).
  exists o, s', c, s''. split; [exact H|]. split; [exact Hs|]. split; [exact L|]. split; [|split].
  - apply (C69_controlled_simulation RealExt o 3 21 back (1/10) [0; 1] 4 Hc (back_field _ _) s' c s'' Hs). lia.
  - destruct (C69_no_interaction RealExt o 3 21 back (1/10) [0; 1] 4 2 s' c s'' Hc (back_field _ _) (back_field _ _) ltac:(lia) (back_columnwise 2 4 2 ltac:(lia)) Hs) as (c1 & H1 & _). eauto.
  - exists c2, s2. split; [exact Hs2|]. destruct (C69_script RealExt o 3 21 back (1/10) [0; 1] 4 Hc (back_field _ _) s' c2 s2 Hs2 ltac:(lia)) as (A1 & _ & _ & _ & A2). split; [exact A1|]. apply A2; cbn; lia.
Qed.

(** an environment and a problem over the reals with undefined results *)
Definition PExt : Ext (option R) nat := {|
  x_normal := fun s sc r c => (fun i j => nmul sc (nofnat (i + j)), Datatypes.S s);
  x_uniform := fun s lo hi m => (Ok (fun i => nadd lo (ndiv (nsub hi lo) (nofnat (i + 2)))), Datatypes.S s);
  x_tuniform := fun s lo hi m => (fun i d => nth d lo nzero, Datatypes.S s);
  x_inv := fun A => Some (fun i j => if (i =? j)%nat then none1 else nzero);
  x_emd := fun a b C i j => nzero; x_otemd := fun a b C i j => nzero |}.
Definition pback : callable (option R) := {| call1 := fun x => Ok (mopp x); call2 := fun x _ => Ok (mopp x) |}.
Definition pfan : params (option R) := {|
  p_t1 := Some 0; p_t2 := Some (1/200); p_y1 := [Some 0; Some 1]; p_y2 := [Some 1; Some 2]; p_f := pback; p_g := mk 1 1 (fun _ _ => Some (1/10));
  p_N := 3; p_M := 2; p_reweight := false; p_U := None; p_dens_est := "nonparametric"; p_reject := true; p_kern := "RBF"; p_f_true := None;
  p_brown := false; p_det := true |}.
Lemma pgrid : List.length (timegrid (Some 0 : option R) (Some (1/200))) = 6%nat.
Proof.
  unfold timegrid, np_arange. rewrite map_length, seq_length. unfold dt, nmilli, ntwo. cbn [nlit POps nadd nsub ndiv lift2 lift1].
  destruct (Req_EM_T (2 / 1) 0) as [e|_]; [lra|]. cbn [lift1 lift2]. destruct (Req_EM_T (1 / 1000) 0) as [e|_]; [lra|]. cbn [lift1 nceil].
  pose proof (npts_spec 0 (1/200) 5 ltac:(cbn [INR]; lra)) as Q. unfold npts in Q. cbn [nceil ROps] in Q. change 6%nat with (5 + 1)%nat. rewrite <- Q. f_equal. f_equal. f_equal. cbn [nceil POps]. do 3 f_equal. lra.
Qed.
Example W25_undefined : exists o s' c s'', construct PExt pfan 0%nat = (Ok o, s') /\ List.length (o_grid o) = 6%nat /\
  controlled_simulation PExt o pback (Some (1/10)) [Some 0; Some 1] 4 s' = (Ok c, s'') /\
  (exists u, calculate_u PExt o (mk 1 2 (fun _ _ => Some 3)) 5 s' = (Ok u, s') /\ get u 0 0 = None /\ get u 1 0 = None) /\
  (forall d r, (d < 2)%nat -> (r < 4)%nat -> get3 (ct_F c) d r 5 = None) /\ get3 (ct_F c) 1 2 0 = Some 1.
Proof.
  assert (WP : well_posed pfan).
  { constructor; cbn; auto; try lia; try discriminate. intros x t H1 H2. eexists. split; [reflexivity|]. cbn. auto. }
  assert (NO : no_overflow PExt) by (intros s lo hi m; cbn; eauto).
  assert (NS : no_singular PExt) by (intros A _; discriminate).
  assert (PL : plots_ok (T := option R) 2) by (left; lia).
  destruct (C18_construction_succeeds PExt pfan 0%nat WP NO PL NS eq_refl ltac:(cbn [pfan p_t1 p_t2]; rewrite pgrid; lia)) as (o & s' & H).
  assert (L : List.length (o_grid o) = 6%nat) by (rewrite (grid_eq PExt _ _ _ _ H); apply pgrid).
  destruct (construct_consistent _ _ _ _ _ H) as (P & Hc). rewrite L in Hc. cbn [pfan p_y1 List.length p_N] in Hc.
  assert (Hf : field1 2 4 pback) by (intros x H1 H2; exists (mopp x); cbn; auto).
  destruct (sim_total PExt o 3 6 pback (Some (1/10)) [Some 0; Some 1] 4 Hc Hf s') as (c & s'' & Hs).
  { intros gx t s0 Hg Ht. destruct (C21_gaussian_window PExt o 2 3 6 Hc (o_Z o) ltac:(unfold forward_of; rewrite P; reflexivity) gx (Z.of_nat t) t s0) as (u & Hu & _); try (unfold selects, edge); try (cbn in Hg; lia). eauto. }
  exists o, s', c, s''. split; [exact H|]. split; [exact L|]. split; [exact Hs|].
  assert (Y : forall v, In v (p_y1 pfan ++ p_y2 pfan) -> exists r : R, v = Some r) by (intros v Hv; cbn in Hv; intuition (subst; eauto)).
  split; [|split].
  - destruct (C25_undefined PExt pfan 0%nat o s' (mk 1 2 (fun _ _ => Some 3)) 5 s' H) as (u & Hu & Hn); try (rewrite L; lia); try exact Y; try (cbn; lia).
    exists u. split; [exact Hu|]. split; apply Hn; cbn; lia.
  - intros d r Hd Hr. pose proof (C69_last_state_undefined PExt pfan 0%nat o s' pback (Some (1/10)) 4 s' c s'' H) as Q. rewrite L in Q. apply Q; auto; cbn; lia.
  - destruct (C69_controlled_simulation PExt o 3 6 pback (Some (1/10)) [Some 0; Some 1] 4 Hc Hf s' c s'' Hs ltac:(lia)) as ((D & N & _) & _ & _ & A & _).
    rewrite (A 1%nat 2%nat) by (rewrite ?D, ?N; cbn; lia). reflexivity.
Qed.
