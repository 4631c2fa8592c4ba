(** C13, C16 (zero lengthscale), C20, C25-C27, C30-C32 over the exact reals. *)
From Coq Require Import String List ZArith Lia Bool Reals Lra.
From Verif Require Import Base.Num Base.Py Base.Arr Lib.ArrLemmas Model.Ext Model.Cdist Model.Score Model.DPFC Model.TDPFC.
From Verif Require Import Spec.FlowSpec Spec.QuerySpec Spec.RealSpec Spec.Contracts Spec.RangeSpec.
From Verif Require Import Lib.FlowLemmas Lib.ScoreLemmas Lib.StepLemmas Lib.QueryLemmas Lib.RBase Lib.RSum.
From Verif Require Import Props.Flows Props.Queries.
Import ListNotations.
Local Open Scope R_scope.

Lemma range_R (x : mat R) d r v : range_of x d r -> (in_range x d v <-> fst r <= v <= snd r).
Proof.
  intros (L & H). apply rlo_R in L. apply rhi_R in H. destruct L as ((n1 & N1 & Q1) & L), H as ((n2 & N2 & Q2) & H).
  unfold in_range. split.
  - intros ((a & A1 & A2) & (b & B1 & B2)). specialize (L a A1). specialize (H b B1). lra.
  - intros (A & B). split; [exists n1|exists n2]; split; auto; lra.
Qed.

Section R.
  Context {S : Type} (E : Ext R S).

  (** ** C13 *)
  Lemma drawn_inside m s bnds rows s' : uniform_in_range E -> drawn E m s bnds rows s' -> List.length rows = List.length bnds /\
    forall d i, (d < List.length bnds)%nat -> (i < m)%nat ->
      Rmin (fst (nth d bnds (nzero, nzero))) (snd (nth d bnds (nzero, nzero))) <= nth i (nth d rows []) nzero
        <= Rmax (fst (nth d bnds (nzero, nzero))) (snd (nth d bnds (nzero, nzero))).
  Proof.
    intros HU H. induction H as [|s lo hi h s1 bs rows s2 Hx Hd (IL & IH)]. { split; [reflexivity|]. cbn. lia. }
    split; [cbn; auto|]. intros [|d] i Hdd Hi; cbn [nth List.length] in *.
    - rewrite nth_map_seq by auto. exact (HU _ _ _ _ _ _ Hx i Hi).
    - apply IH; auto. lia.
  Qed.
  Lemma get_points m (rows : list (list R)) i d : (i < m)%nat -> (d < List.length rows)%nat -> get (points m rows) i d = nth i (nth d rows []) nzero.
  Proof. intros. unfold points. now rewrite get_mk. Qed.

  (** points drawn from the ranges of an ensemble lie in its bounding box *)
  Theorem C13_own_box m (x : mat R) bnds rows s s' : uniform_in_range E ->
    List.length bnds = mr x -> (forall d, (d < mr x)%nat -> range_of x d (nth d bnds (nzero, nzero))) -> drawn E m s bnds rows s' ->
    forall i d, (i < m)%nat -> (d < mr x)%nat -> in_range x d (get (points m rows) i d).
  Proof.
    intros HU L Hr Hd i d Hi Hdd. destruct (drawn_inside _ _ _ _ _ HU Hd) as (Lr & H). rewrite get_points by (auto; lia).
    apply (range_R x d _ _ (Hr d Hdd)). specialize (H d i ltac:(lia) Hi).
    destruct (Hr d Hdd) as (L1 & L2). apply rlo_R in L1. apply rhi_R in L2. destruct L1 as ((n & N1 & N2) & L1), L2 as (_ & L2).
    specialize (L1 n N1). specialize (L2 n N1). rewrite Rmin_left, Rmax_right in H by lra. exact H.
  Qed.
  (** points drawn for a pair of ensembles lie between the two intersection bounds; inside both ranges when these overlap *)
  Theorem C13_common_box m (z b : mat R) dim bnds rows s s' : uniform_in_range E ->
    List.length bnds = dim -> (forall d, (d < dim)%nat -> common_range z b d (nth d bnds (nzero, nzero))) -> drawn E m s bnds rows s' ->
    forall i d, (i < m)%nat -> (d < dim)%nat ->
      let lo := fst (nth d bnds (nzero, nzero)) in let hi := snd (nth d bnds (nzero, nzero)) in
      Rmin lo hi <= get (points m rows) i d <= Rmax lo hi /\
      (lo <= hi -> in_range z d (get (points m rows) i d) /\ in_range b d (get (points m rows) i d)).
  Proof.
    intros HU L Hr Hd i d Hi Hdd lo hi. destruct (drawn_inside _ _ _ _ _ HU Hd) as (Lr & H). rewrite get_points by (auto; lia).
    specialize (H d i ltac:(lia) Hi). split; [exact H|]. intro Hlh. fold lo hi in H. rewrite Rmin_left, Rmax_right in H by lra.
    destruct (Hr d Hdd) as (rz & rb & Rz & Rb & Q1 & Q2). fold lo in Q1. fold hi in Q2. rewrite pymax_R in Q1. rewrite pymin_R in Q2.
    pose proof (Rmax_l (fst rz) (fst rb)). pose proof (Rmax_r (fst rz) (fst rb)). pose proof (Rmin_l (snd rz) (snd rb)). pose proof (Rmin_r (snd rz) (snd rb)).
    split; [apply (range_R _ _ _ _ Rz)|apply (range_R _ _ _ _ Rb)]; cbn in *; lra.
  Qed.

  (** every deterministic forward step uses inducing points inside the bounding box of the particles it moves *)
  Theorem C13_forward_run p s o s' : uniform_in_range E -> construct E p s = (Ok o, s') -> p_det p = true -> p_reweight p = false ->
    forall i, (2 <= i < List.length (o_grid o))%nat ->
    let x := slice (o_Z o) (i-1) in let x' := slice (o_Z o) i in
    exists F rows score,
      call2 (p_f p) x (nsub (nth i (o_grid o) nzero) nmilli) = Ok F /\
      (forall a d, (a < p_M p)%nat -> (d < mr x)%nat -> in_range x d (get (points (p_M p) rows) a d)) /\
      (forall d, (d < mr x)%nat ->
         score_function_multid_seperate E (mT x) (points (p_M p) rows) nmilli (o_kern o) (LVec (lengthscales x)) (Z.of_nat d + 1) = Ok (score d)) /\
      forall d n, (d < mr x)%nat -> (n < mc x)%nat ->
        get x' d n = get x d n + nmilli * (elem F d n - nhalf * nsq (elem (p_g p) d n) * nth n (score d) 0).
  Proof.
    intros HU Hc Hd Hr i Hi x x'. destruct (C06_forward_recurrence E p s o s' Hc Hd ltac:(lia)) as (sg & _ & H).
    specialize (H i ltac:(lia)). rewrite Hr in H. unfold plain_step in H. destruct (Nat.eqb_spec i 1); [lia|].
    fold x x' in H. destruct H as (F & bnds & rows & score & H1 & H2 & H3 & H4 & H5 & H6).
    exists F, rows, score. split; [auto|]. split. { intros. eapply C13_own_box; eauto. }
    split; [intros; now apply H5|]. exact H6.
  Qed.

  (** ** C16: in stochastic mode the first backward score is estimated with zero lengthscale, from inducing points
      that all coincide with the target *)
  Theorem C16_zero_lengthscale p s o s' : uniform_in_range E -> construct E p s = (Ok o, s') -> p_det p = false ->
    let k := List.length (o_grid o) in (2 <= k)%nat -> (1 <= p_N p)%nat ->
    let z := slice (o_Z o) (k-1) in let b := slice (o_B o) (k-1) in
    (forall v, In v (lengthscales z) -> v = 0) /\
    forall m bnds rows s1 s2, List.length bnds = List.length (p_y1 p) ->
      (forall d, (d < List.length (p_y1 p))%nat -> common_range z b d (nth d bnds (nzero, nzero))) -> drawn E m s1 bnds rows s2 ->
      forall i d, (i < m)%nat -> (d < List.length (p_y1 p))%nat -> get (points m rows) i d = nth d (p_y2 p) 0.
  Proof.
    intros HU Hc Hd k Hk HN z b.
    pose proof (C16_stochastic_end_pinned E p s o s' Hc Hd ltac:(lia)) as HZ. fold k in HZ.
    destruct (C04_time_reversed_boundaries E p s o s' Hc Hk) as (_ & HB). fold k in HB.
    destruct (construct_consistent E p s o s' Hc) as (_ & _ & _ & CZ & CB & _). apply has_shape_sh in CZ, CB. fold k in CZ, CB.
    destruct (sh_slice _ _ _ _ (k-1) CZ ltac:(lia)) as (_ & RZ & CZ'). destruct (sh_slice _ _ _ _ (k-1) CB ltac:(lia)) as (_ & RB & CB').
    fold z in RZ, CZ'. fold b in RB, CB'.
    assert (GZ : forall d n, (d < List.length (p_y1 p))%nat -> (n < p_N p)%nat -> get z d n = nth d (p_y2 p) 0).
    { intros d n H1 H2. destruct CZ as (_ & D & Nn & _). apply HZ; congruence. }
    assert (GB : forall d n, (d < List.length (p_y1 p))%nat -> (n < p_N p)%nat -> get b d n = nth d (p_y2 p) 0).
    { intros d n H1 H2. destruct CB as (_ & D & Nn & _). apply HB; congruence. }
    split.
    - intros v Hv. unfold lengthscales in Hv. apply in_map_iff in Hv. destruct Hv as (d & <- & Hd'). apply in_seq in Hd'. rewrite RZ in Hd'.
      rewrite (nstd_const _ (nth d (p_y2 p) 0)); [cbn; lra|]. intros v Hv. apply in_row in Hv. destruct Hv as (n & Hn & ->). apply GZ; lia.
    - intros m bnds rows s1 s2 L Hr Hdr i d Hi Hdd. destruct (drawn_inside _ _ _ _ _ HU Hdr) as (Lr & H). rewrite get_points by (auto; lia).
      specialize (H d i ltac:(lia) Hi). destruct (Hr d Hdd) as (rz & rb & Rz & Rb & Q1 & Q2).
      destruct Rz as (Z1 & Z2), Rb as (B1 & B2).
      apply rlo_R in Z1, B1. apply rhi_R in Z2, B2. destruct Z1 as ((n1 & N1 & Z1) & _), Z2 as ((n2 & N2 & Z2) & _), B1 as ((n3 & N3 & B1) & _), B2 as ((n4 & N4 & B2) & _).
      rewrite GZ in Z1, Z2 by lia. rewrite GB in B1, B2 by lia. rewrite Q1, Q2, <- Z1, <- Z2, <- B1, <- B2 in H. rewrite pymax_R, pymin_R in H.
      rewrite !(fun c => Rmax_left c c (Rle_refl c)), !(fun c => Rmin_left c c (Rle_refl c)), !(fun c => Rmax_left c c (Rle_refl c)) in H. cbn in *. lra.
  Qed.

  (** ** C20 *)
  Lemma mean_row (x : mat R) d : nmean (row x d) = mean (mc x) (get x d).
  Proof. unfold nmean, row, mean. rewrite nsum_seq, map_length, seq_length, nofnat_R. reflexivity. Qed.
  Lemma var_row (x : mat R) d : (1 <= mc x)%nat -> nsq (nstd (row x d)) = variance (mc x) (get x d).
  Proof.
    intro H. unfold nsq, nstd. cbn [nmul ROps nsqrt]. rewrite sqrt_sqrt.
    - unfold ssd. rewrite mean_row. unfold row. rewrite map_map, nsum_seq, map_length, seq_length, nofnat_R. unfold variance. cbn [ndiv ROps].
      f_equal. apply sumn_ext. intros. unfold nsq. cbn. ring.
    - unfold ssd. rewrite mean_row. unfold row. rewrite map_map, nsum_seq, map_length, seq_length, nofnat_R. cbn [ndiv ROps].
      apply Rmult_le_pos. { apply sumn_ge0. intros. unfold nsq. cbn. apply Rle_0_sqr. }
      left. apply Rinv_0_lt_compat. apply lt_0_INR. lia.
  Qed.
  Lemma normal_density_pos mu var x : 0 < var -> 0 < normal_density mu var x.
  Proof.
    intro H. unfold normal_density. apply Rmult_lt_0_compat; [apply exp_pos|]. apply Rinv_0_lt_compat. apply sqrt_lt_R0.
    pose proof PI_RGT_0. apply Rmult_lt_0_compat; [lra|auto].
  Qed.
  Lemma normal_score_val mu var x : 0 < var -> normal_score mu var x (- (x - mu) / var).
  Proof.
    intro H. unfold normal_score.
    assert (Hs : 0 < sqrt (2 * PI * var)). { apply sqrt_lt_R0. pose proof PI_RGT_0. apply Rmult_lt_0_compat; [lra|auto]. }
    set (c := - ln (sqrt (2 * PI * var))).
    assert (Q : forall y, ln (normal_density mu var y) = - (y - mu) ^ 2 / (2 * var) + c).
    { intro y. unfold normal_density, c. unfold Rdiv at 1. rewrite ln_mult by (try apply exp_pos; now apply Rinv_0_lt_compat).
      rewrite ln_exp, ln_Rinv by auto. reflexivity. }
    apply (derivable_pt_lim_ext (fun y => - (y - mu) ^ 2 / (2 * var) + c)). { intros. symmetry. apply Q. }
    replace (- (x - mu) / var) with ((- / (2 * var)) * (2 * (x - mu) * 1) + 0) by (field; lra).
    apply (derivable_pt_lim_ext (fun y => (- / (2 * var)) * ((y - mu) * (y - mu)) + c)). { intros. field. lra. }
    apply derivable_pt_lim_plus; [|apply derivable_pt_lim_const].
    apply (derivable_pt_lim_scal (fun y => (y - mu) * (y - mu))).
    replace (2 * (x - mu) * 1) with ((1 - 0) * (x - mu) + (x - mu) * (1 - 0)) by ring.
    assert (HD : derivable_pt_lim (fun y => y - mu) x (1 - 0)).
    { apply (derivable_pt_lim_minus id (fct_cte mu)); [apply derivable_pt_lim_id|apply derivable_pt_lim_const]. }
    exact (derivable_pt_lim_mult _ _ _ _ _ HD HD).
  Qed.
  Theorem C20_gaussian_control o dim N k A gx ti j s : consistent o dim N k -> forward_of o A -> (1 <= N)%nat -> selects k ti j -> edge k ti ->
    (dim <= mc gx)%nat ->
    exists u, calculate_u E o gx ti s = (Ok u, s) /\
      forall d i, (d < dim)%nat -> (i < mr gx)%nat ->
        let b := get (slice (o_B o) j) d in let z := get (slice A j) d in
        0 < variance N b -> 0 < variance N z ->
        exists sb sz, normal_score (mean N b) (variance N b) (get gx i d) sb /\ normal_score (mean N z) (variance N z) (get gx i d) sz /\
          get u d i = sb - sz.
  Proof.
    intros Hc HF HN Hs He Hm. destruct (C21_gaussian_window E o dim N k Hc A HF gx ti j s HN Hs He Hm) as (u & H1 & _ & _ & H2 & _).
    exists u. split; [auto|]. intros d i Hd Hi b z Hb Hz.
    assert (HA : sh A dim N k).
    { destruct Hc as (_ & _ & HZ & _ & HT). unfold forward_of in HF. destruct (p_reweight (o_par o) && p_brown (o_par o)); [|subst A; now apply has_shape_sh].
      destruct (HT eq_refl) as (Zt & Q & HZt). rewrite HF in Q. injection Q as <-. now apply has_shape_sh in HZt. }
    destruct Hc as (_ & _ & _ & HB & _). apply has_shape_sh in HB.
    destruct (sh_slice _ _ _ _ j HA ltac:(apply Hs)) as (_ & _ & CA). destruct (sh_slice _ _ _ _ j HB ltac:(apply Hs)) as (_ & _ & CB).
    exists (- (get gx i d - mean N b) / variance N b), (- (get gx i d - mean N z) / variance N z).
    split; [now apply normal_score_val|]. split; [now apply normal_score_val|].
    rewrite H2 by auto. unfold gauss_score. rewrite !mean_row, !var_row, CA, CB by lia. reflexivity.
  Qed.
  (** the derivative is unique, so the two numbers above are the scores *)
  Lemma normal_score_unique mu var x v w : normal_score mu var x v -> normal_score mu var x w -> v = w.
  Proof. apply uniqueness_limite. Qed.

  (** ** C25 *)
  Theorem C25_zero_spread p s o s' : construct E p s = (Ok o, s') -> p_det p = true ->
    let k := List.length (o_grid o) in (2 <= k)%nat ->
    forall d, (d < List.length (p_y1 p))%nat ->
      nstd (row (slice (o_Z o) 0) d) = 0 /\ nstd (row (slice (o_B o) 0) d) = 0 /\ nstd (row (slice (o_B o) (k-1)) d) = 0.
  Proof.
    intros Hc Hd k Hk d Hdd. pose proof (C03_forward_starts_at_y1 E p s o s' Hc Hd Hk) as H1.
    destruct (C04_time_reversed_boundaries E p s o s' Hc Hk) as (H2 & H3). fold k in H3.
    destruct (construct_consistent E p s o s' Hc) as (_ & _ & _ & CZ & CB & _). apply has_shape_sh in CZ, CB. fold k in CZ, CB.
    assert (G : forall A y t, sh A (List.length (p_y1 p)) (p_N p) k -> (t < k)%nat -> all_at A t y -> nstd (row (slice A t) d) = 0).
    { intros A y t HA Ht Hat. apply (nstd_const _ (nth d y 0)). intros v Hv. apply in_row in Hv. destruct Hv as (n & Hn & ->).
      destruct (sh_slice _ _ _ _ t HA Ht) as (_ & _ & C). destruct HA as (_ & D & Nn & _). apply Hat; lia. }
    split; [|split]; eapply G; eauto; lia.
  Qed.

  (** ** C26 *)
  Lemma inter_bnd_sym (z b : mat R) d : inter_bnd z b d = inter_bnd b z d.
  Proof.
    unfold inter_bnd. destruct (row z d) as [|x l] eqn:Hz, (row b d) as [|y l'] eqn:Hb; try reflexivity.
    cbn [lmin lmax rbind]. f_equal. rewrite !pymax_R, !pymin_R. f_equal; [apply Rmax_comm|apply Rmin_comm].
  Qed.
  Lemma inter_bnds_sym dim (z b : mat R) : inter_bnds dim z b = inter_bnds dim b z.
  Proof. apply rmapM_ext. intros. apply inter_bnd_sym. Qed.
  Lemma exchanged_consistent o dim N k : consistent (T := R) o dim N k -> consistent (exchanged o) dim N k.
  Proof. intros (A & B & C & D & F). unfold consistent. cbn. auto. Qed.
  Theorem C26_antisymmetric o dim N k gx ti s u s' : consistent o dim N k -> p_reweight (o_par o) && p_brown (o_par o) = false ->
    calculate_u E o gx ti s = (Ok u, s') ->
    exists v, calculate_u E (exchanged o) gx ti s = (Ok v, s') /\ mr v = mr u /\ mc v = mc u /\
      forall d i, (d < mr u)%nat -> (i < mc u)%nat -> get v d i = - get u d i.
  Proof.
    intros Hc Hb H. destruct (selects_cases k ti) as [(j & Hs)|Hs].
    2:{ rewrite (calculate_u_out E o dim N k gx ti s Hc Hs) in H. discriminate. }
    assert (HF : forward_of o (o_Z o)) by (unfold forward_of; now rewrite Hb).
    assert (HF' : forward_of (exchanged o) (o_B o)) by (unfold forward_of; cbn; now rewrite Hb).
    rewrite (calculate_u_eq E o dim N k _ gx ti j s Hc HF Hs) in H. cbv zeta in H. rewrite Hb in H.
    rewrite (calculate_u_eq E (exchanged o) dim N k _ gx ti j s (exchanged_consistent _ _ _ _ Hc) HF' Hs). cbv zeta.
    cbn [exchanged o_par o_B o_Z o_kern]. rewrite Hb. rewrite (inter_bnds_sym dim (slice (o_B o) j)).
    destruct (inter_bnds dim (slice (o_Z o) j) (slice (o_B o) j)) as [bn|e]; [|discriminate].
    assert (Main : forall v v' : nat -> res (mat R), (forall d x, (d < dim)%nat -> (d < mc gx)%nat -> v d = Ok x ->
              exists y, v' d = Ok y /\ mr y = 1%nat /\ mc y = mr gx /\ mc x = mr gx /\ forall i, (i < mr gx)%nat -> bget y 0 i = - bget x 0 i) ->
         rows_fold v dim (mc gx) (mr gx) = Ok u -> exists w, rows_fold v' dim (mc gx) (mr gx) = Ok w /\ mr w = mr u /\ mc w = mc u /\
            forall d i, (d < mr u)%nat -> (i < mc u)%nat -> get w d i = - get u d i).
    { intros v v' Hvv Hu. apply rows_fold_ok in Hu. destruct Hu as (_ & R & C & Hdim & Hv & Hz).
      destruct (rows_fold_tot v' dim (mc gx) (mr gx) Hdim) as (w & Hw).
      { intros d Hd. destruct (Hv d Hd) as (x & X1 & _). destruct (Hvv d x Hd ltac:(lia) X1) as (y & Y1 & Y2 & Y3 & _). eauto. }
      exists w. split; [auto|]. apply rows_fold_ok in Hw. destruct Hw as (_ & R' & C' & _ & Hv' & Hz').
      split; [congruence|]. split; [congruence|]. intros d i Hd Hi. rewrite R in Hd. rewrite C in Hi. destruct (Nat.lt_ge_cases d dim) as [Hdd|Hdd].
      - destruct (Hv d Hdd) as (x & X1 & _ & _ & X2). destruct (Hvv d x Hdd Hd X1) as (y & Y1 & _ & _ & _ & Y2).
        destruct (Hv' d Hdd) as (y' & Z1 & _ & _ & Z2). assert (y' = y) as -> by congruence. rewrite Z2, Y2, X2 by lia. reflexivity.
      - rewrite Hz', Hz by lia. cbn. lra. }
    destruct ((ti <=? 5) || (Z.of_nat k - 5 <=? ti))%Z.
    - injection H as H <-. edestruct (fun H' => Main _ (u_edge_row gx (slice (o_Z o) j) (slice (o_B o) j)) H' H) as (w & W1 & W2).
      + intros d x Hd Hm Hx. destruct (edge_row_ok gx (slice (o_B o) j) (slice (o_Z o) j) d Hm) as (x' & X1 & X2 & X3 & X4).
        assert (x' = x) as -> by congruence. destruct (edge_row_ok gx (slice (o_Z o) j) (slice (o_B o) j) d Hm) as (y & Y1 & Y2 & Y3 & Y4).
        exists y. repeat (split; [now auto|]). intros i Hi. rewrite X4, Y4 by auto. cbn. lra.
      + exists w. split; [|exact W2]. now rewrite W1.
    - destruct (sample_box E (p_M (o_par o)) bn s) as [[Sx|e] s1]; [|discriminate]. injection H as H <-.
      edestruct (fun H' => Main _ (u_kern_row E false (o_kern o) dim gx (slice (o_Z o) j) (slice (o_B o) j) (mT Sx)) H' H) as (w & W1 & W2).
      + intros d x Hd Hm Hx. unfold u_kern_row in Hx |- *. apply rbind_ok in Hx. destruct Hx as (sb & Hsb & Hx). cbn [rbind] in Hx.
        apply rbind_ok in Hx. destruct Hx as (sf & Hsf & Hx). rewrite Hsf. cbn [rbind]. rewrite Hsb. cbn [rbind].
        pose proof (u_score_length E _ _ _ _ _ _ _ Hsb) as L1. pose proof (u_score_length E _ _ _ _ _ _ _ Hsf) as L2.
        rewrite bc2_same with (r := 1%nat) (c := mr gx) in Hx by (cbn; auto; congruence). injection Hx as <-.
        rewrite bc2_same with (r := 1%nat) (c := mr gx) by (cbn; auto; congruence).
        eexists. split; [reflexivity|]. split; [reflexivity|]. split; [reflexivity|]. split; [reflexivity|].
        intros i Hi. rewrite !bget_in by (cbn; lia). rewrite !get_mk by (cbn; lia). cbn. lra.
      + exists w. split; [|exact W2]. now rewrite W1.
  Qed.
  (** coinciding flows need no control *)
  Theorem C26_vanishes o dim N k gx ti s u s' : consistent o dim N k -> p_reweight (o_par o) && p_brown (o_par o) = false ->
    (forall j, selects k ti j -> slice (o_Z o) j = slice (o_B o) j) ->
    calculate_u E o gx ti s = (Ok u, s') -> forall d i, (d < mr u)%nat -> (i < mc u)%nat -> get u d i = 0.
  Proof.
    intros Hc Hb Heq H d i Hd Hi. destruct (C26_antisymmetric o dim N k gx ti s u s' Hc Hb H) as (v & Hv & _ & _ & Hn).
    assert (Q : calculate_u E (exchanged o) gx ti s = calculate_u E o gx ti s).
    { destruct (selects_cases k ti) as [(j & Hs)|Hs].
      2:{ now rewrite !(calculate_u_out E _ dim N k gx ti s) by auto using exchanged_consistent. }
      assert (HF : forward_of o (o_Z o)) by (unfold forward_of; now rewrite Hb).
      assert (HF' : forward_of (exchanged o) (o_B o)) by (unfold forward_of; cbn; now rewrite Hb).
      rewrite (calculate_u_eq E o dim N k _ gx ti j s Hc HF Hs).
      rewrite (calculate_u_eq E (exchanged o) dim N k _ gx ti j s (exchanged_consistent _ _ _ _ Hc) HF' Hs).
      cbn [exchanged o_par o_B o_Z o_kern]. rewrite (Heq j Hs). reflexivity. }
    rewrite Q, H in Hv. injection Hv as <-. specialize (Hn d i Hd Hi). lra.
  Qed.

  (** ** C27 *)
  Theorem C27_bridge_fails o dim N k gx ti s : consistent o dim N k -> p_reweight (o_par o) = true -> p_brown (o_par o) = true ->
    (6 <= ti <= Z.of_nat k - 6)%Z -> (1 <= dim)%nat -> dim <> 2%nat -> mc gx = dim -> forall u s', calculate_u E o gx ti s <> (Ok u, s').
  Proof.
    intros Hc Hr Hb Ht Hd1 Hd2 Hm u s' H. assert (Hs : selects k ti (Z.to_nat ti)) by (unfold selects; lia).
    assert (HT : exists A, forward_of o A). { unfold forward_of. rewrite Hr, Hb. cbn. destruct Hc as (_ & _ & _ & _ & HT). rewrite Hr, Hb in HT. destruct (HT eq_refl) as (A & Q & _). eauto. }
    destruct HT as (A & HF). rewrite (calculate_u_eq E o dim N k A gx ti _ s Hc HF Hs) in H. cbv zeta in H. rewrite Hr, Hb in H.
    destruct (inter_bnds _ _ _); [|discriminate]. replace ((ti <=? 5) || (Z.of_nat k - 5 <=? ti))%Z with false in H.
    2:{ symmetry. apply orb_false_iff. lia. }
    destruct (sample_box E (p_M (o_par o)) a s) as [[Sx|e] s1]; [|discriminate]. injection H as H _. apply rows_fold_ok in H.
    destruct H as (_ & _ & _ & _ & Hv & _). destruct (Hv 0%nat ltac:(lia)) as (x & Hx & _). cbn [andb] in Hx. unfold u_kern_row in Hx.
    apply rbind_ok in Hx. destruct Hx as (sb & _ & Hx). apply rbind_ok in Hx. destruct Hx as (gz & Hgz & _).
    apply rbind_ok in Hgz. destruct Hgz as (bb & Hbb & Hclip). unfold bndsztr in Hbb.
    apply rbind_ok in Hbb. destruct Hbb as (lo & _ & Hbb). apply rbind_ok in Hbb. destruct Hbb as (hi & _ & Hbb). injection Hbb as <-.
    clear - Hclip Hd1 Hd2 Hm. unfold clip_rows in Hclip. cbn [mr mk] in Hclip. destruct (Nat.leb_spec 2 dim); [|discriminate].
    apply rbind_ok in Hclip. destruct Hclip as (m1 & Hm1 & _).
    unfold bc2 in Hm1. cbn [vec mk mr mc] in Hm1. rewrite row_length in Hm1. cbn [mk mc] in Hm1.
    assert (Q : bok (mc gx) 2 = false). { destruct (bok (mc gx) 2) eqn:Q; auto. apply bok_spec in Q. lia. }
    rewrite Q, andb_false_r in Hm1. discriminate.
  Qed.
  (** dim = 2, first coordinate: the forward score is evaluated at points with both coordinates <= 0; for x in the
      positive quadrant that point is the origin, whatever x is *)
  Theorem C27_bridge_misplaced o N k gx ti s u s' : consistent o 2 N k -> p_reweight (o_par o) = true -> p_brown (o_par o) = true ->
    (6 <= ti <= Z.of_nat k - 6)%Z -> mc gx = 2%nat -> calculate_u E o gx ti s = (Ok u, s') ->
    exists A Zp gz sb sf, o_Ztr o = Some A /\
      estimated E (o_kern o) (slice (o_B o) (Z.to_nat ti)) Zp 0 gx sb /\ estimated E (o_kern o) (slice A (Z.to_nat ti)) Zp 0 gz sf /\
      mr gz = mr gx /\ mc gz = 2%nat /\
      (forall i c, (i < mr gx)%nat -> (c < 2)%nat -> get gz i c <= 0) /\
      (forall i c, (i < mr gx)%nat -> (c < 2)%nat -> 0 <= get gx i c -> get gz i c = 0) /\
      forall i, (i < mr gx)%nat -> get u 0 i = nth i sb 0 - nth i sf 0.
  Proof.
    intros Hc Hr Hb Ht Hm H. assert (Hs : selects k ti (Z.to_nat ti)) by (unfold selects; lia).
    assert (HT : exists A, forward_of o A). { unfold forward_of. rewrite Hr, Hb. cbn. destruct Hc as (_ & _ & _ & _ & HT). rewrite Hr, Hb in HT. destruct (HT eq_refl) as (A & Q & _). eauto. }
    destruct HT as (A & HF). rewrite (calculate_u_eq E o 2 N k A gx ti _ s Hc HF Hs) in H. cbv zeta in H. rewrite Hr, Hb in H.
    destruct (inter_bnds _ _ _); [|discriminate]. replace ((ti <=? 5) || (Z.of_nat k - 5 <=? ti))%Z with false in H.
    2:{ symmetry. apply orb_false_iff. lia. }
    destruct (sample_box E (p_M (o_par o)) a s) as [[Sx|e] s1]; [|discriminate]. injection H as H _. apply rows_fold_ok in H.
    destruct H as (_ & _ & _ & _ & Hv & _). destruct (Hv 0%nat ltac:(lia)) as (x & Hx & _ & _ & Hu). cbn [andb] in Hx. unfold u_kern_row in Hx.
    apply rbind_ok in Hx. destruct Hx as (sb & Hsb & Hx). apply rbind_ok in Hx. destruct Hx as (gz & Hgz & Hx). apply rbind_ok in Hx. destruct Hx as (sf & Hsf & Hx).
    exists A, (mT Sx), gz, sb, sf. split. { unfold forward_of in HF. now rewrite Hr, Hb in HF. }
    pose proof (u_score_length E _ _ _ _ _ _ _ Hsb) as L1. pose proof (u_score_length E _ _ _ _ _ _ _ Hsf) as L2.
    split. { unfold estimated. rewrite <- lengthscales_eq. unfold u_score in Hsb. invok. eauto. }
    split. { unfold estimated. rewrite <- lengthscales_eq. unfold u_score in Hsf. invok. eauto. }
    apply rbind_ok in Hgz. destruct Hgz as (bb & Hbb & Hgz). unfold bndsztr in Hbb. invok.
    unfold clip_rows in Hgz. cbn [mr mk Nat.leb] in Hgz. apply rbind_ok in Hgz. destruct Hgz as (m1 & Hm1 & Hgz).
    rewrite !row_mk in Hm1, Hgz by lia. cbn [Nat.eqb seq map] in Hm1, Hgz.
    assert (S1 : mr m1 = mr gx /\ mc m1 = 2%nat /\ forall i c, (i < mr gx)%nat -> (c < 2)%nat -> get m1 i c = Rmax (get gx i c) (get (vec [a0; a1]) 0 c)).
    { pose proof Hm1 as Q. apply bc2_ok in Q. destruct Q as (_ & _ & _ & Q1 & Q2 & _). cbn [vec mk mr mc List.length] in Q1, Q2.
      rewrite bdim_1_r in Q1. rewrite Hm in Q2. cbn in Q2. split; [auto|]. split; [auto|]. intros i c Hi Hc'.
      unfold bc2 in Hm1. cbn [vec mk mr mc List.length] in Hm1. rewrite Hm, bok_1_r, bdim_1_r in Hm1. cbn in Hm1. injection Hm1 as <-.
      rewrite get_mk by (cbn; lia). f_equal. { unfold bget. rewrite bidx_lt by auto. rewrite Hm. cbn [bidx Nat.eqb]. reflexivity. } }
    destruct S1 as (R1 & C1 & G1).
    assert (S2 : mr gz = mr gx /\ mc gz = 2%nat /\ forall i c, (i < mr gx)%nat -> (c < 2)%nat -> get gz i c = Rmin (get m1 i c) 0).
    { pose proof Hgz as Q. apply bc2_ok in Q. destruct Q as (_ & _ & _ & Q1 & Q2 & _). cbn [vec mk mr mc List.length] in Q1, Q2.
      rewrite bdim_1_r in Q1. rewrite C1 in Q2. cbn in Q2. split; [congruence|]. split; [auto|]. intros i c Hi Hc'.
      unfold bc2 in Hgz. cbn [vec mk mr mc List.length] in Hgz. rewrite C1, bok_1_r, bdim_1_r in Hgz. cbn in Hgz. injection Hgz as <-.
      rewrite get_mk by (cbn; lia). f_equal. { unfold bget. rewrite bidx_lt by lia. rewrite C1. cbn [bidx Nat.eqb]. reflexivity. }
      destruct c as [|[|c]]; [reflexivity|reflexivity|lia]. }
    destruct S2 as (R2 & C2 & G2). split; [auto|]. split; [auto|]. split. { intros. rewrite G2 by auto. apply Rmin_r. }
    split. { intros i c Hi Hc' Hp. rewrite G2 by auto. apply Rmin_right. rewrite G1 by auto. pose proof (Rmax_l (get gx i c) (get (vec [a0; a1]) 0 c)). lra. }
    intros i Hi. rewrite Hu by auto. rewrite bc2_same with (r := 1%nat) (c := mr gx) in Hx by (cbn; auto; congruence). injection Hx as <-.
    rewrite bget_in by (cbn; lia). rewrite get_mk by lia. now rewrite !get_vec by lia.
  Qed.

  (** ** C30, C31 *)
  Lemma fold_and dim (v : nat -> res bool) (c0 : bool) : (forall d, (d < dim)%nat -> exists c, v d = Ok c) ->
    exists c, rfold (fun cov ii => let! x := v ii in Ok (cov && x)) (seq 0 dim) c0 = Ok c /\ (c = true <-> (c0 = true /\ forall d, (d < dim)%nat -> v d = Ok true)).
  Proof.
    intro H. induction dim as [|n IH]. { exists c0. cbn. split; [auto|]. split; [intro; split; [auto|lia]|tauto]. }
    destruct IH as (c & C1 & C2). { intros; apply H; lia. }
    rewrite seq_S, rfold_app, C1. cbn. destruct (H n ltac:(lia)) as (x & Hx). rewrite Hx. cbn. eexists. split; [reflexivity|].
    rewrite andb_true_iff, C2. split.
    - intros ((Q1 & Q2) & ->). split; [auto|]. intros d Hd. destruct (Nat.eq_dec d n) as [->|]; [auto|]. apply Q2. lia.
    - intros (Q1 & Q2). split; [split; [auto|intros; apply Q2; lia]|]. rewrite (Q2 n ltac:(lia)) in Hx. congruence.
  Qed.
  Lemma row_bounds (x : mat R) d : (1 <= mc x)%nat -> exists r, range_of x d r.
  Proof.
    intro H. pose proof (row_length x d) as L. unfold range_of. destruct (row x d) as [|v l]; [cbn in L; lia|].
    exists (fold_left npmin l v, fold_left npmax l v). cbn. auto.
  Qed.
  Theorem C30_covered o dim N k ti j X : consistent o dim N k -> (1 <= N)%nat -> selects k ti j -> (dim <= List.length X)%nat ->
    exists c, check_if_covered o X ti = Ok c /\
      (c = true <-> forall d, (d < dim)%nat -> in_range (slice (o_Z o) j) d (nth d X 0) /\ in_range (slice (o_B o) j) d (nth d X 0)).
  Proof.
    intros (L & K & HZ & HB & _) HN Hs HX. apply has_shape_sh in HZ, HB.
    destruct (sh_slice _ _ _ _ j HZ ltac:(apply Hs)) as (_ & _ & CZ). destruct (sh_slice _ _ _ _ j HB ltac:(apply Hs)) as (_ & _ & CB).
    set (z := slice (o_Z o) j) in *. set (b := slice (o_B o) j) in *.
    set (v := fun ii => let! bnd := inter_bnd z b ii in let! x := pyget X (Z.of_nat ii) in Ok (nleb (fst bnd) x && nleb x (snd bnd))).
    assert (Hv : forall d, (d < dim)%nat -> exists c, v d = Ok c /\ (c = true <-> in_range z d (nth d X 0) /\ in_range b d (nth d X 0))).
    { intros d Hd. destruct (row_bounds z d ltac:(lia)) as (rz & Rz). destruct (row_bounds b d ltac:(lia)) as (rb & Rb).
      unfold v. unfold inter_bnd. pose proof Rz as (Z1 & Z2). pose proof Rb as (B1 & B2). rewrite Z1, Z2, B1, B2. cbn [rbind fst snd].
      rewrite (pyget_nat X d 0) by lia. cbn [rbind]. eexists. split; [reflexivity|].
      rewrite andb_true_iff, !nleb_R, pymax_R, pymin_R. rewrite (range_R z d rz _ Rz), (range_R b d rb _ Rb).
      pose proof (Rmax_l (fst rz) (fst rb)). pose proof (Rmax_r (fst rz) (fst rb)). pose proof (Rmin_l (snd rz) (snd rb)). pose proof (Rmin_r (snd rz) (snd rb)).
      split; [cbn in *; lra|]. intros ((? & ?) & ? & ?). split; [apply Rmax_lub|apply Rmin_glb]; auto. }
    destruct (fold_and dim v true) as (c & C1 & C2). { intros d Hd. destruct (Hv d Hd) as (c & ? & _). eauto. }
    exists c. split.
    - rewrite <- C1. unfold check_if_covered. cbv zeta. rewrite L. apply rfold_ext. intros cov ii _.
      rewrite (getsl_sel _ _ _ _ _ _ HZ Hs), (getsl_sel _ _ _ _ _ _ HB Hs). cbn [rbind]. unfold v. fold z b.
      rewrite !rbind_assoc. destruct (inter_bnd z b ii); [|reflexivity]. cbn [rbind]. now destruct (pyget X (Z.of_nat ii)).
    - rewrite C2. split.
      + intros (_ & Q) d Hd. destruct (Hv d Hd) as (c' & V1 & V2). apply V2. rewrite (Q d Hd) in V1. congruence.
      + intro Q. split; [auto|]. intros d Hd. destruct (Hv d Hd) as (c' & V1 & V2). rewrite V1. f_equal. apply V2. auto.
  Qed.
  Theorem C31_torch_covered o dim N k ti j X : consistent o dim N k -> (1 <= N)%nat -> selects k ti j -> (dim <= List.length X)%nat ->
    exists c, t_check_if_covered o X ti = Ok c /\
      (c = true <-> forall d, (d < dim)%nat -> in_hull (slice (o_Z o) j) (slice (o_B o) j) d (nth d X 0)).
  Proof.
    intros (L & K & HZ & HB & _) HN Hs HX. apply has_shape_sh in HZ, HB.
    destruct (sh_slice _ _ _ _ j HZ ltac:(apply Hs)) as (_ & _ & CZ). destruct (sh_slice _ _ _ _ j HB ltac:(apply Hs)) as (_ & _ & CB).
    set (z := slice (o_Z o) j) in *. set (b := slice (o_B o) j) in *.
    set (v := fun ii => let! bnd := hull_bnd z b ii in let! x := pyget X (Z.of_nat ii) in Ok (nleb (fst bnd) x && nleb x (snd bnd))).
    assert (Hv : forall d, (d < dim)%nat -> exists c, v d = Ok c /\ (c = true <-> in_hull z b d (nth d X 0))).
    { intros d Hd. destruct (row_bounds z d ltac:(lia)) as (rz & Rz). destruct (row_bounds b d ltac:(lia)) as (rb & Rb).
      unfold v. unfold hull_bnd. pose proof Rz as (Z1 & Z2). pose proof Rb as (B1 & B2). rewrite Z1, Z2, B1, B2. cbn [rbind fst snd ScoreTorch.tor].
      rewrite (pyget_nat X d 0) by lia. cbn [rbind]. eexists. split; [reflexivity|].
      rewrite andb_true_iff, !nleb_R, pymax_R, pymin_R.
      apply rlo_R in Z1, B1. apply rhi_R in Z2, B2. destruct Z1 as ((n1 & N1 & Q1) & L1), Z2 as ((n2 & N2 & Q2) & L2), B1 as ((n3 & N3 & Q3) & L3), B2 as ((n4 & N4 & Q4) & L4).
      pose proof (Rmin_l (fst rz) (fst rb)). pose proof (Rmin_r (fst rz) (fst rb)). pose proof (Rmax_l (snd rz) (snd rb)). pose proof (Rmax_r (snd rz) (snd rb)).
      unfold in_hull. split.
      - intros (A1 & A2). split.
        + unfold Rmin in A1. destruct (Rle_dec (fst rz) (fst rb)); [left; exists n1|right; exists n3]; split; auto; lra.
        + unfold Rmax in A2. destruct (Rle_dec (snd rz) (snd rb)); [right; exists n4|left; exists n2]; split; auto; lra.
      - intros ([(n & Hn & A)|(n & Hn & A)] & [(m & Hm & A')|(m & Hm & A')]);
          try specialize (L1 n Hn); try specialize (L3 n Hn); try specialize (L2 m Hm); try specialize (L4 m Hm); lra. }
    destruct (fold_and dim v true) as (c & C1 & C2). { intros d Hd. destruct (Hv d Hd) as (c & ? & _). eauto. }
    exists c. split.
    - rewrite <- C1. unfold t_check_if_covered. cbv zeta. rewrite L. apply rfold_ext. intros cov ii _.
      rewrite (getsl_sel _ _ _ _ _ _ HZ Hs), (getsl_sel _ _ _ _ _ _ HB Hs). cbn [rbind]. unfold v. fold z b.
      rewrite !rbind_assoc. destruct (hull_bnd z b ii); [|reflexivity]. cbn [rbind]. now destruct (pyget X (Z.of_nat ii)).
    - rewrite C2. split.
      + intros (_ & Q) d Hd. destruct (Hv d Hd) as (c' & V1 & V2). apply V2. rewrite (Q d Hd) in V1. congruence.
      + intro Q. split; [auto|]. intros d Hd. destruct (Hv d Hd) as (c' & V1 & V2). rewrite V1. f_equal. apply V2. auto.
  Qed.
  Theorem C31_implied o dim N k ti j X : consistent o dim N k -> (1 <= N)%nat -> selects k ti j -> (dim <= List.length X)%nat ->
    check_if_covered o X ti = Ok true -> t_check_if_covered o X ti = Ok true.
  Proof.
    intros Hc HN Hs HX H. destruct (C30_covered o dim N k ti j X Hc HN Hs HX) as (c & C1 & C2).
    destruct (C31_torch_covered o dim N k ti j X Hc HN Hs HX) as (c' & C3 & C4). rewrite C3. f_equal. apply C4. intros d Hd.
    assert (c = true) by congruence. destruct (proj1 C2 H0 d Hd) as (((n & N1 & N2) & (m & M1 & M2)) & _). split; left; eauto.
  Qed.

  (** ** C32 *)
  Theorem C32_initial p s o s' X : construct E p s = (Ok o, s') -> p_det p = true -> (2 <= List.length (o_grid o))%nat -> (1 <= p_N p)%nat ->
    (List.length (p_y1 p) <= List.length X)%nat ->
    exists c, check_if_covered o X 0 = Ok c /\ (c = true <-> forall d, (d < List.length (p_y1 p))%nat -> nth d X 0 = nth d (p_y1 p) 0).
  Proof.
    intros Hc Hd Hk HN HX. destruct (construct_consistent E p s o s' Hc) as (_ & Hcon).
    destruct (C30_covered o _ _ _ 0%Z 0%nat X Hcon HN ltac:(unfold selects; lia) HX) as (c & C1 & C2).
    exists c. split; [auto|]. rewrite C2.
    pose proof (C03_forward_starts_at_y1 E p s o s' Hc Hd Hk) as H1. destruct (C04_time_reversed_boundaries E p s o s' Hc Hk) as (H2 & _).
    destruct Hcon as (_ & _ & CZ & CB & _). apply has_shape_sh in CZ, CB.
    destruct (sh_slice _ _ _ _ 0%nat CZ ltac:(lia)) as (_ & _ & MZ). destruct (sh_slice _ _ _ _ 0%nat CB ltac:(lia)) as (_ & _ & MB).
    assert (GZ : forall d n, (d < List.length (p_y1 p))%nat -> (n < p_N p)%nat -> get (slice (o_Z o) 0) d n = nth d (p_y1 p) 0).
    { intros. destruct CZ as (_ & D & Nn & _). apply H1; lia. }
    assert (GB : forall d n, (d < List.length (p_y1 p))%nat -> (n < p_N p)%nat -> get (slice (o_B o) 0) d n = nth d (p_y1 p) 0).
    { intros. destruct CB as (_ & D & Nn & _). apply H2; lia. }
    split.
    - intros H d Hdd. destruct (H d Hdd) as (((n & N1 & N2) & (m & M1 & M2)) & _). rewrite MZ in *. rewrite GZ in N2, M2 by lia. lra.
    - intros H d Hdd. rewrite (H d Hdd). unfold in_range. rewrite MZ, MB. split; split; exists 0%nat; (split; [lia|]); rewrite ?GZ, ?GB by lia; lra.
  Qed.
  Theorem C32_terminal p s o s' X : construct E p s = (Ok o, s') -> (2 <= List.length (o_grid o))%nat -> (1 <= p_N p)%nat ->
    (List.length (p_y1 p) <= List.length X)%nat -> check_if_covered o X (-1) = Ok true ->
    forall d, (d < List.length (p_y1 p))%nat -> nth d X 0 = nth d (p_y2 p) 0.
  Proof.
    intros Hc Hk HN HX H d Hdd. destruct (construct_consistent E p s o s' Hc) as (_ & Hcon). set (k := List.length (o_grid o)) in *.
    destruct (C30_covered o _ _ _ (-1)%Z (k-1)%nat X Hcon HN ltac:(unfold selects; lia) HX) as (c & C1 & C2).
    destruct (C04_time_reversed_boundaries E p s o s' Hc Hk) as (_ & H2). fold k in H2.
    destruct Hcon as (_ & _ & _ & CB & _). apply has_shape_sh in CB. destruct (sh_slice _ _ _ _ (k-1)%nat CB ltac:(lia)) as (_ & _ & MB).
    assert (c = true) by congruence. destruct (proj1 C2 H0 d Hdd) as (_ & ((n & N1 & N2) & (m & M1 & M2))). rewrite MB in *.
    destruct CB as (_ & D & Nn & _). pose proof (H2 d n ltac:(lia) ltac:(lia)) as J1. pose proof (H2 d m ltac:(lia) ltac:(lia)) as J2. unfold get3 in J1, J2. cbn in *. lra.
  Qed.
End R.

(** C31, converse fails: forward particles at 0, backward ones at 1; 1/2 is in neither flow and torch reports it covered *)
Definition two_points : obj R := {|
  o_par := {| p_t1 := 0; p_t2 := 0; p_y1 := [0]; p_y2 := [1]; p_f := {| call1 := fun x => Ok x; call2 := fun x _ => Ok x |};
              p_g := mk 1 1 (fun _ _ => 1); p_N := 1; p_M := 1; p_reweight := false; p_U := None; p_dens_est := "nonparametric";
              p_reject := true; p_kern := "RBF"; p_f_true := None; p_brown := false; p_det := true |};
  o_kern := "RBF"; o_grid := [0];
  o_Z := Arr3 1 1 1 [mk 1 1 (fun _ _ => 0)]; o_B := Arr3 1 1 1 [mk 1 1 (fun _ _ => 1)]; o_Ztr := None |}.
Lemma two_points_consistent : consistent two_points 1 1 1.
Proof. unfold consistent. cbn. repeat split; repeat constructor; discriminate. Qed.
Theorem C31_converse_fails : t_check_if_covered two_points [1/2] 0 = Ok true /\ check_if_covered two_points [1/2] 0 = Ok false.
Proof.
  destruct (C30_covered two_points 1 1 1 0%Z 0%nat [1/2] two_points_consistent ltac:(lia) ltac:(unfold selects; lia) ltac:(cbn; lia)) as (c & C1 & C2).
  destruct (C31_torch_covered two_points 1 1 1 0%Z 0%nat [1/2] two_points_consistent ltac:(lia) ltac:(unfold selects; lia) ltac:(cbn; lia)) as (c' & C3 & C4).
  split.
  - rewrite C3. f_equal. apply C4. intros d Hd. assert (d = 0%nat) as -> by lia. unfold in_hull. cbn. split; [left|right]; exists 0%nat; split; try lia; cbn; lra.
  - rewrite C1. f_equal. destruct c; [|reflexivity]. destruct (proj1 C2 eq_refl 0%nat ltac:(lia)) as ((_ & (n & N1 & N2)) & _).
    cbn in N1. assert (n = 0%nat) as -> by lia. cbn in N2. lra.
Qed.
