(** C06, C07, C18 and C22 over the reals, with a correct matrix inverse: construction and interior queries succeed, and every
    score that enters the flows and the control is a minimiser of regularised score matching. *)
From Coq Require Import String List ZArith Reals Lra Lia Bool.
From Verif Require Import Base.Num Base.Py Base.Arr Lib.ArrLemmas Model.Ext Model.Cdist Model.Score Model.DPFC.
From Verif Require Import Spec.FlowSpec Spec.TotalSpec Spec.QuerySpec Spec.RealSpec Spec.Contracts Spec.RangeSpec Spec.KernelSpec Spec.ReweightSpec Spec.ScoreSpec.
From Verif Require Import Lib.FlowLemmas Lib.ScoreLemmas Lib.StepLemmas Lib.TotalLemmas Lib.QueryLemmas Lib.RBase Lib.RSum Lib.Gauss Lib.Estimator Lib.AnyScale.
From Verif Require Import Props.Flows Props.Grid Props.Queries Props.QueriesR Props.Kernels Props.Estimators.
Import ListNotations.
Local Open Scope R_scope.

Lemma nstd_pos (x : mat R) d : spread x d -> 0 < nstd (row x d).
Proof.
  intros (m & n & Hm & Hn & Hne). assert (H1 : (1 <= mc x)%nat) by lia. pose proof (var_row x d H1) as Q. pose proof (nstd_ge0 (row x d)) as G.
  destruct (Rle_lt_or_eq_dec _ _ G) as [|Z0]; [auto|]. exfalso. rewrite <- Z0 in Q. unfold nsq in Q. cbn in Q. rewrite Rmult_0_l in Q.
  unfold variance in Q. assert (0 < INR (mc x)) by (apply lt_0_INR; lia).
  assert (Q0 : sumn (mc x) (fun i => (get x d i - mean (mc x) (get x d)) ^ 2) = 0).
  { apply (Rmult_eq_reg_r (/ INR (mc x))); [|apply Rinv_neq_0_compat; lra]. unfold Rdiv in Q. lra. }
  assert (Zi : forall i, (i < mc x)%nat -> get x d i = mean (mc x) (get x d)).
  { intros i Hi. pose proof (sumn_term (mc x) (fun i => (get x d i - mean (mc x) (get x d)) ^ 2) i ltac:(intros; apply pow2_ge_0) Hi) as Hz. cbv beta in Hz. rewrite Q0 in Hz.
    pose proof (pow2_ge_0 (get x d i - mean (mc x) (get x d))). assert (Hz0 : (get x d i - mean (mc x) (get x d)) * ((get x d i - mean (mc x) (get x d)) * 1) = 0) by (cbn [pow] in *; lra). clear Hz. rename Hz0 into Hz.
    apply Rmult_integral in Hz. destruct Hz as [Hz|Hz]; [lra|]. rewrite Rmult_1_r in Hz. lra. }
  apply Hne. now rewrite !Zi.
Qed.
Lemma nstd_sqrt (x : mat R) d : (1 <= mc x)%nat -> nstd (row x d) = sqrt (variance (mc x) (get x d)).
Proof. intro H. rewrite <- var_row by auto. unfold nsq. cbn. symmetry. apply sqrt_square. apply nstd_ge0. Qed.

Lemma minimises_ext N M D l l' x x' z d lam rho a : (d < D)%nat -> (forall d, (d < D)%nat -> l d = l' d) -> (forall n d, (n < N)%nat -> (d < D)%nat -> x n d = x' n d) ->
  minimises N M D l x z d lam rho a -> minimises N M D l' x' z d lam rho a.
Proof.
  intros Hd Hl Hx.
  assert (G : forall p p' q, (forall d, (d < D)%nat -> p d = p' d) -> gaussk D l p q = gaussk D l' p' q).
  { intros p p' q Hp. unfold gaussk. f_equal. f_equal. apply sumn_ext. intros i Hi. now rewrite Hl, Hp. }
  assert (X : forall b p p', (forall d, (d < D)%nat -> p d = p' d) -> expansion M D l z b p = expansion M D l' z b p').
  { intros b p p' Hp. unfold expansion. apply sumn_ext. intros. f_equal. now apply G. }
  assert (Obj : forall b J, objective N M D l x z d lam rho b J -> objective N M D l' x' z d lam rho b J).
  { intros b J (ds & H1 & ->). exists ds. split.
    - intros n Hn. specialize (H1 n Hn). unfold partial_at in *. rewrite (Hx n d Hn Hd) in H1.
      eapply dlim_ext; [|exact H1]. intro t. cbv beta. apply X. intros e He. unfold moved. destruct (e =? d)%nat; auto.
    - f_equal.
      + apply sumn_ext. intros n Hn. now rewrite (X b (x n) (x' n)) by auto.
      + f_equal. apply sumn_ext. intros i Hi. apply sumn_ext. intros j Hj. now rewrite (G (z i) (z i) (z j)) by auto. }
  intros (J & HJ & H). exists J. split; [auto|]. intro b. destruct (H b) as (Jb & B1 & B2 & B3). exists Jb. auto.
Qed.
Lemma expansion_ext M D l l' z a p p' : (forall d, (d < D)%nat -> l d = l' d) -> (forall d, (d < D)%nat -> p d = p' d) ->
  expansion M D l z a p = expansion M D l' z a p'.
Proof. intros Hl Hp. unfold expansion, gaussk. apply sumn_ext. intros. f_equal. f_equal. f_equal. apply sumn_ext. intros i0 Hi. now rewrite Hl, Hp. Qed.

Lemma lengthscales_nth (x : mat R) d : (1 <= mc x)%nat -> (d < mr x)%nat -> nth d (lengthscales x) 0 = two_sigma x d.
Proof. intros Hn Hd. unfold lengthscales, two_sigma. rewrite nth_map_seq by auto. rewrite nstd_sqrt by auto. unfold ntwo. cbn. lra. Qed.
Lemma drawn_length {S} (E : Ext R S) m s bnds rows s' : drawn E m s bnds rows s' -> List.length rows = List.length bnds.
Proof. induction 1; cbn; auto. Qed.

Section R.
  Context {S : Type} (E : Ext R S) (HI : inv_contract E).

  Lemma args (x : mat R) rows m : (1 <= mc x)%nat -> List.length rows = mr x -> (forall d, (d < mr x)%nat -> spread x d) ->
    estimator_args (mr x) (mT x) (points m rows) (LVec (lengthscales x)) nmilli.
  Proof.
    intros Hn Hr Hs. split; [|split].
    - split; [reflexivity|]. split; [exact Hr|]. unfold lengthscales. now rewrite map_length, seq_length.
    - intros d Hd. cbn [scale_of]. rewrite lengthscales_nth by auto. unfold two_sigma. rewrite <- nstd_sqrt by auto. pose proof (nstd_pos x d (Hs d Hd)). lra.
    - rewrite Estimator.nmilli_R. lra.
  Qed.
  Lemma lam_R : nmilli + 0.001 = 0.002. Proof. rewrite Estimator.nmilli_R. lra. Qed.

  (** one estimate, at its own samples ... *)
  Lemma samples_R (x : mat R) rows m d v : (1 <= mc x)%nat -> List.length rows = mr x -> (forall d, (d < mr x)%nat -> spread x d) -> (d < mr x)%nat ->
    score_function_multid_seperate E (mT x) (points m rows) nmilli "RBF" (LVec (lengthscales x)) (Z.of_nat d + 1) = Ok v ->
    exists s, matched_score (mc x) m (mr x) (two_sigma x) (particle x) (get (points m rows)) 0.002 0.001 d s /\
      forall n, (n < mc x)%nat -> nth n v 0 = s (particle x n).
  Proof.
    intros Hn Hr Hs Hd H. pose proof (args x rows m Hn Hr Hs) as HA.
    destruct (C43_samples E HI _ _ _ _ _ _ d (se_separate E) HA Hd) as (a & Ha & Q). rewrite Q in H. injection H as <-. rewrite lam_R in Ha.
    exists (expansion m (mr x) (two_sigma x) (get (points m rows)) a). split.
    - exists a. split; [|auto]. eapply minimises_ext; [exact Hd| | |exact Ha]; cbv beta.
      + intros e He. apply lengthscales_nth; auto.
      + intros n e H1 H2. unfold mT. now rewrite get_mk.
    - intros n Hnn. cbn [mT mk mr]. rewrite nth_map_seq by auto. apply expansion_ext.
      + intros e He. apply lengthscales_nth; auto.
      + intros e He. unfold mT, particle. now rewrite get_mk.
  Qed.
  (** ... and as a function, at any points *)
  Lemma function_R (x : mat R) rows m d fn gx v : (1 <= mc x)%nat -> List.length rows = mr x -> (forall d, (d < mr x)%nat -> spread x d) -> (d < mr x)%nat ->
    score_function_multid_seperate_fun E (mT x) (points m rows) nmilli "RBF" (LVec (lengthscales x)) (Z.of_nat d + 1) = Ok fn ->
    mc gx = mr x -> fn gx = Ok v ->
    exists s, matched_score (mc x) m (mr x) (two_sigma x) (particle x) (get (points m rows)) 0.002 0.001 d s /\
      forall i, (i < mr gx)%nat -> nth i v 0 = s (get gx i).
  Proof.
    intros Hn Hr Hs Hd Hf Hg H. pose proof (args x rows m Hn Hr Hs) as HA.
    destruct (C43_functions E HI _ _ _ _ _ _ d (fe_separate E) HA Hd) as (a & fn' & Ha & Q & V). rewrite Hf in Q. injection Q as <-. rewrite lam_R in Ha.
    rewrite (V gx Hg) in H. injection H as <-.
    exists (expansion m (mr x) (two_sigma x) (get (points m rows)) a). split.
    - exists a. split; [|auto]. eapply minimises_ext; [exact Hd| | |exact Ha]; cbv beta.
      + intros e He. apply lengthscales_nth; auto.
      + intros n e H1 H2. unfold mT. now rewrite get_mk.
    - intros n Hnn. rewrite nth_map_seq by auto. apply expansion_ext; [|auto]. intros e He. apply lengthscales_nth; auto.
  Qed.

  Section Run.
    Context (p : params R) (s : S) (o : obj R) (s' : S) (Hc : construct E p s = (Ok o, s')) (HK : o_kern o = "RBF"%string).
    Let k := List.length (o_grid o).

    (** C06: without reweighting, the drift of each deterministic forward step is f - g^2/2 * score, the score being learned by
        score matching from the particles that are moved, with inducing points inside their bounding box *)
    Theorem C06_score_matching : uniform_in_range E -> p_det p = true -> p_reweight p = false ->
      forall i, (2 <= i < k)%nat -> let x := slice (o_Z o) (i-1) in
      (1 <= mc x)%nat -> (forall d, (d < mr x)%nat -> spread x d) ->
      exists F z, call2 (p_f p) x (nth i (o_grid o) 0 - 0.001) = Ok F /\
        (forall a d, (a < p_M p)%nat -> (d < mr x)%nat -> in_range x d (z a d)) /\
        forall d, (d < mr x)%nat -> exists score, matched_score (mc x) (p_M p) (mr x) (two_sigma x) (particle x) z 0.002 0.001 d score /\
          forall n, (n < mc x)%nat ->
            get3 (o_Z o) d n i = get x d n + 0.001 * (elem F d n - 1 / 2 * elem (p_g p) d n ^ 2 * score (particle x n)).
    Proof.
      intros HU Hd Hr i Hi x Hn Hs. destruct (C06_forward_recurrence E p s o s' Hc Hd ltac:(lia)) as (sg & _ & H).
      specialize (H i ltac:(lia)). rewrite Hr in H. unfold plain_step in H. destruct (Nat.eqb_spec i 1); [lia|].
      fold x in H. destruct H as (F & bnds & rows & score & H1 & H2 & H3 & H4 & H5 & H6). rewrite HK in H5.
      change (nsub (nth i (o_grid o) nzero) nmilli) with (nth i (o_grid o) 0 - nmilli) in H1. rewrite Estimator.nmilli_R in H1.
      assert (L : List.length rows = mr x) by (rewrite (drawn_length E _ _ _ _ _ H4); auto).
      exists F, (get (points (p_M p) rows)). split; [auto|]. split. { intros. eapply C13_own_box; eauto. }
      intros d Hdd. destruct (samples_R x rows (p_M p) d (score d) Hn L Hs Hdd (proj1 (H5 d Hdd))) as (sc & A1 & A2).
      exists sc. split; [auto|]. intros n1 Hnn. unfold get3. rewrite H6 by auto. rewrite <- A2 by auto.
      unfold nhalf, nsq. rewrite Estimator.nmilli_R. cbn. lra.
    Qed.

    Lemma between_R m (u v : mat R) bnds rows s1 s2 : uniform_in_range E -> List.length bnds = mr u ->
      (forall d, (d < mr u)%nat -> common_range u v d (nth d bnds (nzero, nzero))) -> drawn E m s1 bnds rows s2 -> between u v (get (points m rows)) m.
    Proof.
      intros HU L Hr Hd a d Ha Hdd (w & W1 & W2). eapply C13_common_box; eauto.
      destruct (Hr d Hdd) as (rz & rb & Rz & Rb & -> & ->). rewrite pymax_R, pymin_R.
      apply (range_R _ _ _ _ Rz) in W1. apply (range_R _ _ _ _ Rb) in W2. cbn in *. apply Rle_trans with w; [apply Rmax_lub|apply Rmin_glb]; lra.
    Qed.

    (** C07: each deterministic backward step uses the forward score and the score of the backward particles, both learned by
        score matching, each with its own inducing points from the common range *)
    Theorem C07_score_matching : uniform_in_range E -> p_det p = true ->
      forall j, (1 <= j)%nat -> (j + 2 < k)%nat ->
      let x := slice (o_Z o) (j+1) in let b := slice (o_B o) (j+1) in
      (1 <= p_N p)%nat -> (forall d, (d < mr b)%nat -> spread x d) -> (forall d, (d < mr b)%nat -> spread b d) ->
      exists F z z', call2 (p_f p) b (nth (j+1) (o_grid o) 0) = Ok F /\ between x b z (p_M p) /\ between x b z' (p_M p) /\
        forall d, (d < mr b)%nat -> exists sx sb,
          matched_score (p_N p) (p_M p) (mr b) (two_sigma x) (particle x) z 0.002 0.001 d sx /\
          matched_score (p_N p) (p_M p) (mr b) (two_sigma b) (particle b) z' 0.002 0.001 d sb /\
          forall n, (n < p_N p)%nat ->
            get3 (o_B o) d n j = get b d n - 0.001 * (elem F d n - elem (p_g p) d n ^ 2 * sx (particle b n) + 1 / 2 * elem (p_g p) d n ^ 2 * sb (particle b n)).
    Proof.
      intros HU Hd j Hj Hjk x b Hn Hsx Hsb. destruct (C07_backward_recurrence E p s o s' Hc) as (sg & _ & H). specialize (H j Hj ltac:(lia)).
      rewrite Hd in H. cbn [negb] in H. rewrite orb_false_r in H. fold k in H. destruct (Nat.eqb_spec j (k - 2)); [lia|].
      fold x b in H. rewrite HK in H. destruct H as (F & sz & sb & s1 & H1 & H2 & H3 & H4).
      destruct (C05_shape E p s o s' Hc) as (SZ & SB & _). apply has_shape_sh in SZ, SB.
      destruct (sh_slice _ _ _ _ (j+1) SZ ltac:(unfold k in *; lia)) as (_ & X1 & X2). destruct (sh_slice _ _ _ _ (j+1) SB ltac:(unfold k in *; lia)) as (_ & B1 & B2).
      fold x in X1, X2. fold b in B1, B2. assert (RX : mr x = mr b) by congruence.
      destruct H1 as (bn1 & rw1 & L1 & C1 & D1 & V1). destruct H2 as (bn2 & rw2 & L2 & C2 & D2 & V2).
      exists F, (get (points (p_M p) rw1)), (get (points (p_M p) rw2)). split; [exact H3|].
      split. { eapply between_R; eauto; rewrite RX; auto. } split. { eapply between_R; eauto; rewrite RX; auto. }
      intros d Hdd. destruct (V1 d Hdd) as (_ & fn & F1 & F2). destruct (V2 d Hdd) as (_ & F3).
      assert (Hsx' : forall d, (d < mr x)%nat -> spread x d) by (rewrite RX; auto).
      destruct (function_R x rw1 (p_M p) d fn (mT b) (sz d) ltac:(lia) ltac:(rewrite (drawn_length E _ _ _ _ _ D1); congruence) Hsx' ltac:(lia) F1 ltac:(cbn; auto) F2) as (sx & A1 & A2).
      destruct (samples_R b rw2 (p_M p) d (sb d) ltac:(lia) ltac:(rewrite (drawn_length E _ _ _ _ _ D2); congruence) Hsb ltac:(lia) F3) as (sb' & A3 & A4).
      rewrite X2, RX in A1. rewrite B2 in A3. exists sx, sb'. split; [auto|]. split; [auto|]. intros n0 Hn0. unfold get3. fold (slice (o_B o) j).
      rewrite H4 by lia. rewrite <- A4 by lia. cbn [mT mk mr] in A2.
      assert (Q : sx (particle b n0) = sx (get (mT b) n0)).
      { destruct A1 as (a & _ & A1). rewrite !A1. apply expansion_ext; [auto|]. intros e He. unfold mT, particle. rewrite get_mk; auto; lia. }
      rewrite Q, <- A2 by lia. unfold nhalf, nsq. rewrite Estimator.nmilli_R. cbn. lra.
    Qed.
  End Run.

  (** C18: over the reals, with a correct matrix inverse, no hypothesis about singular matrices is needed *)
  Theorem C18_construction_succeeds_R p s : well_posed p -> no_overflow E -> p_det p = true -> p_t1 p <= p_t2 p -> exists o s', construct E p s = (Ok o, s').
  Proof.
    intros WP HO Hd Ht. assert (Hk : (1 <= List.length (timegrid (p_t1 p) (p_t2 p)))%nat).
    { rewrite length_grid. destruct (npts_find (p_t1 p) (p_t2 p) ltac:(lra)) as (n & Hn). rewrite (npts_spec _ _ n Hn). lia. }
    assert (HP : plots_ok (T := R) (List.length (p_y1 p))) by (right; reflexivity).
    destruct (construct_tot E p WP HO HP (scores_ok_R E HI _) Hd Hk s) as (o & s' & H & _). eauto.
  Qed.

  (** C22: an interior query with one column per coordinate always answers ... *)
  Theorem C22_interior_answers o dim N k gx ti s : consistent o dim N k -> (1 <= N)%nat -> no_overflow E -> o_kern o = "RBF"%string ->
    p_reweight (o_par o) && p_brown (o_par o) = false -> (6 <= ti <= Z.of_nat k - 6)%Z -> mc gx = dim ->
    exists u s', calculate_u E o gx ti s = (Ok u, s').
  Proof.
    intros Hcs HN HO HK Hb Ht Hg. assert (HF : forward_of o (o_Z o)) by (unfold forward_of; now rewrite Hb).
    assert (Hs : selects k ti (Z.to_nat ti)) by (unfold selects; lia).
    rewrite (calculate_u_eq E o dim N k (o_Z o) gx ti _ s Hcs HF Hs). cbv zeta.
    destruct (consistent_bnds o dim N k (o_Z o) (Z.to_nat ti) Hcs HN HF ltac:(lia)) as (bnds & Hbn). rewrite Hbn.
    replace ((ti <=? 5) || (Z.of_nat k - 5 <=? ti))%Z with false. 2:{ symmetry. apply orb_false_iff. lia. }
    destruct (sample_box_tot E (p_M (o_par o)) bnds HO s) as (Sx & s1 & -> & HSx). apply inter_bnds_ok in Hbn. destruct Hbn as (Lb & _).
    destruct Hcs as (L & K & HZ & HB & _). apply has_shape_sh in HZ, HB.
    destruct (sh_slice _ _ _ _ (Z.to_nat ti) HZ ltac:(lia)) as (_ & Z1 & Z2). destruct (sh_slice _ _ _ _ (Z.to_nat ti) HB ltac:(lia)) as (_ & B1 & B2).
    destruct (rows_fold_tot (u_kern_row E (p_reweight (o_par o) && p_brown (o_par o)) (o_kern o) dim gx (slice (o_B o) (Z.to_nat ti)) (slice (o_Z o) (Z.to_nat ti)) (mT Sx)) dim (mc gx) (mr gx)) as (u & ->); [lia| |eauto].
    intros d Hd. rewrite Hb, HK. unfold u_kern_row, u_score.
    assert (G : forall w, mr w = dim -> exists v, (let! fn := score_function_multid_seperate_fun E (mT w) (mT Sx) nmilli "RBF" (LVec (two_std w)) (Z.of_nat d + 1) in fn gx) = Ok v /\ List.length v = mr gx).
    { intros w Hw. destruct (scores_ok_R E HI dim (mT w) (mT Sx) (two_std w) d) as (_ & fn & Hf & Hx); auto; [cbn; congruence|unfold two_std, std1; now rewrite !map_length, seq_length|].
      destruct (Hx gx Hg) as (v & Hv). exists v. rewrite Hf. cbn [rbind]. split; [auto|]. exact (score_fun_length E _ _ _ _ _ _ _ _ _ Hf Hv). }
    destruct (G _ B1) as (v1 & -> & L1). cbn [rbind]. destruct (G _ Z1) as (v2 & -> & L2). cbn [rbind].
    rewrite bc2_same with (r := 1%nat) (c := mr gx); auto. eexists. split; [reflexivity|]. split; reflexivity.
  Qed.

  (** ... with the difference of two scores learned by score matching from the backward and the forward particles, on common
      inducing points *)
  Theorem C22_score_matching o dim N k gx ti s u s' : consistent o dim N k -> (1 <= N)%nat -> uniform_in_range E -> o_kern o = "RBF"%string ->
    p_reweight (o_par o) && p_brown (o_par o) = false -> (6 <= ti <= Z.of_nat k - 6)%Z -> mc gx = dim ->
    calculate_u E o gx ti s = (Ok u, s') ->
    let x := slice (o_Z o) (Z.to_nat ti) in let b := slice (o_B o) (Z.to_nat ti) in
    (forall d, (d < dim)%nat -> spread x d) -> (forall d, (d < dim)%nat -> spread b d) ->
    exists z, between x b z (p_M (o_par o)) /\ forall d, (d < dim)%nat -> exists sb sx,
      matched_score N (p_M (o_par o)) dim (two_sigma b) (particle b) z 0.002 0.001 d sb /\
      matched_score N (p_M (o_par o)) dim (two_sigma x) (particle x) z 0.002 0.001 d sx /\
      forall i, (i < mr gx)%nat -> get u d i = sb (get gx i) - sx (get gx i).
  Proof.
    intros Hcs HN HU HK Hb Ht Hg H x b Hsx Hsb. assert (HF : forward_of o (o_Z o)) by (unfold forward_of; now rewrite Hb).
    destruct (C22_interior_control E o dim N k Hcs (o_Z o) HF gx ti s u s' Hb Ht H) as (_ & _ & _ & bnds & rows & Lb & Hcr & Hd & Hv).
    fold x b in Hcr, Hv. pose proof Hcs as (L & K & HZ & HB & _). apply has_shape_sh in HZ, HB.
    destruct (sh_slice _ _ _ _ (Z.to_nat ti) HZ ltac:(lia)) as (_ & Z1 & Z2). destruct (sh_slice _ _ _ _ (Z.to_nat ti) HB ltac:(lia)) as (_ & B1 & B2).
    fold x in Z1, Z2. fold b in B1, B2. exists (get (points (p_M (o_par o)) rows)).
    split. { eapply between_R; eauto; rewrite Z1; auto. }
    intros d Hdd. destruct (Hv d Hdd) as (vb & vx & (fb & F1 & F2) & (fx & F3 & F4) & _ & _ & Hu). rewrite HK in F1, F3.
    pose proof (drawn_length E _ _ _ _ _ Hd) as Lr.
    destruct (function_R b rows (p_M (o_par o)) d fb gx vb ltac:(lia) ltac:(lia) ltac:(rewrite B1; auto) ltac:(lia) F1 ltac:(lia) F2) as (sb & A1 & A2).
    destruct (function_R x rows (p_M (o_par o)) d fx gx vx ltac:(lia) ltac:(lia) ltac:(rewrite Z1; auto) ltac:(lia) F3 ltac:(lia) F4) as (sx & A3 & A4).
    rewrite B1, B2 in A1. rewrite Z1, Z2 in A3. exists sb, sx. split; [auto|]. split; [auto|]. intros i Hi. rewrite Hu, <- A2, <- A4 by auto. reflexivity.
  Qed.
End R.
