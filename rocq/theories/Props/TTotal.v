(** C68: how constructing and querying a torched_DPFC can end. *)
From Coq Require Import String List ZArith Reals Lra Lia Bool.
From Verif Require Import Base.Num Base.Py Base.Arr Lib.ArrLemmas Model.Ext Model.Cdist Model.Reweight Model.Score Model.ScoreTorch Model.DPFC Model.TDPFC.
From Verif Require Import Spec.FlowSpec Spec.TorchSpec Spec.QuerySpec Spec.RealSpec Spec.Contracts Spec.KernelSpec Spec.TotalSpec Spec.TTotalSpec Spec.AffineSpec.
From Verif Require Import Lib.FlowLemmas Lib.ScoreLemmas Lib.StepLemmas Lib.RunLemmas Lib.TorchLemmas Lib.QueryLemmas Lib.RSum Lib.RBase Lib.RMat Lib.Gauss Lib.KernelForms Lib.Estimator Lib.EstForms Lib.TotalLemmas Lib.AnyScale Lib.TTotalLemmas.
From Verif Require Import Props.Grid Props.Kernels Props.Estimators Props.TorchEst Props.Torch Props.TorchQueries Props.TorchR Run.RealExt Run.Toy Props.Witnesses Props.Affine Props.TAffine.
Import ListNotations.
Local Open Scope string_scope.
Local Open Scope nat_scope.

(** for every number system *)
Theorem C68_torch_construct {T S : Type} {O : NumOps T} (E : Ext T S) p grid : t_well_posed p -> no_singular E ->
  p_reweight p && p_brown p = false \/ p_det p = false -> t_timegrid (p_t1 p) (p_t2 p) = Ok grid -> 1 <= List.length grid ->
  answer_or_ValueError (t_construct E IsTensor p).
Proof.
  intros WP HS HB HG Hk s. destruct (t_construct_tv E p WP (tscores_total E _ HS (tw_dim _ WP)) grid HG Hk HB s) as [(o & s' & H & _)|H]; eauto.
Qed.
Example W68_toy : t_well_posed toy_rw /\ no_singular ToyExt /\ p_reweight toy_rw && p_brown toy_rw = false /\
  (exists g, t_timegrid (p_t1 toy_rw) (p_t2 toy_rw) = Ok g /\ 1 <= List.length g) /\ exists o s', t_construct ToyExt IsTensor toy_rw 7%Z = (Ok o, s').
Proof.
  split; [|split; [|split; [|split]]].
  - constructor; cbn; auto; try lia; try discriminate.
    + intros x t H1 H2. eexists. split; [reflexivity|]. cbn. auto.
    + intros _ _ x t H1 H2. eexists. split; [reflexivity|]. split; [reflexivity|]. cbn [U2 vec mk mc]. rewrite row_length. exact H2.
  - intros A _. cbn. discriminate.
  - reflexivity.
  - eexists. split; [vm_compute; reflexivity|]. cbn [List.length]. lia.
  - destruct C49_toy as (o & s' & H & _). eauto.
Qed.

Section Short.
  Context {T S : Type} {O : NumOps T} (E : Ext T S) (p : params T) (WP : t_well_posed p).
  Lemma t_otto_short grid : p_det p = true -> 1 <= List.length grid <= 2 ->
    tot (t_forward_sampling_Otto E p grid (zeros3 (List.length (p_y1 p)) (p_N p) (List.length grid))) (fun Z1 => sh Z1 (List.length (p_y1 p)) (p_N p) (List.length grid)).
  Proof.
    intros Hd Hk. unfold t_forward_sampling_Otto. set (dim := List.length (p_y1 p)). apply tot_mfold; [apply sh_zeros|]. intros Zf [i t] HZ Hin.
    assert (Hi : i < List.length grid) by (unfold enumerate in Hin; apply in_combine_l in Hin; apply in_seq in Hin; lia).
    unfold t_otto_body. fold dim. apply (tot_bind _ _ (fun Z1 => sh Z1 dim (p_N p) (List.length grid))).
    - destruct (Nat.eqb_spec i 0) as [->|H0].
      + apply tot_lift. apply (rfold_seq_total _ (fun _ A => sh A dim (p_N p) (List.length grid))); auto.
        intros d A Hdd HA. rewrite (pyget_nat _ d nzero) by auto. cbn [rbind].
        destruct (setrow3_tot p A (List.length grid) d 0%Z (nth d (p_y1 p) nzero)) as (A1 & -> & HA1); auto; try lia. cbn [rbind].
        destruct (p_brown p); [|eauto]. rewrite (pyget_nat _ d nzero) by (rewrite (tw_y _ WP); auto). cbn [rbind].
        apply setrow3_tot; auto; lia.
      + assert (i = 1) by lia. subst i. destruct (getsl_tot p Zf (List.length grid) 0 HZ ltac:(lia)) as (x0 & Hx0 & Ix0). change (Z.of_nat 1 - 1)%Z with (Z.of_nat 0).
        apply (tot_bind _ _ (ism dim (p_N p))); [apply tot_lift; eauto|]. intros x Hx. apply (tot_bind _ _ (ism dim (p_N p))).
        * cbn [Nat.eqb]. apply t_em_tot; auto; apply (tw_f _ WP).
        * intros y Hy. apply tot_lift. now apply (tsetsl_tot p).
    - intros Z1 HZ1. destruct (p_reweight p) eqn:Hr; cbn [andb]; [|now apply tot_ret]. destruct (0 <? i); [|now apply tot_ret]. apply tot_lift.
      apply (t_rw_step E p WP (fun x => ocall2 (p_U p) x t) (fun u => muls u dt) Z1 (List.length grid) i HZ1 Hi).
      + intros x (X1 & X2). destruct (tw_U _ WP Hr Hd x t X1 X2) as (u & Hu & U1 & U2). exists u. split; [exact Hu|split; auto].
      + intros u (U1 & U2). split; auto.
  Qed.
  (** a horizon of at most one time step: always an object *)
  Theorem C68_torch_short grid s : p_reweight p && p_brown p = false \/ p_det p = false -> t_timegrid (p_t1 p) (p_t2 p) = Ok grid -> 1 <= List.length grid <= 2 ->
    exists o s', t_construct E IsTensor p s = (Ok o, s').
  Proof.
    intros HB HG Hk. assert (H : tot (t_construct E IsTensor p) (fun _ => True)).
    2:{ destruct (H s) as (o & s' & Ho & _). eauto. }
    unfold t_construct. rewrite HG. cbn [size_dim0]. set (dim := List.length (p_y1 p)). set (N := p_N p).
    apply (tot_bind _ _ (fun d => d = dim)); [apply tot_lift; eauto|]. intros d ->. apply (tot_bind _ _ (fun g => g = grid)); [apply tot_lift; eauto|]. intros g ->.
    apply (tot_bind _ _ (fun ZZ => sh (fst ZZ) dim N (List.length grid))).
    - destruct (p_det p) eqn:Hd.
      + apply (tot_bind _ _ (fun Z1 => sh Z1 dim N (List.length grid))); [now apply t_otto_short|]. intros Z1 HZ1. destruct HB as [->|]; [|congruence]. now apply tot_ret.
      + apply (tot_bind _ _ (fun Z1 => sh Z1 dim N (List.length grid))); [now apply t_stoch_tot|]. intros Z1 HZ1. now apply tot_ret.
    - intros [Z1 Zt] HZ1. apply (tot_bind _ _ (fun _ => True)); [|intros; now apply tot_ret]. unfold t_backward_simulation. fold dim.
      apply (tot_bind _ _ (fun B => sh B dim N (List.length grid))).
      + apply tot_mfold; [apply sh_zeros|]. intros B [i t] HBB Hin. unfold enumerate in Hin. apply in_combine_l in Hin. apply in_seq in Hin. rewrite init_length in Hin.
        assert (i = 0) by lia. subst i. unfold t_bw_body. cbn [Nat.eqb]. apply tot_lift. apply (pin_tot p); auto; try lia. rewrite (tw_y _ WP). auto.
      + intros B HBB. apply tot_lift. destruct (pin_tot p B (List.length grid) (p_y1 p) 0%Z HBB ltac:(lia) ltac:(auto) ltac:(auto)) as (B' & HB' & _). eauto.
  Qed.
End Short.

Local Open Scope R_scope.
Section R.
  Context {S : Type} (E : Ext R S) (HI : inv_contract E).

  Lemma tscores_ok_R dim : (2 <= dim)%nat -> tscores_ok E dim.
  Proof.
    intros Hd X Zp ls HX HZ Hls. assert (HL : torch_length_ok (TTens1 ls)) by (destruct ls; [cbn in Hls; lia|exact I]).
    assert (Hnl : numpy_length (TTens1 ls) = LVec ls) by (destruct ls as [|? [|]]; cbn in Hls; [lia|lia|reflexivity]).
    assert (HA : kernel_args dim X Zp (numpy_length (TTens1 ls))) by (rewrite Hnl; split; [auto|split; auto]).
    destruct (tprep_R E dim X Zp (TTens1 ls) HL HA ltac:(lia)) as (b & Hb & HP). rewrite Hnl in HP, HA.
    assert (b = true). { unfold tl_multil in Hb. destruct (Nat.ltb_spec 1 (List.length ls)); [congruence|lia]. } subst b.
    destruct (reg_inv_any E HI (mr Zp) dim (lsc (LVec ls)) (get Zp)) as (Ki & K1 & K2).
    destruct (inner_inv_any E HI (mr X) (mr Zp) dim (lsc (LVec ls)) (get X) (get Zp) nmilli Ki) as (Hi & H4); auto. { rewrite nmilli_R. lra. }
    assert (HQ : exists K, prep_all E (K_of_all "RBF") (grdx_of_all "RBF") X Zp (LVec ls) = Ok (K, mk (mr Zp) (mr Zp) Ki, mk (mr Zp) (mr Zp) (Agram (mr X) dim (lsc (LVec ls)) (get X) (get Zp)), S3 dim X Zp (LVec ls)) /\ K = Kmat dim (LVec ls) X Zp).
    { eexists. split; [|reflexivity]. destruct HA as (Hx & Hy & Hl). unfold prep_all, K_of_all, grdx_of_all. cbn [String.eqb Ascii.eqb Bool.eqb].
      rewrite (K_all_R dim X Zp (LVec ls)), (K_all_R dim Zp Zp (LVec ls)) by auto. cbn [rbind]. unfold Kmat at 1. rewrite K1. cbn [rbind]. rewrite A_mk. cbn [rbind].
      destruct (preps E dim X Zp (LVec ls) ltac:(split; [auto|split; auto]) 0 ltac:(lia)) as [(e & _ & Q)|(K_xz & Ki' & A & _ & Q)];
        unfold prep_all, K_of_all, grdx_of_all in Q; cbn [String.eqb Ascii.eqb Bool.eqb] in Q; rewrite (K_all_R dim X Zp (LVec ls)), (K_all_R dim Zp Zp (LVec ls)) in Q by auto; cbn [rbind] in Q;
        unfold Kmat at 1 in Q; rewrite K1 in Q; cbn [rbind] in Q; rewrite A_mk in Q; cbn [rbind] in Q.
      - destruct (grdx_K_all K_all X Zp (LVec ls)) eqn:G; cbn [rbind] in Q; [discriminate|]. exfalso.
        unfold grdx_K_all in G. rewrite Hx, Hy, bok_refl in G. rewrite (rmapM_intro _ (Gmat dim (LVec ls) X Zp)) in G; [discriminate|]. intros d' Hd'. apply in_seq in Hd'. apply grdx_R; auto; [lia|]. now apply K_all_R.
      - destruct (grdx_K_all K_all X Zp (LVec ls)) as [G|]; cbn [rbind] in Q |- *; [|discriminate]. congruence. }
    destruct HQ as (K & HQ & ->). rewrite HQ in HP. cbn [tor rbind] in HP.
    assert (HT : tinner E (mr Zp) (mk (mr Zp) (mr Zp) Ki) (mk (mr Zp) (mr Zp) (Agram (mr X) dim (lsc (LVec ls)) (get X) (get Zp))) = Ok (mk (mr Zp) (mr Zp) Hi)).
    { set (M1 := mk (mr Zp) (mr Zp) Ki) in *. set (M2 := mk (mr Zp) (mr Zp) (Agram _ _ _ _ _)) in *. transitivity (tor (inner_inv E nmilli (mr Zp) M1 M2)); [|rewrite H4; reflexivity].
      unfold tinner, inner_inv, tmmul, tbc2, tinv. rewrite !tor_bind. destruct (tor (mmul M1 M2)); cbn [rbind]; auto.
      rewrite !tor_bind. destruct (tor (bc2 nadd _ a)); cbn [rbind]; auto. rewrite !tor_bind. destruct (tor (bc2 nadd a0 _)); reflexivity. }
    apply (tscores_from E X Zp ls dim _ _ _ _ (mk (mr Zp) (mr Zp) Hi) HX HZ Hls HP); [split; reflexivity|split; reflexivity|split; reflexivity|exact HT|split; reflexivity].
  Qed.

  (** over the reals, with a correct matrix inverse *)
  Theorem C68_torch_construct_R p : t_well_posed p -> p_t1 p <= p_t2 p -> p_reweight p && p_brown p = false \/ p_det p = false ->
    answer_or_ValueError (t_construct E IsTensor p).
  Proof.
    intros WP Ht HB s. assert (Hk : (1 <= List.length (timegrid (p_t1 p) (p_t2 p)))%nat).
    { rewrite length_grid. destruct (npts_find (p_t1 p) (p_t2 p) ltac:(lra)) as (n & Hn). rewrite (npts_spec _ _ n Hn). lia. }
    destruct (t_construct_tv E p WP (tscores_ok_R _ (tw_dim _ WP)) _ (t_timegrid_eq (p_t1 p) (p_t2 p) ltac:(lra)) Hk HB s) as [(o & s' & H & _)|H]; eauto.
  Qed.
  (** ... a single particle over two steps or more: always ValueError *)
  Theorem C68_torch_one_particle p s : t_well_posed p -> p_t1 p + 1/500 <= p_t2 p -> p_reweight p && p_brown p = false -> p_det p = true -> p_N p = 1%nat ->
    exists s', t_construct E IsTensor p s = (Err ValueError, s').
  Proof.
    intros WP Ht HB Hd HN. destruct (C68_torch_construct_R p WP ltac:(lra) (or_introl HB) s) as [(o & s' & H)|H]; [exfalso|exact H].
    destruct (C54_one_particle_raises E IsTensor p s _ (t_timegrid_eq (p_t1 p) (p_t2 p) ltac:(lra))) as (e & He); auto; try lia.
    - rewrite length_grid. destruct (npts_find (p_t1 p) (p_t2 p) ltac:(lra)) as (n & Hn). rewrite (npts_spec _ _ n Hn).
      assert (1 < n)%nat by (apply INR_lt; cbn [INR]; lra). lia.
    - pose proof (tw_dim _ WP) as D. intro Q. rewrite Q in D. cbn in D. lia.
    - rewrite H in He. discriminate.
  Qed.

  Lemma hull_width (z b : mat R) d (r : R * R) : union_range z b d r -> (nltb (fst r) (snd r) = true <-> jointly_spread z b d).
  Proof.
    intros (rz & rb & (Z1 & Z2) & (B1 & B2) & -> & ->). rewrite nltb_R, pymin_R, pymax_R.
    apply rlo_R in Z1, B1. apply rhi_R in Z2, B2. destruct Z1 as ((n1 & N1 & V1) & L1), B1 as ((n2 & N2 & V2) & L2), Z2 as ((n3 & N3 & V3) & L3), B2 as ((n4 & N4 & V4) & L4). split.
    - intro H. exists (Rmin (fst rz) (fst rb)), (Rmax (snd rz) (snd rb)). split; [lra|]. split.
      + unfold Rmin. destruct (Rle_dec (fst rz) (fst rb)); [left|right]; eauto.
      + unfold Rmax. destruct (Rle_dec (snd rz) (snd rb)); [right|left]; eauto.
    - intros (v & w & Hne & Hv & Hw). pose proof (Rmin_l (fst rz) (fst rb)). pose proof (Rmin_r (fst rz) (fst rb)). pose proof (Rmax_l (snd rz) (snd rb)). pose proof (Rmax_r (snd rz) (snd rb)).
      assert (G : forall v, (exists n, (n < mc z)%nat /\ get z d n = v) \/ (exists n, (n < mc b)%nat /\ get b d n = v) -> Rmin (fst rz) (fst rb) <= v <= Rmax (snd rz) (snd rb)).
      { intros u [(n & Hn & <-)|(n & Hn & <-)]; [pose proof (L1 n Hn); pose proof (L3 n Hn)|pose proof (L2 n Hn); pose proof (L4 n Hn)]; lra. }
      pose proof (G v Hv). pose proof (G w Hw). lra.
  Qed.
  (** an interior query, at points with one column per coordinate: the control when the two flows together have some spread in every
      coordinate at that time, ValueError (no random number drawn) otherwise *)
  Theorem C68_torch_query o dim N k A gx ti s : consistent o dim N k -> forward_of o A -> (1 <= N)%nat -> (2 <= dim)%nat -> o_kern o = "RBF"%string ->
    (6 <= ti <= Z.of_nat k - 6)%Z -> mc gx = dim ->
    ((forall d, (d < dim)%nat -> jointly_spread (slice A (Z.to_nat ti)) (slice (o_B o) (Z.to_nat ti)) d) -> exists u s', t_calculate_u E o gx ti s = (Ok u, s')) /\
    ((exists d, (d < dim)%nat /\ ~ jointly_spread (slice A (Z.to_nat ti)) (slice (o_B o) (Z.to_nat ti)) d) -> t_calculate_u E o gx ti s = (Err ValueError, s)).
  Proof.
    intros Hc HF HN H2 HK Ht Hg. assert (Hs : selects k ti (Z.to_nat ti)) by (unfold selects; lia).
    rewrite (t_calculate_u_eq E o dim N k Hc A HF gx ti _ s Hs). cbv zeta.
    destruct (t_consistent_bnds o dim N k Hc A HF (Z.to_nat ti) HN ltac:(lia)) as (bnds & Hb). rewrite Hb.
    replace ((ti <=? 5) || (Z.of_nat k - 5 <=? ti))%Z with false. 2:{ symmetry. apply orb_false_iff. lia. }
    apply hull_bnds_ok in Hb. destruct Hb as (L & Hr). set (z := slice A (Z.to_nat ti)) in *. set (b := slice (o_B o) (Z.to_nat ti)) in *.
    assert (Sz : mr z = dim /\ mr b = dim).
    { assert (HA : sh A dim N k).
      { destruct Hc as (_ & _ & HZ & _ & HT). unfold forward_of in HF. destruct (p_reweight (o_par o) && p_brown (o_par o)); [|rewrite HF; now apply has_shape_sh].
        destruct (HT eq_refl) as (Zt & Q & HZt). rewrite HF in Q. injection Q as <-. now apply has_shape_sh in HZt. }
      destruct Hc as (_ & _ & _ & HB & _). apply has_shape_sh in HB.
      destruct (sh_slice _ _ _ _ (Z.to_nat ti) HA ltac:(lia)) as (_ & RA & _). destruct (sh_slice _ _ _ _ (Z.to_nat ti) HB ltac:(lia)) as (_ & RB & _). auto. }
    destruct Sz as (Rz & Rb). unfold t_sample_box. split.
    - intro Hsp. assert (Q : forallb (fun b : R * R => nltb (fst b) (snd b)) bnds = true).
      { apply forallb_forall. intros r Hin. apply (In_nth _ _ (nzero, nzero)) in Hin. destruct Hin as (d & Hd & <-). apply (hull_width z b d); [apply Hr; lia|apply Hsp; lia]. }
      rewrite Q. destruct (x_tuniform E s (map fst bnds) (map snd bnds) (p_M (o_par o))) as [h s1]. rewrite HK, L. cbn [rbind]. set (Sx := mk (p_M (o_par o)) dim h).
      assert (Lt : forall w : mat R, List.length (tlengthscales w) = mr w) by (intro; unfold tlengthscales; now rewrite map_length, seq_length).
      destruct (tscores_ok_R dim H2 (mT b) Sx (tlengthscales b) Rb eq_refl ltac:(now rewrite Lt)) as (_ & fb & -> & Hfb). cbn [rbind].
      destruct (Hfb gx Hg) as (sb & -> & Ib). cbn [rbind].
      destruct (tscores_ok_R dim H2 (mT z) Sx (tlengthscales z) Rz eq_refl ltac:(now rewrite Lt)) as (_ & fz & -> & Hfz). cbn [rbind].
      destruct (Hfz gx Hg) as (sz & -> & Iz). cbn [rbind]. destruct (tbc2_ism nsub (mT sb) (mT sz) dim (mr gx)) as (u & -> & _); [split; apply Ib|split; apply Iz|]. eauto.
    - intros (d & Hd & Hns). assert (Q : forallb (fun b : R * R => nltb (fst b) (snd b)) bnds = false); [|now rewrite Q].
      destruct (forallb _ bnds) eqn:Q; [|reflexivity]. exfalso. apply Hns. apply (hull_width z b d _ (Hr d Hd)). rewrite forallb_forall in Q. apply Q. apply nth_In. lia.
  Qed.
End R.

(** *** a concrete problem: real_problem of Run/RealExt.v over one time step, and the moved problem of C66 *)
Definition shorten (p : params R) : params R := {|
  p_t1 := p_t1 p; p_t2 := p_t1 p + 1/1000; p_y1 := p_y1 p; p_y2 := p_y2 p; p_f := p_f p; p_g := p_g p; p_N := p_N p; p_M := p_M p;
  p_reweight := p_reweight p; p_U := p_U p; p_dens_est := p_dens_est p; p_reject := p_reject p; p_kern := p_kern p; p_f_true := p_f_true p; p_brown := p_brown p; p_det := p_det p |}.
Lemma shorten_image al c v p p' : problem_image al c v p p' -> problem_image al c v (shorten p) (shorten p').
Proof. intros []. constructor; cbn; auto. lra. Qed.
Lemma real_t_posed rw brown : t_well_posed (real_problem rw brown) /\ t_well_posed (shorten (real_problem rw brown)).
Proof.
  destruct (real_problem_posed rw brown). split; constructor; auto; discriminate.
Qed.
Example W68_R : forall rw brown s, rw && brown = false ->
  t_well_posed (real_problem rw brown) /\ inv_contract RealExt /\
  ((exists o s', t_construct RealExt IsTensor (real_problem rw brown) s = (Ok o, s')) \/ exists s', t_construct RealExt IsTensor (real_problem rw brown) s = (Err ValueError, s')).
Proof.
  intros rw brown s Hb. destruct (real_t_posed rw brown) as (H1 & _). destruct real_parts as (H2 & _). split; [auto|]. split; [auto|].
  apply (C68_torch_construct_R RealExt H2 (real_problem rw brown) H1); [cbn; lra|now left].
Qed.
Lemma W68_short : forall rw brown s, rw && brown = false -> exists o s', t_construct RealExt IsTensor (shorten (real_problem rw brown)) s = (Ok o, s') /\ List.length (o_grid o) = 2%nat.
Proof.
  intros rw brown s Hb. destruct (real_t_posed rw brown) as (_ & H1).
  assert (HG : t_timegrid (p_t1 (shorten (real_problem rw brown))) (p_t2 (shorten (real_problem rw brown))) = Ok (timegrid 0 (0 + 1/1000))) by (apply t_timegrid_eq; cbn; lra).
  assert (L : List.length (timegrid 0 (0 + 1/1000)) = 2%nat) by (rewrite length_grid; apply (npts_spec _ _ 1); cbn; lra).
  destruct (C68_torch_short RealExt _ H1 _ s (or_introl Hb) HG ltac:(lia)) as (o & s' & H). exists o, s'. split; [exact H|].
  destruct (t_construct_ok RealExt _ _ _ _ _ H) as (_ & _ & _ & G & _). rewrite HG in G. injection G as <-. exact L.
Qed.
(** C66 for a torch run that completes *)
Example W66_torch : forall al c v rw s, 0 < al -> exists o o', fst (t_construct RealExt IsTensor (shorten (real_problem rw false)) s) = Ok o /\
  fst (t_construct RealExt IsTensor (shorten (moved_problem al c v rw false)) s) = Ok o' /\ List.length (o_grid o') = 2%nat /\ object_image al c v o o'.
Proof.
  intros al c v rw s Hal. assert (Hb : rw && false = false) by (destruct rw; reflexivity).
  destruct (W66_torch_hypotheses al c v rw false Hal Hb) as (H1 & H2 & H3 & _ & H5).
  destruct (C66_torch_run RealExt al c v Hal H1 _ _ (shorten_image _ _ _ _ _ H2) H3 (or_introl eq_refl) (or_introl H5) IsTensor s) as (Q & _).
  destruct (W68_short rw false s Hb) as (o & s' & Ho & L). rewrite Ho in Q |- *. destruct (fst (t_construct RealExt IsTensor (shorten (moved_problem al c v rw false)) s)) as [o'|e] eqn:Ho'; [|destruct Q].
  exists o, o'. split; [reflexivity|]. split; [reflexivity|]. split; [|exact Q]. destruct Q as ((G & _) & _). now rewrite G.
Qed.
(** the query theorem on a hand-made object: two flows of three particles over 12 time points, the second coordinate of both frozen at time 6 *)
Definition flow12 (frozen : nat) : arr3 R := Arr3 2 3 12 (map (fun i => mk 2 3 (fun d n => if andb (d =? 1)%nat (i =? frozen)%nat then 5 else INR n)) (seq 0 12)).
Definition obj12 (frozen : nat) : obj R := {| o_par := real_problem false false; o_kern := "RBF"; o_grid := map INR (seq 0 12);
  o_Z := flow12 frozen; o_B := flow12 frozen; o_Ztr := None |}.
Example W68_query s : let gx := mk 1 2 (fun _ d => INR d) in
  (exists u s', t_calculate_u RealExt (obj12 0) gx 6 s = (Ok u, s')) /\ t_calculate_u RealExt (obj12 6) gx 6 s = (Err ValueError, s).
Proof.
  intro gx. destruct real_parts as (HI & _).
  assert (HC : forall fz, consistent (obj12 fz) 2 3 12).
  { intro fz. assert (HS : has_shape (flow12 fz) 2 3 12).
    { unfold has_shape, flow12. repeat (split; [reflexivity|]). cbn [a_s]. apply Forall_forall. intros m HM. apply in_map_iff in HM. destruct HM as (i & <- & _). repeat (split; [reflexivity|]). cbn. repeat constructor. }
    repeat split; try apply HS; cbn; discriminate. }
  assert (HF : forall fz, forward_of (obj12 fz) (flow12 fz)) by (intro; reflexivity).
  destruct (C68_torch_query RealExt HI (obj12 0) 2 3 12 (flow12 0) gx 6 s (HC 0%nat) (HF 0%nat)) as (Q1 & _); [lia|lia|reflexivity|lia|reflexivity|].
  destruct (C68_torch_query RealExt HI (obj12 6) 2 3 12 (flow12 6) gx 6 s (HC 6%nat) (HF 6%nat)) as (_ & Q2); [lia|lia|reflexivity|lia|reflexivity|]. split.
  - apply Q1. intros d Hd. exists 0, 1. split; [lra|]. destruct d as [|[|]]; [| |lia]; (split; left; [exists 0%nat|exists 1%nat]; (split; [apply Nat.ltb_lt; reflexivity|reflexivity])).
  - apply Q2. exists 1%nat. split; [lia|]. intros (v & w & Hne & Hv & Hw). apply Hne. transitivity 5.
    + destruct Hv as [(n & Hn & <-)|(n & Hn & <-)]; change (n < 3)%nat in Hn; (destruct n as [|[|[|]]]; [reflexivity..|lia]).
    + symmetry. destruct Hw as [(n & Hn & <-)|(n & Hn & <-)]; change (n < 3)%nat in Hn; (destruct n as [|[|[|]]]; [reflexivity..|lia]).
Qed.
