(** The torch steps in other units and with another origin (no modelling content). *)
From Coq Require Import String List ZArith Reals Lra Lia Bool.
From Verif Require Import Base.Num Base.Py Base.Arr Lib.ArrLemmas Model.Ext Model.Cdist Model.Reweight Model.Score Model.ScoreTorch Model.DPFC Model.TDPFC.
From Verif Require Import Spec.FlowSpec Spec.RealSpec Spec.Contracts Spec.AffineSpec Lib.FlowLemmas Lib.StepLemmas Lib.RSum Lib.RBase Lib.ReweightLemmas Lib.Sim Lib.AffineLemmas Lib.AffineScore Lib.AffineSteps Lib.TAffineScore.
Import ListNotations.
Local Open Scope string_scope.
Local Open Scope R_scope.

Section TSteps.
  Context {S : Type} (E : Ext R S) (al c : R) (v : nat -> R) (Hal : 0 < al).
  Notation ens := (ensemble_image al v).
  Notation pts := (points_image al v).
  Notation brel := (fun i (b b' : R * R) => fst b' = al * fst b + v i /\ snd b' = al * snd b + v i).
  Context (dim N : nat).

  Lemma t_own_bnds_aff x x' : ens x x' -> same_outcome (fun l l' => F2i brel 0 l l' /\ List.length l = mr x) (t_own_bnds x) (t_own_bnds x').
  Proof. intro H. unfold t_own_bnds. now apply so_tor, own_bnds_aff. Qed.
  Lemma hull_bnd_aff z z' b b' i : ens z z' -> ens b b' -> (i < mr z)%nat -> (i < mr b)%nat -> same_outcome (brel i) (hull_bnd z b i) (hull_bnd z' b' i).
  Proof.
    intros Hz Hb Hi Hi'. unfold hull_bnd.
    eapply so_bind; [apply so_tor, (lmin_aff al Hal (v i)), ens_row; [exact Hz|auto]|]. intros a1 a1' ->.
    eapply so_bind; [apply so_tor, (lmin_aff al Hal (v i)), ens_row; [exact Hb|auto]|]. intros a2 a2' ->.
    eapply so_bind; [apply so_tor, (lmax_aff al Hal (v i)), ens_row; [exact Hz|auto]|]. intros a3 a3' ->.
    eapply so_bind; [apply so_tor, (lmax_aff al Hal (v i)), ens_row; [exact Hb|auto]|]. intros a4 a4' ->.
    cbn [same_outcome fst snd]. rewrite !pymax_R, !pymin_R, Rmax_aff, Rmin_aff by auto. auto.
  Qed.
  Lemma hull_bnds_aff d z z' b b' : ens z z' -> ens b b' -> (d <= mr z)%nat -> (d <= mr b)%nat ->
    same_outcome (fun l l' => F2i brel 0 l l' /\ List.length l = d) (hull_bnds d z b) (hull_bnds d z' b').
  Proof. intros Hz Hb Hi Hi'. unfold hull_bnds. apply so_rmapM_i. intros i Hi''. apply hull_bnd_aff; auto; lia. Qed.
  Lemma dens_bnd_aff z z' b b' i : ens z z' -> ens b b' -> (i < mr z)%nat -> (i < mr b)%nat -> same_outcome (brel i) (dens_bnd z b i) (dens_bnd z' b' i).
  Proof.
    intros Hz Hb Hi Hi'. unfold dens_bnd.
    eapply so_bind; [apply so_tor, (lmin_aff al Hal (v i)), ens_row; [exact Hb|auto]|]. intros a1 a1' ->.
    eapply so_bind; [apply so_tor, (lmax_aff al Hal (v i)), ens_row; [exact Hb|auto]|]. intros a2 a2' ->.
    replace (neqb (al * a1 + v i) (al * a2 + v i)) with (neqb a1 a2).
    - destruct (neqb a1 a2); [|now apply hull_bnd_aff].
      eapply so_bind; [apply so_tor, (lmin_aff al Hal (v i)), ens_row; [exact Hz|auto]|]. intros a3 a3' ->.
      eapply so_bind; [apply so_tor, (lmax_aff al Hal (v i)), ens_row; [exact Hz|auto]|]. intros a4 a4' ->. cbn. auto.
    - cbn. destruct (Req_EM_T a1 a2) as [Hq|Hq], (Req_EM_T (al * a1 + v i) (al * a2 + v i)) as [Hr|Hr]; auto; exfalso; [apply Hr; now rewrite Hq|]. apply Hq, (Rmult_eq_reg_l al); lra.
  Qed.
  Context (HU : tuniform_affine E).
  Lemma t_sample_box_aff m bs bs' : F2i brel 0 bs bs' ->
    sim (fun x x' => pts x x' /\ mr x = m /\ mc x = List.length bs) (t_sample_box E m bs) (t_sample_box E m bs').
  Proof.
    intros H s. unfold t_sample_box. pose proof (F2i_length _ _ _ _ H) as HL.
    replace (forallb (fun b => nltb (fst b) (snd b)) bs') with (forallb (fun b => nltb (fst b) (snd b)) bs).
    2:{ clear HL. induction H as [|k b b' l l' (Q1 & Q2) H IH]; [reflexivity|]. cbn [forallb]. rewrite IH. f_equal. rewrite Q1, Q2. cbn.
        destruct (Rlt_dec (fst b) (snd b)), (Rlt_dec (al * fst b + v k) (al * snd b + v k)); auto; nra. }
    destruct (forallb (fun b => nltb (fst b) (snd b)) bs); [|cbn; auto].
    destruct (HU s al v (map fst bs) (map snd bs) (map fst bs') (map snd bs') m Hal) as (Q1 & Q2); try (rewrite !map_length; auto).
    { intros d Hd. rewrite ?map_length in Hd. pose proof (F2i_nth _ 0 bs bs' (0, 0) (0, 0) d H Hd) as (P1 & P2). cbn [Nat.add] in P1, P2.
      assert (F : forall l : list (R * R), nth d (map fst l) 0 = fst (nth d l (0, 0)) /\ nth d (map snd l) 0 = snd (nth d l (0, 0))) by (intro l; split; [exact (map_nth fst l (0, 0) d)|exact (map_nth snd l (0, 0) d)]).
      rewrite (proj1 (F bs)), (proj2 (F bs)), (proj1 (F bs')), (proj2 (F bs')). auto. }
    destruct (x_tuniform E s (map fst bs) (map snd bs) m) as [h s1], (x_tuniform E s (map fst bs') (map snd bs') m) as [h' s1']. cbn [fst snd same_outcome] in *. split; [|exact Q1].
    rewrite HL. split; [|split; reflexivity]. split; [reflexivity|]. split; [reflexivity|]. intros n d Hn Hd. cbn [mk mr mc] in Hn, Hd. rewrite !get_mk by auto. apply Q2; [auto|now rewrite map_length].
  Qed.
  Lemma tstd_aff b l l' : affl al b l l' -> tstd l' = al * tstd l.
  Proof.
    intro H. destruct l as [|x l]. { inversion H; subst. unfold tstd, ssd. cbn. unfold Rdiv. rewrite Rmult_0_l, sqrt_0. ring. }
    pose proof (nmean_aff al b _ _ H ltac:(discriminate)) as Hm. unfold tstd. cbn [nsqrt ndiv ROps].
    replace (ssd l') with (al * al * ssd (x :: l)).
    - rewrite !nofnat_R, <- (Forall2_length _ _ _ H). unfold Rdiv. rewrite Rmult_assoc, sqrt_mult_alt by nra. now rewrite sqrt_square by lra.
    - unfold ssd. rewrite Hm. set (m := nmean (x :: l)). clearbody m. clear Hm. induction H as [|y y' u u' -> H IH]; [cbn; ring|].
      cbn [map]. change (nsum (?a :: ?b)) with (a + nsum b).
      change (al * al * (nsq (nsub y m) + nsum (map (fun x => nsq (nsub x m)) u)) = nsq (nsub (al * y + b) (al * m + b)) + nsum (map (fun x => nsq (nsub x (al * m + b))) u')).
      rewrite <- IH. unfold nsq. cbn. ring.
  Qed.
  Lemma two_tstd_aff x x' : ens x x' -> ltimes al (two_tstd x) (two_tstd x').
  Proof.
    intro H. pose proof H as (H1 & _). unfold two_tstd, tstd1. rewrite !map_map, H1. apply Forall2_seq. intros i Hi. rewrite (tstd_aff (v i) (row x i)) by now apply ens_row. cbn. ring.
  Qed.

  Notation drift_rel := (drift_rel al c v dim N).
  Notation good := (good al v dim N).
  Context (g g' : mat R) (Hg : times al g g').
  Lemma t_f_seperate_aff m fd fd' x x' t : drift_rel fd fd' -> good x x' ->
    sim (times al) (t_f_seperate E m g fd x t) (t_f_seperate E m g' fd' x' (t + c)).
  Proof.
    intros Hf (Hx & Wx & Wx' & Rx & Cx). pose proof Hx as (X1 & X2 & _). unfold t_f_seperate. eapply sim_bind; [apply sim_lift, t_own_bnds_aff, Hx|]. intros bs bs' (Hb & Lb).
    eapply sim_bind; [apply (t_sample_box_aff m bs bs' Hb)|]. intros Sx Sx' (HS & RS & CS).
    eapply sim_bind; [apply sim_lift, (tscore_aff E al v Hal); auto using (ens_mT al v)|].
    { cbn [mT mk mc]. congruence. } { cbn. now apply two_tstd_aff. }
    intros G G' (HG & _). eapply sim_bind; [apply sim_lift, Hf; auto using wf_rect|]. intros F F' HF. apply sim_lift.
    eapply so_bind; [apply (tbc_mul (al * al) (/ al)); [apply times_smul, times_msq, Hg|apply times_mT, HG]|]. intros C C' HC.
    apply tbc_sub; [exact HF|]. eapply times_ext; [|exact HC]. field. lra.
  Qed.
  Lemma t_em_step_aff fd fd' x x' t : drift_rel fd fd' -> good x x' ->
    sim (posr al v dim) (t_em_step E g fd dim N x t) (t_em_step E g' fd' dim N x' (t + c)).
  Proof.
    intros Hf (Hx & Wx & Wx' & Rx & Cx). unfold t_em_step. replace (nsub (t + c) dt) with (nsub t dt + c) by (cbn; ring).
    eapply sim_bind; [apply sim_lift, Hf; auto using wf_rect|]. intros F F' HF.
    eapply sim_bind; [apply sim_lift, so_tor, (posr_add al v dim); [now apply ens_posr|apply times_smul, HF]|]. intros A A' HA.
    eapply sim_bind; [apply noise_sim|]. intros W _ <-. apply sim_lift.
    eapply so_bind; [apply (tbc_mul al 1); [exact Hg|apply times_refl]|]. intros B B' HB. apply so_tor, posr_add; [exact HA|]. eapply times_ext; [|exact HB]. ring.
  Qed.
  Lemma t_det_step_aff m fd fd' x x' t : drift_rel fd fd' -> good x x' ->
    sim (posr al v dim) (t_det_step (t_f_seperate E m g fd) x t) (t_det_step (t_f_seperate E m g' fd') x' (t + c)).
  Proof.
    intros Hf Hx. unfold t_det_step. replace (nsub (t + c) dt) with (nsub t dt + c) by (cbn; ring).
    eapply sim_bind; [apply t_f_seperate_aff; auto|]. intros D D' HD. apply sim_lift, so_tor, posr_add; [|apply times_smul, HD]. destruct Hx as (Hx & _ & _ & Rx & _). now apply ens_posr.
  Qed.
  (** reweighting: the cost is divided by its maximum, so it does not depend on the unit *)
  Lemma ot_dist_aff x x' : pts x x' -> same_outcome (times (al * al)) (ot_dist x x) (ot_dist x' x').
  Proof.
    intros (H1 & H2 & H3). unfold ot_dist, cdist_sq. rewrite H1, H2, Nat.eqb_refl. cbn [same_outcome]. apply times_mk. intros i j Hi Hj.
    unfold sqdist. rewrite H2, !nsum_seq, <- sumn_scal. apply sumn_ext. intros k Hk. rewrite !H3 by auto. unfold nsq. cbn. ring.
  Qed.
  Lemma t_cost_aff x x' : ens x x' -> t_cost x' = t_cost x.
  Proof.
    intro H. apply so_eq_inv. unfold t_cost. eapply so_bind; [apply ot_dist_aff, ens_mT, H|]. intros C C' HC.
    assert (HL : affl (al * al) 0 (flat_map (row C) (seq 0 (mr C))) (flat_map (row C') (seq 0 (mr C')))).
    { destruct HC as (C1 & C2 & C3). rewrite C1. assert (G : forall n, (n <= mr C)%nat -> affl (al * al) 0 (flat_map (row C) (seq 0 n)) (flat_map (row C') (seq 0 n))).
      { induction n; intro Hn; [constructor|]. rewrite seq_S, !flat_map_app. apply Forall2_app; [apply IHn; lia|]. cbn [flat_map Nat.add]. rewrite !app_nil_r. unfold row. rewrite C2.
        apply Forall2_seq. intros j Hj. rewrite C3 by lia. ring. }
      now apply G. }
    eapply so_bind; [apply so_tor, (lmax_aff (al * al) ltac:(nra) 0), HL|]. intros m m' ->. cbn [same_outcome]. symmetry. apply times_eq; try apply wf_mmap1.
    apply (times_mmap1 (al * al)); [|exact HC]. intro t. cbn. rewrite Rplus_0_r. unfold Rdiv. rewrite !Rinv_mult. generalize (/ m). intro. field. lra.
  Qed.
  Lemma fold_max_ge l : forall x, x <= fold_left Rmax l x.
  Proof. induction l as [|y l IH]; intro x; cbn; [lra|]. eapply Rle_trans; [apply Rmax_l|apply IH]. Qed.
  Lemma fold_max_in l : forall x y, In y l -> y <= fold_left Rmax l x.
  Proof. induction l as [|z l IH]; intros x y; cbn; [tauto|]. intros [<-|H]; [|now apply IH]. eapply Rle_trans; [apply Rmax_r|apply fold_max_ge]. Qed.
  Lemma t_cost_ok x C : t_cost x = Ok C -> mr C = mc x /\ mc C = mc x /\ forall i j, (i < mc x)%nat -> (j < mc x)%nat -> 0 <= get C i j.
  Proof.
    unfold t_cost, ot_dist, cdist_sq. cbn [mT mk mr mc]. rewrite Nat.eqb_refl. cbn [rbind]. set (D := mk (mc x) (mc x) (fun i j => sqdist (mT x) (mT x) i j)).
    fold (mT x). change (mk (mc x) (mc x) (fun i j : nat => sqdist (mT x) (mT x) i j)) with D. intro H. apply rbind_ok in H. destruct H as (m & Hm & H). injection H as <-.
    split; [reflexivity|]. split; [reflexivity|]. intros i j Hi Hj.
    assert (Hpos : forall a b, (a < mc x)%nat -> (b < mc x)%nat -> 0 <= get D a b).
    { intros a b Ha Hb. unfold D. rewrite get_mk by auto. unfold sqdist. rewrite nsum_seq. apply sumn_ge0. intros k Hk. unfold nsq. apply Rle_0_sqr. }
    unfold divs. rewrite get_mmap1 by auto. cbn.
    assert (Hm0 : 0 <= m).
    { assert (Hin : In (get D i j) (flat_map (row D) (seq 0 (mr D)))).
      { apply in_flat_map. exists i. split; [apply in_seq; cbn; lia|]. unfold row. apply in_map_iff. exists j. split; [auto|]. apply in_seq. cbn. lia. }
      destruct (flat_map (row D) (seq 0 (mr D))) as [|y l]; [destruct Hin|]. cbn in Hm. injection Hm as <-. eapply Rle_trans; [apply (Hpos i j); auto|].
      destruct Hin as [->|Hin]; [apply fold_max_ge|now apply fold_max_in]. }
    unfold Rdiv. apply Rmult_le_pos; [now apply Hpos|]. destruct Hm0 as [Hm0|<-]; [left; now apply Rinv_0_lt_compat|rewrite Rinv_0; lra].
  Qed.
  Lemma t_reweight_aff e e' x x' : emd_plans (x_otemd E) -> times 1 e e' -> good x x' ->
    same_outcome good (t_reweight_slice E N e x) (t_reweight_slice E N e' x').
  Proof.
    intros HE He (Hx & Wx & Wx' & Rx & Cx). unfold t_reweight_slice. rewrite (weights_of_eq N e e' He), (t_cost_aff x x' Hx). destruct (weights_of N e) as [w|er] eqn:Hw; [|destruct er; reflexivity]. cbn [tor rbind].
    destruct (t_cost x) as [C|er] eqn:HC; [|reflexivity]. cbn [rbind]. destruct (weights_of_dist N e w Hw) as (Lw & Pw & Sw). destruct (t_cost_ok x C HC) as (RC & CC & PC).
    set (u := repeat (ndiv none1 (nofnat N)) N). set (T := mk N N (x_otemd E w u C)). pose proof Hx as (X1 & X2 & X3).
    assert (Hsum : forall j, (j < N)%nat -> sumn N (fun m => get T m j) = / INR N).
    { intros j Hj. assert (HN : (1 <= N)%nat) by lia. assert (Hn0 : INR N <> 0) by (apply not_0_INR; lia).
      assert (Hu : forall i, (i < N)%nat -> hist u i = / INR N). { intros i Hi. unfold u. rewrite hist_repeat by auto. rewrite nofnat_R. cbn. field. auto. }
      destruct (HE N w u C Lw) as (_ & _ & P3); auto; try congruence.
      - unfold u. now rewrite repeat_length.
      - intros i Hi. rewrite Hu by auto. left. apply Rinv_0_lt_compat, lt_0_INR. lia.
      - rewrite Sw by auto. rewrite (sumn_ext N _ (fun _ => / INR N)) by exact Hu. rewrite sumn_const. field. auto.
      - intros i k Hi Hk. apply PC; lia.
      - rewrite (sumn_ext N _ (fun m => x_otemd E w u C m j)); [rewrite P3, Hu by auto; reflexivity|]. intros m Hm. unfold T. now rewrite get_mk. }
    unfold tmmul, mmul. change (mc (smul (nofnat N) x)) with (mc x). change (mr (smul (nofnat N) x)) with (mr x). change (mc (smul (nofnat N) x')) with (mc x'). change (mr (smul (nofnat N) x')) with (mr x').
    rewrite X1, X2, Rx, Cx. change (mr T) with N. rewrite Nat.eqb_refl. cbn [tor same_outcome].
    split; [|split; [apply wf_mk|split; [apply wf_mk|split; reflexivity]]]. split; [reflexivity|]. split; [reflexivity|]. intros d n Hd Hn. cbn [mk mr mc] in Hd, Hn. change (n < N)%nat in Hn. rewrite !get_mk by auto.
    rewrite !nsum_seq. fold (mk N N (x_otemd E w u C)). fold T.
    rewrite (sumn_ext N _ (fun m => al * (INR N * get x d m * get T m n) + (INR N * v d) * get T m n)).
    - rewrite sumn_lin, Hsum by auto. rewrite (sumn_ext N (fun i => nmul (get (smul (nofnat N) x) d i) (get T i n)) (fun m => INR N * get x d m * get T m n)).
      + cbn. field. apply not_0_INR. lia.
      + intros m Hm. unfold smul. rewrite get_mmap1 by lia. rewrite nofnat_R. reflexivity.
    - intros m Hm. unfold smul. rewrite get_mmap1 by lia. rewrite X3 by lia. rewrite nofnat_R. cbn. ring.
  Qed.
End TSteps.
