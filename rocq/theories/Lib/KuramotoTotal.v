(** When the Kuramoto class succeeds (no modelling content). *)
From Coq Require Import String List ZArith Reals Lia Lra Bool.
From Verif Require Import Base.Num Base.Py Base.Arr Lib.ArrLemmas Model.Ext Model.Cdist Model.Score Model.DPFC Model.Kuramoto.
From Verif Require Import Spec.FlowSpec Spec.TotalSpec Spec.KuramotoSpec Spec.RealSpec Spec.Contracts Spec.KernelSpec.
From Verif Require Import Lib.FlowLemmas Lib.ScoreLemmas Lib.StepLemmas Lib.RunLemmas Lib.CoreLemmas Lib.TotalLemmas Lib.KuramotoLemmas.
From Verif Require Import Lib.RSum Lib.RMat Lib.Gauss Lib.KernelForms Lib.Estimator Lib.EstForms Lib.AnyScale.
Import ListNotations.

Local Open Scope nat_scope.
Section Tot.
  Context {T S : Type} {O : NumOps T} (E : Ext T S) (wrap : T -> T) (mvn : S -> list T -> mat T -> nat -> (nat -> nat -> T) * S).
  Notation mat := (mat T). Notation arr3 := (arr3 T).

  Definition scores_all_ok (dim : nat) : Prop := forall X Zp ls, mc X = dim -> mc Zp = dim -> List.length ls = dim ->
    (exists G, score_function_multid_seperate_all_dims E X Zp nmilli "RBF" (LVec ls) = Ok G) /\
    exists fn, score_function_multid_seperate_all_dims_fun E X Zp nmilli "RBF" (LVec ls) = Ok fn /\ forall x, mc x = dim -> exists G, fn x = Ok G.

  Context (p : kpar T) (WP : k_well_posed p) (HO : no_overflow E) (HS : scores_all_ok (List.length (k_y1 p))).
  Let dim := List.length (k_y1 p).
  Let N := k_N p.
  Let KN : 1 <= N := kw_N _ WP.

  Lemma two_std_length (x : mat) : List.length (two_std x) = mr x.
  Proof. unfold two_std, std1. now rewrite !map_length, seq_length. Qed.

  Lemma box_tot bs : List.length bs = dim -> tot (sample_box E (k_M p) bs) (fun X => mr X = dim).
  Proof. intros L s. destruct (sample_box_tot E (k_M p) bs HO s) as (X & s' & H1 & H2). rewrite L in H2. eauto. Qed.

  Lemma k_drift_tot x t : ism dim N x -> tot (k_drift E p x t) (ism dim N).
  Proof.
    intros (X1 & X2). unfold k_drift. destruct (own_bnds_tot x) as (b & Hb & Lb); [lia|].
    apply (tot_bind _ _ (fun b => List.length b = dim)); [apply tot_lift; exists b; split; auto; congruence|]. intros bs Lbs.
    apply (tot_bind _ _ (fun X => mr X = dim)); [now apply box_tot|]. intros Sxx HSx. rewrite (kw_kern _ WP).
    destruct (HS (mT x) (mT Sxx) (two_std x)) as ((G & HG) & _); try (cbn; auto; fail). { now rewrite two_std_length. }
    destruct (score_all_shape _ _ _ _ _ _ _ HG) as (R1 & C1). cbn in R1, C1.
    apply (tot_bind _ _ (ism N dim)); [apply tot_lift; exists G; split; auto; split; congruence|]. intros G' (R2 & C2).
    destruct (kw_f _ WP x t X1 X2) as (F & HF & F1 & F2).
    apply (tot_bind _ _ (ism dim N)); [apply tot_lift; exists F; split; [exact HF|split; auto]|]. intros fx Hfx.
    apply tot_lift, bc2_ism; auto. split; cbn; auto.
  Qed.

  Lemma k_cost_tot x : ism dim N x -> exists c, k_cost x = Ok c /\ ism N N c.
  Proof.
    intros (X1 & X2). unfold k_cost, cdist_sq. rewrite Nat.eqb_refl. cbn [rbind mT mk mr mc].
    match goal with |- context [lmax ?l] => destruct (lmax_tot l) as (v & Hv) end.
    - destruct (seq 0 (mc x)) as [|a l] eqn:Es. { apply (f_equal (@List.length nat)) in Es. rewrite seq_length in Es. cbn in Es. lia. }
      cbn [flat_map]. intro Q. apply app_eq_nil in Q. destruct Q as (Q & _). apply (f_equal (@List.length T)) in Q. rewrite row_length in Q. cbn in Q. lia.
    - rewrite Hv. cbn [rbind]. eexists. split; [reflexivity|]. split; cbn; auto.
  Qed.

  Lemma k_rw_tot x : k_reweight p = true -> ism dim N x -> exists y, k_reweight_slice E wrap p x = Ok y /\ ism dim N y.
  Proof.
    intros Hr (X1 & X2). unfold k_reweight_slice. destruct (kw_U _ WP Hr x X1 X2) as (u & -> & U1 & U2). cbn [rbind]. unfold weights_of.
    destruct (assign_ism 1 (k_N p) (mexp u)) as (w & -> & (Ww & W1 & W2)); [split; auto|]. cbn [rbind].
    destruct (k_cost_tot x) as (c & -> & Hc); [split; auto|]. cbn [rbind].
    match goal with |- context [mmul ?A ?B] => destruct (mmul_tot A B) as (y & -> & Y1 & Y2) end; [cbn; auto|]. cbn [rbind].
    eexists. split; [reflexivity|]. split; cbn in *; unfold N in *; congruence.
  Qed.

  Lemma set_tot (A : arr3) k i y : sh A dim N k -> i < k -> ism dim N y -> exists A', setsl A (Z.of_nat i) y = Ok A' /\ sh A' dim N k.
  Proof.
    intros HA Hi Hy. destruct (assign_ism dim N y Hy) as (m & Hm & Sm). rewrite (setsl_eq _ _ _ _ _ _ HA) by lia. rewrite Hm. cbn [rbind].
    eexists. split; [reflexivity|]. destruct Sm as (W & R & C). apply sh_set; auto.
  Qed.
  Lemma get_tot (A : arr3) k i : sh A dim N k -> i < k -> exists x, getsl A (Z.of_nat i) = Ok x /\ ism dim N x.
  Proof.
    intros HA Hi. destruct (sh_slice _ _ _ _ i HA Hi) as (_ & R & C). rewrite getsl_nat by (destruct HA as (_ & _ & _ & ->); lia).
    eexists. split; [reflexivity|]. split; auto.
  Qed.

  Lemma k_forward_tot grid k : List.length grid <= k -> tot (k_forward E wrap mvn p grid (zeros3 dim N k)) (fun Z1 => sh Z1 dim N k).
  Proof.
    intro Hk. unfold k_forward. apply tot_mfold; [apply sh_zeros|].
    intros Zf [i t] HZ Hin. assert (Hi : i < k). { unfold enumerate in Hin. apply in_combine_l in Hin. apply in_seq in Hin. lia. }
    unfold k_forward_body. fold dim N. apply (tot_bind _ _ (fun Z1 => sh Z1 dim N k)).
    - destruct (Nat.eqb_spec i 0) as [->|H0].
      + intro s. destruct (mvn _ _ _ _) as (h & s').
        destruct (set_tot Zf k 0 (mk dim N (fun d n => h n d)) HZ Hi) as (A' & HA & HA'); [split; reflexivity|]. change (Z.of_nat 0) with 0%Z in HA. rewrite HA. eauto.
      + destruct (get_tot Zf k (i-1) HZ ltac:(lia)) as (x & Hx & Ix). replace (Z.of_nat i - 1)%Z with (Z.of_nat (i-1)) by lia.
        apply (tot_bind _ _ (ism dim N)); [apply tot_lift; eauto|]. clear x Hx Ix. intros x Ix.
        apply (tot_bind _ _ (ism dim N)).
        * destruct (i =? 1).
          -- destruct (kw_f _ WP x (nsub t (k_dt p)) (proj1 Ix) (proj2 Ix)) as (F & HF & F1 & F2).
             apply (tot_bind _ _ (ism dim N)); [apply tot_lift; exists F; split; [exact HF|split; auto]|]. intros fx Hfx.
             apply (tot_bind _ _ (ism dim N)); [apply tot_lift, bc2_ism; auto; split; apply Hfx|]. intros a Ha.
             apply (tot_bind _ _ (ism dim N)); [apply normal_tot|]. intros no Hno. apply tot_lift, bc2_ism; auto; split; apply Hno.
          -- apply (tot_bind _ _ (ism dim N)); [now apply k_drift_tot|]. intros d Hd. apply tot_lift, bc2_ism; auto; split; apply Hd.
        * intros y Hy. apply tot_lift. apply set_tot; auto.
    - intros Z1 HZ1. destruct (k_reweight p) eqn:Hr; cbn [andb]; [|now apply tot_ret]. destruct (0 <? i); [|now apply tot_ret].
      apply tot_lift. destruct (get_tot Z1 k i HZ1 Hi) as (x & -> & Ix). cbn [rbind]. destruct (k_rw_tot x Hr Ix) as (y & -> & Iy). cbn [rbind]. now apply set_tot.
  Qed.

  Lemma k_density_tot (Zf B : arr3) k j : sh Zf dim N k -> sh B dim N k -> j + 1 < k -> tot (k_density E p Zf B (Z.of_nat (j+1))) (ism dim N).
  Proof.
    intros HZ HB Hj. unfold k_density. fold dim. replace (Z.of_nat (j+1) - 1)%Z with (Z.of_nat j) by lia.
    destruct (get_tot Zf k j HZ ltac:(lia)) as (z & -> & (Z1 & Z2)). destruct (get_tot B k (j+1) HB ltac:(lia)) as (b & -> & (B1 & B2)).
    apply (tot_bind _ _ (fun v => v = z)); [apply tot_lift; eauto|]. intros ? ->.
    apply (tot_bind _ _ (fun v => v = b)); [apply tot_lift; eauto|]. intros ? ->.
    destruct (inter_bnds_tot dim z b) as (bs & Hbs & Lbs); try lia.
    apply (tot_bind _ _ (fun b => List.length b = dim)); [apply tot_lift; eauto|]. clear bs Hbs Lbs. intros bs Lbs.
    apply (tot_bind _ _ (fun X => mr X = dim)); [now apply box_tot|]. intros Sxx HSx. rewrite (kw_kern _ WP). apply tot_lift.
    destruct (HS (mT z) (mT Sxx) (two_std z)) as (_ & fn & Hfn & Hx); try (cbn; auto; fail). { now rewrite two_std_length. }
    rewrite Hfn. cbn [rbind]. destruct (Hx (mT b)) as (G & HG); [cbn; auto|]. rewrite HG. cbn [rbind].
    destruct (score_all_fun_shape _ _ _ _ _ _ _ _ _ Hfn HG) as (R1 & C1). cbn in R1, C1. eexists. split; [reflexivity|]. split; cbn; congruence.
  Qed.
  Lemma k_bw_density_tot (Zf B : arr3) k j : sh Zf dim N k -> sh B dim N k -> j + 1 < k -> tot (k_bw_density E p Zf B (Z.of_nat (j+1))) (ism dim N).
  Proof.
    intros HZ HB Hj. unfold k_bw_density. fold dim. replace (Z.of_nat (j+1) - 1)%Z with (Z.of_nat j) by lia.
    destruct (get_tot Zf k j HZ ltac:(lia)) as (z & -> & (Z1 & Z2)). destruct (get_tot B k (j+1) HB ltac:(lia)) as (b & -> & (B1 & B2)).
    apply (tot_bind _ _ (fun v => v = b)); [apply tot_lift; eauto|]. intros ? ->.
    apply (tot_bind _ _ (fun v => v = z)); [apply tot_lift; eauto|]. intros ? ->.
    destruct (inter_bnds_tot dim z b) as (bs & Hbs & Lbs); try lia.
    apply (tot_bind _ _ (fun b => List.length b = dim)); [apply tot_lift; eauto|]. clear bs Hbs Lbs. intros bs Lbs.
    apply (tot_bind _ _ (fun X => mr X = dim)); [now apply box_tot|]. intros Sxx HSx. rewrite (kw_kern _ WP). apply tot_lift.
    destruct (HS (mT b) (mT Sxx) (two_std b)) as ((G & HG) & _); try (cbn; auto; fail). { now rewrite two_std_length. }
    rewrite HG. cbn [rbind]. destruct (score_all_shape _ _ _ _ _ _ _ HG) as (R1 & C1). cbn in R1, C1. eexists. split; [reflexivity|]. split; cbn; congruence.
  Qed.

  Lemma pin_end_tot (Zf B : arr3) k : sh Zf dim N k -> sh B dim N k -> 1 <= k -> exists B', k_pin_end dim Zf B = Ok B' /\ sh B' dim N k.
  Proof.
    intros HZ HB Hk. unfold k_pin_end. destruct (sh_slice _ _ _ _ (k-1) HZ ltac:(lia)) as (_ & RZ & CZ).
    assert (G1 : forall A, sh A dim N k -> getsl A (-1) = getsl A (Z.of_nat (k-1))).
    { intros A HA. unfold getsl. replace (a_k A) with k by (symmetry; apply HA). rewrite pyidx_m1 by lia. now rewrite pyidx_nat by lia. }
    assert (G2 : forall A v, sh A dim N k -> setsl A (-1) v = setsl A (Z.of_nat (k-1)) v).
    { intros A v HA. unfold setsl. replace (a_k A) with k by (symmetry; apply HA). rewrite pyidx_m1 by lia. now rewrite pyidx_nat by lia. }
    rewrite G1 by auto. destruct (get_tot Zf k (k-1) HZ ltac:(lia)) as (z & -> & (Z1 & Z2)). cbn [rbind].
    apply (rfold_seq_total _ (fun _ A => sh A dim N k)); auto. intros i A Hi HA. rewrite G1 by auto.
    destruct (get_tot A k (k-1) HA ltac:(lia)) as (b & -> & (B1 & B2)). cbn [rbind].
    rewrite setrow_nat by (try lia; try reflexivity; cbn; rewrite ?row_length; lia). cbn [rbind]. rewrite G2 by auto. apply set_tot; auto; [lia|].
    split; cbn; auto.
  Qed.

  Lemma k_backward_tot grid (Zf : arr3) k : List.length grid <= k -> 1 <= k -> sh Zf dim N k ->
    tot (k_backward E wrap p grid Zf (zeros3 dim N k)) (fun B => sh B dim N k).
  Proof.
    intros Hn Hk HZ. unfold k_backward. fold dim. apply (tot_bind _ _ (fun B => sh B dim N k)).
    2:{ intros B HB. apply tot_lift. 
        unfold pin. apply (rfold_seq_total _ (fun _ A => sh A dim N k)); auto.
        intros i A Hi HA. rewrite (pyget_nat _ i nzero) by auto. cbn [rbind]. pose proof HA as (W & D & Nn & K).
        destruct (setrow3 A (Z.of_nat i) 0 (nth i (k_y1 p) nzero)) as [B'|e] eqn:Q.
        - exists B'. split; auto. apply setrow3_ok in Q; auto. destruct Q as (j' & _ & _ & _ & W' & ->). split; auto.
        - unfold setrow3 in Q. rewrite D, K, pyidx_0, pyidx_nat in Q by auto. discriminate. }
    apply tot_mfold; [apply sh_zeros|]. intros B [i t] HB Hin.
    assert (Hi : i < List.length grid - 1). { unfold enumerate in Hin. apply in_combine_l in Hin. apply in_seq in Hin. rewrite init_length in Hin. lia. }
    unfold k_back_body. fold dim N. destruct (Nat.eqb_spec i 0) as [->|H0]. { apply tot_lift. now apply pin_end_tot. }
    cbv zeta. set (j := List.length grid - i - 1). replace (Z.of_nat (List.length grid) - Z.of_nat i)%Z with (Z.of_nat (j+1)) by (unfold j; lia).
    replace (Z.of_nat (j+1) - 1)%Z with (Z.of_nat j) by lia. assert (Hj : j + 1 < k) by (unfold j; lia). assert (Hjg : j + 1 < List.length grid) by (unfold j; lia).
    apply (tot_bind _ _ (ism dim N)); [eapply k_density_tot; eauto|]. intros gro Hgro.
    destruct (get_tot B k (j+1) HB Hj) as (x & Hx & Ix).
    apply (tot_bind _ _ (ism dim N)).
    - destruct (i =? 1).
      + rewrite Hx. apply (tot_bind _ _ (fun v => v = x)); [apply tot_lift; eauto|]. intros ? ->.
        apply (tot_bind _ _ (fun _ => True)); [apply tot_lift; rewrite (pyget_nat _ _ nzero) by auto; eauto|]. intros tt _.
        destruct (kw_f _ WP x tt (proj1 Ix) (proj2 Ix)) as (F & HF & F1 & F2).
        apply (tot_bind _ _ (ism dim N)); [apply tot_lift; exists F; split; [exact HF|split; auto]|]. intros fx Hfx.
        apply (tot_bind _ _ (ism dim N)); [apply tot_lift, bc2_ism; auto; split; apply Hfx|]. intros a Ha.
        apply (tot_bind _ _ (ism dim N)); [apply tot_lift, bc2_ism; auto; split; apply Hgro|]. intros b Hb.
        apply (tot_bind _ _ (ism dim N)); [apply normal_tot|]. intros no Hno. apply tot_lift, bc2_ism; auto; split; apply Hno.
      + apply (tot_bind _ _ (ism dim N)); [eapply k_bw_density_tot; eauto|]. intros gb Hgb. apply tot_lift. rewrite Hx. cbn [rbind].
        rewrite (pyget_nat _ _ nzero) by auto. cbn [rbind]. destruct (kw_f _ WP x (nth (j+1) grid nzero) (proj1 Ix) (proj2 Ix)) as (F & -> & F1 & F2). cbn [rbind].
        destruct (bc2_ism nsub F (smul (nsq (k_g p)) gro) dim N) as (d1 & -> & H1); [split; auto|split; apply Hgro|]. cbn [rbind].
        destruct (bc2_ism nadd d1 (smul (nmul nhalf (nsq (k_g p))) gb) dim N) as (d2 & -> & H2); [auto|split; apply Hgb|]. cbn [rbind].
        apply bc2_ism; auto.
    - intros y Hy. apply tot_lift. apply set_tot; auto; lia.
  Qed.

  Lemma k_construct_tot s : List.length (np_arange (k_t1 p) (nadd (k_t2 p) (ndiv (k_dt p) ntwo)) (k_dt p)) <= k_k p -> 1 <= k_k p ->
    exists o s', k_construct E wrap mvn p s = (Ok o, s') /\ ko_par o = p /\ sh (ko_Z o) dim N (k_k p) /\ sh (ko_B o) dim N (k_k p) /\
      ko_grid o = np_arange (k_t1 p) (nadd (k_t2 p) (ndiv (k_dt p) ntwo)) (k_dt p).
  Proof.
    intros Hn Hk. unfold k_construct. fold dim N. set (grid := np_arange _ _ _) in *.
    destruct (k_forward_tot grid (k_k p) Hn s) as (Zf & s1 & H1 & H2). destruct (k_backward_tot grid Zf (k_k p) Hn Hk H2 s1) as (B & s2 & H3 & H4).
    eexists _, s2. split; [unfold bind; rewrite H1, H3; reflexivity|]. cbn. auto.
  Qed.

  Lemma k_calculate_u_tot (o : kobj T) gx ti k : ko_par o = p -> sh (ko_Z o) dim N k -> sh (ko_B o) dim N k -> ti < k -> mr gx = dim ->
    tot (k_calculate_u E o gx (Z.of_nat ti)) (fun u => ism dim (mc gx) u).
  Proof.
    intros Hp HZ HB Ht Hg. unfold k_calculate_u. rewrite Hp. fold dim.
    destruct (get_tot (ko_Z o) k ti HZ Ht) as (z & -> & (Z1 & Z2)). destruct (get_tot (ko_B o) k ti HB Ht) as (b & -> & (B1 & B2)).
    apply (tot_bind _ _ (fun v => v = b)); [apply tot_lift; eauto|]. intros ? ->.
    apply (tot_bind _ _ (fun v => v = z)); [apply tot_lift; eauto|]. intros ? ->.
    destruct (inter_bnds_tot dim z b) as (bs & Hbs & Lbs); try lia.
    apply (tot_bind _ _ (fun b => List.length b = dim)); [apply tot_lift; eauto|]. clear bs Hbs Lbs. intros bs Lbs.
    apply (tot_bind _ _ (fun X => mr X = dim)); [now apply box_tot|]. intros Sxx HSx. rewrite (kw_kern _ WP). apply tot_lift.
    destruct (HS (mT b) (mT Sxx) (two_std b)) as (_ & fb & Hfb & Hxb); try (cbn; auto; fail). { now rewrite two_std_length. }
    destruct (HS (mT z) (mT Sxx) (two_std b)) as (_ & fz & Hfz & Hxz); try (cbn; auto; fail). { now rewrite two_std_length. }
    destruct (Hxb (mT gx)) as (Gb & HGb); [cbn; auto|]. destruct (Hxz (mT gx)) as (Gz & HGz); [cbn; auto|].
    rewrite Hfb. cbn [rbind]. rewrite HGb. cbn [rbind]. rewrite Hfz. cbn [rbind]. rewrite HGz. cbn [rbind].
    destruct (score_all_fun_shape _ _ _ _ _ _ _ _ _ Hfb HGb) as (R1 & C1). destruct (score_all_fun_shape _ _ _ _ _ _ _ _ _ Hfz HGz) as (R2 & C2). cbn in R1, C1, R2, C2.
    destruct (bc2_ism nsub Gb Gz (mc gx) dim) as (D & -> & H1 & H2); [split; congruence|split; congruence|]. cbn [rbind].
    eexists. split; [reflexivity|]. split; cbn; auto.
  Qed.
End Tot.

Local Open Scope R_scope.
Section AnyAll.
  Context {S : Type} (E : Ext R S) (HI : inv_contract E).
  Lemma scores_all_ok_R dim : (1 <= dim)%nat -> scores_all_ok E dim.
  Proof.
    intros Hd X Zp ls HX HZ Hls.
    assert (Hlk : lok dim (LVec ls)) by exact Hls.
    destruct (reg_inv_any E HI (mr Zp) dim (lsc (LVec ls)) (get Zp)) as (Ki & K1 & K2).
    destruct (inner_inv_any E HI (mr X) (mr Zp) dim (lsc (LVec ls)) (get X) (get Zp) nmilli Ki) as (Hi & H4); auto. { rewrite Estimator.nmilli_R. lra. }
    assert (HP : prep_all E (K_of_all "RBF") (grdx_of_all "RBF") X Zp (LVec ls) =
       Ok (Kmat dim (LVec ls) X Zp, mk (mr Zp) (mr Zp) Ki, mk (mr Zp) (mr Zp) (Agram (mr X) dim (lsc (LVec ls)) (get X) (get Zp)), S3 dim X Zp (LVec ls))).
    { unfold prep_all, K_of_all, grdx_of_all. cbn [String.eqb Ascii.eqb Bool.eqb].
      rewrite (K_all_R dim X Zp (LVec ls)) by auto. cbn [rbind]. rewrite (K_all_R dim Zp Zp (LVec ls)) by auto. cbn [rbind].
      unfold Kmat at 1. rewrite K1. cbn [rbind]. rewrite (A_mk dim X Zp (LVec ls)). cbn [rbind]. unfold grdx_K_all. rewrite HX, HZ, bok_refl.
      rewrite (rmapM_intro _ (Gmat dim (LVec ls) X Zp)). 2:{ intros d Hd'. apply in_seq in Hd'. apply grdx_R; auto; [lia|]. now apply K_all_R. }
      cbn [rbind a_d a_n a_k a_s]. f_equal. f_equal. unfold sum0_3, S3. cbn [a_n a_k]. apply mk_ext. intros m d Hm Hd'.
      unfold slice. cbn [a_s]. rewrite map_map, nth_map_seq by auto. change (nsum (col (mopp (Gmat dim (LVec ls) X Zp d)) m) = Sgrad (mr X) dim (lsc (LVec ls)) (get X) (get Zp) d m).
      pose proof (sum0_G dim X Zp (LVec ls) d Hd') as Q. apply (f_equal (fun A => get A m 0)) in Q. rewrite get_mk in Q by lia. rewrite <- Q. unfold sum0. rewrite get_mk; [reflexivity| |lia]. exact Hm. }
    split.
    - unfold score_function_multid_seperate_all_dims. rewrite HP. cbn [rbind]. unfold Kmat, S3.
      edestruct (eval_mk E (mr X) (mr Zp) dim (fun i j => gaussk dim (lsc (LVec ls)) (get X i) (get Zp j)) Hi Ki (fun m d => Sgrad (mr X) dim (lsc (LVec ls)) (get X) (get Zp) d m) nmilli _ H4) as (-> & _). eauto.
    - unfold score_function_multid_seperate_all_dims_fun. rewrite HP. cbn [rbind]. eexists. split; [reflexivity|]. intros x Hx. cbv beta. unfold S3.
      edestruct (eval_mk E (mr x) (mr Zp) dim (fun i j => gaussk dim (lsc (LVec ls)) (get x i) (get Zp j)) Hi Ki (fun m d => Sgrad (mr X) dim (lsc (LVec ls)) (get X) (get Zp) d m) nmilli _ H4) as (_ & Q).
      rewrite (Q (Ksz_of "RBF" Zp (LVec ls)) x). { eauto. }
      apply (Ksz_R dim x Zp (LVec ls)); auto.
  Qed.
End AnyAll.
