(** How torched_DPFC's constructor can end (no modelling content). *)
From Coq Require Import String List ZArith Lia Bool.
From Verif Require Import Base.Num Base.Py Base.Arr Lib.ArrLemmas Model.Ext Model.Cdist Model.Reweight Model.Score Model.ScoreTorch Model.DPFC Model.TDPFC.
From Verif Require Import Spec.FlowSpec Spec.TotalSpec Spec.TTotalSpec Lib.FlowLemmas Lib.ScoreLemmas Lib.StepLemmas Lib.RunLemmas Lib.CoreLemmas Lib.TotalLemmas.
Import ListNotations.
Local Open Scope string_scope.
Local Open Scope nat_scope.

Section TTotal.
  Context {T S : Type} {O : NumOps T} (E : Ext T S).
  Notation mat := (mat T). Notation arr3 := (arr3 T).

  Lemma tor_okI {A} (m : res A) (a : A) : m = Ok a -> tor m = Ok a. Proof. now intros ->. Qed.
  Lemma tbc2_ism op A B d n : ism d n A -> ism d n B -> exists C, tbc2 op A B = Ok C /\ ism d n C.
  Proof. intros H1 H2. destruct (bc2_ism op A B d n H1 H2) as (C & HC & Q). exists C. split; [now apply tor_okI|auto]. Qed.
  Lemma tbc2_col op A B d n : (mr A = 1 \/ mr A = d) -> mc A = 1 -> ism d n B -> exists C, tbc2 op A B = Ok C /\ ism d n C.
  Proof. intros H1 H2 H3. destruct (bc2_col op A B d n H1 H2 H3) as (C & HC & Q). exists C. split; [now apply tor_okI|auto]. Qed.
  Lemma tmmul_tot (A B : mat) a b c : ism a b A -> ism b c B -> exists C, tmmul A B = Ok C /\ ism a c C.
  Proof. intros (A1 & A2) (B1 & B2). destruct (mmul_tot A B) as (C & HC & R1 & R2); [congruence|]. exists C. split; [now apply tor_okI|]. split; congruence. Qed.

  (** the torch estimator, in dimension [dim] >= 2 with one lengthscale per coordinate *)
  Definition tscores_ok (dim : nat) : Prop := forall X Zp ls, mc X = dim -> mc Zp = dim -> List.length ls = dim ->
    (exists r, torched_score_function_multid_seperate_all_dims E X Zp (TTens1 ls) nmilli "RBF" = Ok r /\ ism (mr X) dim r) /\
    exists fn, torched_score_function_multid_seperate_all_dims_fun E X Zp (TTens1 ls) nmilli "RBF" = Ok fn /\
      forall x, mc x = dim -> exists r, fn true x = Ok r /\ ism (mr x) dim r.

  Lemma tinv_tot (A : mat) m : no_singular E -> ism m m A -> exists B, tinv E A = Ok B /\ ism m m B.
  Proof. intros Hs (H1 & H2). destruct (linalg_inv_tot E A Hs) as (B & HB & R1 & R2); [congruence|]. exists B. split; [now apply tor_okI|]. split; congruence. Qed.
  Lemma rbf_vals_tot ls (X Y : mat) d : mc X = d -> mc Y = d -> List.length ls = d -> exists K, rbf_vals (LVec ls) X Y = Ok K /\ ism (mr X) (mr Y) K.
  Proof.
    intros H1 H2 H3. unfold rbf_vals. rewrite H1, H2, bok_refl, bdim_refl. cbv zeta. rewrite H3, bok_refl, bdim_refl. eexists. split; [reflexivity|split; reflexivity].
  Qed.
  Lemma tprep_tot (X Zp : mat) ls dim : no_singular E -> 2 <= dim -> mc X = dim -> mc Zp = dim -> List.length ls = dim ->
    exists K Ki A s, tprep E X Zp (TTens1 ls) = Ok (true, K, Ki, A, s) /\ ism (mr X) (mr Zp) K /\ ism (mr Zp) (mr Zp) Ki /\ ism (mr Zp) (mr Zp) A /\ ism (mr Zp) dim s.
  Proof.
    intros Hs Hd HX HZ Hl. unfold tprep. cbn [tl_multil]. destruct (Nat.ltb_spec 1 (List.length ls)); [|lia]. cbn [rbind tl_lscale RBF_init]. unfold RBF_Kernel. cbn [rb_l rb_sv rb_multil rbf_kvals].
    destruct (rbf_vals_tot ls X Zp dim HX HZ Hl) as (K & HK & I1). rewrite HK. cbn [rbind].
    destruct (rbf_vals_tot ls Zp Zp dim HZ HZ Hl) as (K2 & HK2 & I2). rewrite HK2. cbn [rbind].
    destruct (tbc2_ism nadd (smul none1 K2) (smul nmilli (eye (mr Zp))) (mr Zp) (mr Zp)) as (a & -> & I3); [exact I2|split; reflexivity|]. cbn [rbind].
    destruct (tinv_tot a (mr Zp) Hs I3) as (Ki & -> & I4). cbn [rbind].
    destruct (tmmul_tot (mT (smul none1 K)) (smul none1 K) (mr Zp) (mr X) (mr Zp)) as (A & -> & I5); [split; apply I1|split; apply I1|]. cbn [rbind].
    unfold RBF_gradient_X. cbn [rb_l rb_K]. rewrite HX, HZ, bok_refl, bdim_refl, Hl, bok_refl, bdim_refl. cbn [rbind].
    destruct I1 as (I1 & I1'). change (mr (smul none1 K)) with (mr K). change (mc (smul none1 K)) with (mc K). rewrite I1, I1', !bok_refl, !bdim_refl. cbn [andb rbind].
    eexists _, Ki, A, _. split; [reflexivity|]. split; [split; auto|]. split; [auto|]. split; [auto|]. split; cbn; [reflexivity|]. now rewrite ?map_length, ?seq_length.
  Qed.
  Lemma tinner_tot m Ki A : no_singular E -> ism m m Ki -> ism m m A -> exists R, tinner E m Ki A = Ok R /\ ism m m R.
  Proof.
    intros Hs H1 H2. unfold tinner. destruct (tmmul_tot Ki A m m m H1 H2) as (ka & -> & I1). cbn [rbind].
    destruct (tbc2_ism nadd (smul nmilli (eye m)) ka m m) as (a1 & -> & I2); [split; reflexivity|auto|]. cbn [rbind].
    destruct (tbc2_ism nadd a1 (smul nmilli (eye m)) m m) as (a2 & -> & I3); [auto|split; reflexivity|]. cbn [rbind]. now apply tinv_tot.
  Qed.
  (** the rest of the estimator, once the two inverses exist *)
  Lemma tscores_from (X Zp : mat) ls dim K Ki A s inn : mc X = dim -> mc Zp = dim -> List.length ls = dim ->
    tprep E X Zp (TTens1 ls) = Ok (true, K, Ki, A, s) -> ism (mr X) (mr Zp) K -> ism (mr Zp) (mr Zp) Ki -> ism (mr Zp) dim s ->
    tinner E (mr Zp) Ki A = Ok inn -> ism (mr Zp) (mr Zp) inn ->
    (exists r, torched_score_function_multid_seperate_all_dims E X Zp (TTens1 ls) nmilli "RBF" = Ok r /\ ism (mr X) dim r) /\
    exists fn, torched_score_function_multid_seperate_all_dims_fun E X Zp (TTens1 ls) nmilli "RBF" = Ok fn /\
      forall x, mc x = dim -> exists r, fn true x = Ok r /\ ism (mr x) dim r.
  Proof.
    intros HX HZ Hl HP IK IKi Is Hinn Iinn. split.
    - unfold torched_score_function_multid_seperate_all_dims. rewrite HP. cbn [rbind].
      edestruct (rmapM_tot (fun di => let! inn := tinner E (mr Zp) Ki A in let! a := tmmul (mopp K) inn in let! b := tmmul a Ki in let! sd := tcolumn s di in let! c := tmmul b sd in Ok (flat c)) (seq 0 (mc Zp))) as (r & Hr & _).
      + intros di Hdi. apply in_seq in Hdi. rewrite Hinn. cbn [rbind]. destruct (tmmul_tot (mopp K) inn (mr X) (mr Zp) (mr Zp)) as (a & -> & Ia); [exact IK|auto|]. cbn [rbind].
        destruct (tmmul_tot a Ki (mr X) (mr Zp) (mr Zp)) as (b & -> & Ib); [exact Ia|auto|]. cbn [rbind]. unfold tcolumn, column. destruct Is as (Is1 & Is2).
        destruct (Nat.ltb_spec di (mc s)); [|lia]. cbn [rbind]. destruct (tmmul_tot b (mk (mr s) 1 (fun i _ => get s i di)) (mr X) (mr Zp) 1) as (c & -> & _); [auto|split; auto|]. cbn. eauto.
      + rewrite Hr. cbn [rbind]. eexists. split; [reflexivity|]. split; [reflexivity|exact HZ].
    - unfold torched_score_function_multid_seperate_all_dims_fun. rewrite HP. cbn [rbind]. eexists. split; [reflexivity|]. intros x Hx. cbv beta. unfold tKsz. cbn [String.eqb Ascii.eqb Bool.eqb tl_lscale].
      destruct (rbf_vals_tot ls x Zp dim Hx HZ Hl) as (k & -> & Ik). cbn [rbind]. rewrite Hinn. cbn [rbind].
      destruct (tmmul_tot k (mopp inn) (mr x) (mr Zp) (mr Zp)) as (a & -> & Ia); [auto|exact Iinn|]. cbn [rbind].
      destruct (tmmul_tot a Ki (mr x) (mr Zp) (mr Zp)) as (b & -> & Ib); [exact Ia|auto|]. cbn [rbind].
      destruct (tmmul_tot b s (mr x) (mr Zp) dim) as (c & -> & Ic); auto. eauto.
  Qed.
  Lemma tscores_total dim : no_singular E -> 2 <= dim -> tscores_ok dim.
  Proof.
    intros Hs Hd X Zp ls HX HZ Hl. destruct (tprep_tot X Zp ls dim Hs Hd HX HZ Hl) as (K & Ki & A & s & HP & IK & IKi & IA & Is).
    destruct (tinner_tot (mr Zp) Ki A Hs IKi IA) as (inn & Hinn & Iinn). eapply tscores_from; eauto.
  Qed.

  (** ** success or ValueError *)
  Definition tv {A} (m : M S A) (P : A -> Prop) : Prop := forall s, (exists a s', m s = (Ok a, s') /\ P a) \/ exists s', m s = (Err ValueError, s').
  Lemma tv_tot {A} (m : M S A) P : tot m P -> tv m P. Proof. intros H s. left. apply H. Qed.
  Lemma tv_weaken {A} (m : M S A) (P Q : A -> Prop) : tv m P -> (forall a, P a -> Q a) -> tv m Q.
  Proof. intros H K s. destruct (H s) as [(a & s' & H1 & H2)|H1]; eauto 6. Qed.
  Lemma tv_bind {A B} (m : M S A) (k : A -> M S B) P Q : tv m P -> (forall a, P a -> tv (k a) Q) -> tv (bind m k) Q.
  Proof.
    intros H1 H2 s. destruct (H1 s) as [(a & s1 & Ha & HP)|(s1 & Ha)]; unfold bind; rewrite Ha.
    - destruct (H2 a HP s1) as [(b & s2 & Hb & HQ)|(s2 & Hb)]; eauto 6.
    - eauto.
  Qed.
  Lemma tv_lift {A} (r : res A) (P : A -> Prop) : (exists a, r = Ok a /\ P a) -> tv (lift r) P.
  Proof. intro H. apply tv_tot. now apply tot_lift. Qed.
  Lemma tv_ret {A} (a : A) (P : A -> Prop) : P a -> tv (ret a) P.
  Proof. intro H. apply tv_tot. now apply tot_ret. Qed.
  Lemma tv_mfold {A B} (f : B -> A -> M S B) l b (P : B -> Prop) : P b -> (forall b a, P b -> In a l -> tv (f b a) P) -> tv (mfold f l b) P.
  Proof.
    revert b. induction l; intros b Hb H; cbn; [now apply tv_ret|]. apply (tv_bind _ _ P).
    - apply H; auto. now left.
    - intros b' Hb'. apply IHl; auto. intros. apply H; auto. now right.
  Qed.
  Lemma t_sample_box_tv m bnds : tv (t_sample_box E m bnds) (fun X => ism m (List.length bnds) X).
  Proof.
    intro s. unfold t_sample_box. destruct (forallb _ bnds); [|eauto]. destruct (x_tuniform E s _ _ m) as [h s'].
    left. eexists _, _. split; [reflexivity|]. split; reflexivity.
  Qed.
  Lemma hull_bnd_tot (z b : mat) i : 1 <= mc z -> 1 <= mc b -> exists r, hull_bnd z b i = Ok r.
  Proof.
    intros Hz Hb. unfold hull_bnd. destruct (lmin_tot (row z i) (row_ne z i Hz)) as (z1 & ->). destruct (lmin_tot (row b i) (row_ne b i Hb)) as (b1 & ->).
    destruct (lmax_tot (row z i) (row_ne z i Hz)) as (z2 & ->). destruct (lmax_tot (row b i) (row_ne b i Hb)) as (b2 & ->). cbn. eauto.
  Qed.
  Lemma dens_bnd_tot (z b : mat) i : 1 <= mc z -> 1 <= mc b -> exists r, dens_bnd z b i = Ok r.
  Proof.
    intros Hz Hb. unfold dens_bnd. destruct (hull_bnd_tot z b i Hz Hb) as (r & ->). destruct (lmin_tot (row z i) (row_ne z i Hz)) as (z1 & ->). destruct (lmin_tot (row b i) (row_ne b i Hb)) as (b1 & ->).
    destruct (lmax_tot (row z i) (row_ne z i Hz)) as (z2 & ->). destruct (lmax_tot (row b i) (row_ne b i Hb)) as (b2 & ->). cbn. destruct (neqb b1 b2); eauto.
  Qed.
  Lemma two_tstd_length (x : mat) : List.length (two_tstd x) = mr x.
  Proof. unfold two_tstd, tstd1. now rewrite !map_length, seq_length. Qed.

  Section Problem.
    Context (p : params T) (WP : t_well_posed p) (HS : tscores_ok (List.length (p_y1 p))).
    Let dim := List.length (p_y1 p).
    Let N := p_N p.

    Lemma t_em_tot fd x t : field dim N fd -> ism dim N x -> tot (t_em_step E (p_g p) fd dim N x t) (ism dim N).
    Proof.
      intros Hf Hx. unfold t_em_step. destruct (Hf x (nsub t dt) (proj1 Hx) (proj2 Hx)) as (F & HF & F1 & F2).
      apply (tot_bind _ _ (ism dim N)); [apply tot_lift; exists F; split; [exact HF|split; auto]|]. intros fx Hfx.
      apply (tot_bind _ _ (ism dim N)); [apply tot_lift, tbc2_ism; auto; split; apply Hfx|]. intros a Ha.
      apply (tot_bind _ _ (ism dim N)); [apply normal_tot|]. intros no Hno. apply tot_lift.
      destruct (tbc2_col nmul (p_g p) no dim N) as (gn & -> & Hgn); auto; try apply (tw_g _ WP). cbn [rbind].
      apply tbc2_ism; auto.
    Qed.
    Lemma t_own_bnds_tot (x : mat) : 1 <= mc x -> exists b, t_own_bnds x = Ok b /\ List.length b = mr x.
    Proof. intro H. destruct (own_bnds_tot x H) as (b & Hb & L). exists b. split; [now apply tor_okI|auto]. Qed.
    Lemma t_fsep_tv fd x t : field dim N fd -> ism dim N x -> tv (t_f_seperate E (p_M p) (p_g p) fd x t) (ism dim N).
    Proof.
      intros Hf (X1 & X2). pose proof (tw_N _ WP) as HN. unfold t_f_seperate. unfold N in *.
      destruct (t_own_bnds_tot x) as (b & Hb & Lb); [lia|].
      apply (tv_bind _ _ (fun b => List.length b = dim)); [apply tv_lift; exists b; split; auto; congruence|]. intros bs Lbs.
      apply (tv_bind _ _ (fun X => mc X = dim)).
      { eapply tv_weaken; [apply t_sample_box_tv|]. intros X (_ & H). congruence. }
      intros Sxx HSx. apply (tv_bind _ _ (ism (p_N p) dim)).
      { apply tv_lift. destruct (HS (mT x) Sxx (two_tstd x)) as ((r & Hr & Ir) & _); [exact X1|exact HSx|now rewrite two_tstd_length|]. exists r. split; [exact Hr|].
        destruct Ir as (I1 & I2). split; [|exact I2]. rewrite I1. exact X2. }
      intros gp (Hg1 & Hg2). destruct (Hf x t X1 X2) as (F & HF & F1 & F2).
      apply (tv_bind _ _ (ism dim (p_N p))); [apply tv_lift; exists F; split; [exact HF|split; auto]|]. intros fx Hfx.
      apply tv_lift. destruct (tbc2_col nmul (smul nhalf (msq (p_g p))) (mT gp) dim (p_N p)) as (c & -> & Hc); auto; try apply (tw_g _ WP); [split; auto|].
      cbn [rbind]. apply tbc2_ism; auto.
    Qed.
    Lemma t_det_tv fd x t : field dim N fd -> ism dim N x -> tv (t_det_step (t_f_seperate E (p_M p) (p_g p) fd) x t) (ism dim N).
    Proof.
      intros Hf Hx. unfold t_det_step. apply (tv_bind _ _ (ism dim N)); [now apply t_fsep_tv|]. intros d Hd.
      apply tv_lift. apply tbc2_ism; auto.
    Qed.
    Lemma t_reweight_tot e x : ism 1 N e -> ism dim N x -> exists y, t_reweight_slice E N e x = Ok y /\ ism dim N y.
    Proof.
      intros (E1 & E2) (X1 & X2). pose proof (tw_N _ WP) as HN. fold N in HN. unfold t_reweight_slice, weights_of.
      destruct (assign_ism 1 N (mexp e)) as (w & -> & (Ww & W1 & W2)); [split; auto|]. cbn [rbind tor].
      unfold t_cost, ot_dist, cdist_sq. rewrite Nat.eqb_refl. cbn [rbind]. cbn [mk mr mT].
      match goal with |- context [lmax ?l] => destruct (lmax_tot l) as (mx & ->) end.
      { rewrite X2. destruct N; [lia|]. cbn [seq flat_map]. intro Q. apply app_eq_nil in Q. destruct Q as (Q & _). now apply row_ne in Q; [|cbn [mk mc]; lia]. }
      cbn [rbind tor]. eapply tmmul_tot; [split; [exact X1|exact X2]|split; reflexivity].
    Qed.
    Lemma tsetsl_tot (A : arr3) k j y : sh A dim N k -> j < k -> ism dim N y -> exists A', tsetsl A (Z.of_nat j) y = Ok A' /\ sh A' dim N k.
    Proof.
      intros HA Hj Hy. destruct (assign_ism dim N y Hy) as (m & Hm & (Wm & M1 & M2)). unfold tsetsl. rewrite (setsl_eq _ _ _ _ _ _ HA) by lia. rewrite Hm. cbn.
      eexists. split; [reflexivity|]. apply sh_set; auto.
    Qed.
    Lemma getsl_tot (A : arr3) k j : sh A dim N k -> j < k -> exists x, getsl A (Z.of_nat j) = Ok x /\ ism dim N x.
    Proof.
      intros HA Hj. rewrite getsl_nat by (destruct HA as (_ & _ & _ & ->); lia). destruct (sh_slice _ _ _ _ j HA Hj) as (_ & R1 & C1). eexists. split; [reflexivity|split; auto].
    Qed.
    Lemma t_rw_step (U : mat -> res mat) (e : mat -> mat) (A : arr3) k j : sh A dim N k -> j < k -> (forall x, ism dim N x -> exists u, U x = Ok u /\ ism 1 N u) ->
      (forall u, ism 1 N u -> ism 1 N (e u)) ->
      exists A', (let! x := getsl A (Z.of_nat j) in let! u := U x in let! y := t_reweight_slice E N (e u) x in tsetsl A (Z.of_nat j) y) = Ok A' /\ sh A' dim N k.
    Proof.
      intros HA Hj HU He. destruct (getsl_tot A k j HA Hj) as (x & -> & Hx). cbn [rbind]. destruct (HU x Hx) as (u & -> & Hu). cbn [rbind].
      destruct (t_reweight_tot (e u) x (He u Hu) Hx) as (y & -> & Hy). cbn [rbind]. now apply (tsetsl_tot A k).
    Qed.

    Lemma t_otto_body_tv (Zf : arr3) k i t : sh Zf dim N k -> i < k -> p_det p = true -> tv (t_otto_body E p Zf (i, t)) (fun Z1 => sh Z1 dim N k).
    Proof.
      intros HZ Hi Hd. unfold t_otto_body. fold dim. apply (tv_bind _ _ (fun Z1 => sh Z1 dim N k)).
      - destruct (Nat.eqb_spec i 0) as [->|H0].
        + apply tv_lift. apply (rfold_seq_total _ (fun _ A => sh A dim N k)); auto.
          intros d A Hdd HA. rewrite (pyget_nat _ d nzero) by auto. cbn [rbind].
          destruct (setrow3_tot p A k d 0%Z (nth d (p_y1 p) nzero)) as (A1 & -> & HA1); auto; try lia. cbn [rbind].
          destruct (p_brown p); [|eauto]. rewrite (pyget_nat _ d nzero) by (rewrite (tw_y _ WP); auto). cbn [rbind].
          apply setrow3_tot; auto; lia.
        + destruct (getsl_tot Zf k (i-1) HZ ltac:(lia)) as (x0 & Hx0 & Ix0). replace (Z.of_nat i - 1)%Z with (Z.of_nat (i-1)) by lia.
          apply (tv_bind _ _ (ism dim N)); [apply tv_lift; eauto|]. intros x Hx. apply (tv_bind _ _ (ism dim N)).
          * destruct (i =? 1); [apply tv_tot, t_em_tot|apply t_det_tv]; auto; apply (tw_f _ WP).
          * intros y Hy. apply tv_lift. now apply tsetsl_tot.
      - intros Z1 HZ1. destruct (p_reweight p) eqn:Hr; cbn [andb]; [|now apply tv_ret]. destruct (0 <? i); [|now apply tv_ret]. apply tv_lift.
        apply (t_rw_step (fun x => ocall2 (p_U p) x t) (fun u => muls u dt) Z1 k i HZ1 Hi).
        + intros x (X1 & X2). destruct (tw_U _ WP Hr Hd x t X1 X2) as (u & Hu & U1 & U2). exists u. split; [exact Hu|split; auto].
        + intros u (U1 & U2). split; auto.
    Qed.
    Lemma t_otto_tv grid : p_det p = true -> tv (t_forward_sampling_Otto E p grid (zeros3 dim N (List.length grid))) (fun Z1 => sh Z1 dim N (List.length grid)).
    Proof.
      intro Hd. unfold t_forward_sampling_Otto. apply tv_mfold; [apply sh_zeros|]. intros Zf [i t] HZ Hin. apply t_otto_body_tv; auto.
      unfold enumerate in Hin. apply in_combine_l in Hin. apply in_seq in Hin. lia.
    Qed.
    Lemma t_stoch_body_tot (Zf : arr3) k i t : sh Zf dim N k -> i < k -> p_det p = false -> tot (t_stoch_body E p Zf (i, t)) (fun Z1 => sh Z1 dim N k).
    Proof.
      intros HZ Hi Hd. pose proof (tw_dim _ WP) as H2. fold dim in H2. unfold t_stoch_body. fold dim. destruct (Nat.eqb_spec i 0) as [->|H0].
      - apply tot_lift. assert (P0 : pyget (p_y1 p) 0 = Ok (nth 0 (p_y1 p) nzero)) by (apply (pyget_nat (p_y1 p) 0); fold dim; lia).
        assert (P1 : pyget (p_y1 p) 1 = Ok (nth 1 (p_y1 p) nzero)) by (apply (pyget_nat (p_y1 p) 1); fold dim; lia). rewrite P0, P1. cbn [rbind].
        destruct (setrow3_tot p Zf k 0 0%Z (nth 0 (p_y1 p) nzero)) as (A1 & HA1' & HA1); auto; try (fold dim; lia). change (Z.of_nat 0) with 0%Z in HA1'. rewrite HA1'. cbn [rbind].
        apply (setrow3_tot p A1 k 1); auto; fold dim; lia.
      - destruct (getsl_tot Zf k (i-1) HZ ltac:(lia)) as (x0 & Hx0 & Ix0). replace (Z.of_nat i - 1)%Z with (Z.of_nat (i-1)) by lia.
        apply (tot_bind _ _ (ism dim N)); [apply tot_lift; eauto|]. intros x Hx. apply (tot_bind _ _ (ism dim N)); [apply t_em_tot; auto; apply (tw_f _ WP)|]. intros y Hy.
        apply (tot_bind _ _ (fun Z1 => sh Z1 dim N k)); [apply tot_lift; now apply tsetsl_tot|]. intros Z1 HZ1.
        destruct (p_reweight p) eqn:Hr; [|now apply tot_ret]. apply tot_lift.
        apply (t_rw_step (ocall1 (p_U p)) (fun u => u) Z1 k i HZ1 Hi); auto.
        intros z (X1 & X2). destruct (tw_U1 _ WP Hr Hd z X1 X2) as (u & Hu & U1 & U2). exists u. split; [exact Hu|split; auto].
    Qed.
    Lemma t_stoch_tot grid : p_det p = false -> tot (t_forward_sampling E p grid (zeros3 dim N (List.length grid))) (fun Z1 => sh Z1 dim N (List.length grid)).
    Proof.
      intro Hd. unfold t_forward_sampling. apply tot_mfold; [apply sh_zeros|]. intros Zf [i t] HZ Hin. apply t_stoch_body_tot; auto.
      unfold enumerate in Hin. apply in_combine_l in Hin. apply in_seq in Hin. lia.
    Qed.

    Lemma t_dens_tv (Zf B : arr3) k j : sh Zf dim N k -> sh B dim N k -> j < k -> tv (t_density_estimation E p "RBF" Zf B (Z.of_nat j)) (ism dim N).
    Proof.
      intros HZ HBB Hj. pose proof (tw_N _ WP) as HN. fold N in HN. unfold t_density_estimation. fold dim.
      destruct (getsl_tot Zf k j HZ Hj) as (z0 & Hz0 & Iz0). destruct (getsl_tot B k j HBB Hj) as (b0 & Hb0 & Ib0).
      apply (tv_bind _ _ (ism dim N)); [apply tv_lift; eauto|]. intros z (Z1 & Z2). apply (tv_bind _ _ (ism dim N)); [apply tv_lift; eauto|]. intros b (B1 & B2).
      destruct (rmapM_tot (dens_bnd z b) (seq 0 dim)) as (bs & Hbs & Lbs); [intros; apply dens_bnd_tot; lia|]. rewrite seq_length in Lbs.
      apply (tv_bind _ _ (fun b => List.length b = dim)); [apply tv_lift; eauto|]. clear bs Hbs Lbs. intros bs Lbs.
      apply (tv_bind _ _ (fun X => mc X = dim)); [eapply tv_weaken; [apply t_sample_box_tv|]; intros X (_ & H); congruence|]. intros Sxx HSx. apply tv_lift.
      destruct (HS (mT z) Sxx (two_tstd z)) as (_ & fn & Hfn & Hx); [exact Z1|exact HSx|now rewrite two_tstd_length|]. rewrite Hfn. cbn [rbind].
      destruct (Hx (mT b) B1) as (r & -> & (I1 & I2)). cbn [rmap rbind]. eexists. split; [reflexivity|]. split; [exact I2|]. cbn [mT mk mc]. rewrite I1. exact B2.
    Qed.
    Lemma t_bwdens_tv (Zf B : arr3) k j : sh Zf dim N k -> sh B dim N k -> j < k -> tv (t_bw_density_estimation E p "RBF" Zf B (Z.of_nat j)) (ism N dim).
    Proof.
      intros HZ HBB Hj. pose proof (tw_N _ WP) as HN. fold N in HN. unfold t_bw_density_estimation. fold dim.
      destruct (getsl_tot Zf k j HZ Hj) as (z0 & Hz0 & Iz0). destruct (getsl_tot B k j HBB Hj) as (b0 & Hb0 & Ib0).
      apply (tv_bind _ _ (ism dim N)); [apply tv_lift; eauto|]. intros b (B1 & B2). apply (tv_bind _ _ (ism dim N)); [apply tv_lift; eauto|]. intros z (Z1 & Z2).
      destruct (rmapM_tot (hull_bnd z b) (seq 0 dim)) as (bs & Hbs & Lbs); [intros; apply hull_bnd_tot; lia|]. rewrite seq_length in Lbs.
      apply (tv_bind _ _ (fun b => List.length b = dim)); [apply tv_lift; eauto|]. clear bs Hbs Lbs. intros bs Lbs.
      apply (tv_bind _ _ (fun X => mc X = dim)); [eapply tv_weaken; [apply t_sample_box_tv|]; intros X (_ & H); congruence|]. intros Sxx HSx. apply tv_lift.
      destruct (HS (mT b) Sxx (two_tstd b)) as ((r & Hr & (I1 & I2)) & _); [exact B1|exact HSx|now rewrite two_tstd_length|]. exists r. split; [exact Hr|]. split; [|exact I2]. rewrite I1. exact B2.
    Qed.
    Lemma t_bw_body_tv grid (Zf B : arr3) i t : sh Zf dim N (List.length grid) -> sh B dim N (List.length grid) -> i + 1 < List.length grid ->
      tv (t_bw_body E p "RBF" grid Zf B (i, t)) (fun B => sh B dim N (List.length grid)).
    Proof.
      intros HZ HBB Hi. set (k := List.length grid) in *. pose proof (tw_y _ WP) as Hy2. unfold t_bw_body. fold dim k. destruct (Nat.eqb_spec i 0) as [->|H0].
      { apply tv_lift. apply pin_tot; auto; lia. }
      cbv zeta. replace (Z.of_nat k - Z.of_nat i - 1)%Z with (Z.of_nat (k - i - 1)) by lia.
      replace (Z.of_nat (k - i - 1) + 1)%Z with (Z.of_nat (k - i)) by lia.
      destruct (getsl_tot B k (k-i) HBB ltac:(lia)) as (x0 & Hx0 & Ix0).
      apply (tv_bind _ _ (ism dim N)); [apply (t_dens_tv Zf B k); auto; lia|]. intros gro Hg.
      assert (Hgt : pyget grid (Z.of_nat (k-i)) = Ok (nth (k-i) grid nzero)) by (apply pyget_nat; fold k; lia).
      destruct (tw_g _ WP) as (G1 & G2). fold dim in G1. apply (tv_bind _ _ (ism dim N)).
      - destruct ((i =? 1) && p_det p || negb (p_det p)).
        + apply (tv_bind _ _ (ism dim N)); [apply tv_lift; eauto|]. intros x Hx.
          apply (tv_bind _ _ (fun _ => True)); [apply tv_lift; eauto|]. intros tt' _. unfold t_bw_stoch_step.
          destruct (tw_f _ WP x tt' (proj1 Hx) (proj2 Hx)) as (F & HF & F1 & F2).
          apply (tv_bind _ _ (ism dim N)); [apply tv_lift; exists F; split; [exact HF|split; auto]|]. intros fx Hfx.
          apply (tv_bind _ _ (ism dim N)); [apply tv_lift, tbc2_ism; [exact Hx|exact Hfx]|]. intros a Ha.
          apply (tv_bind _ _ (ism dim N)); [apply tv_lift, tbc2_col; auto|]. intros c Hc.
          apply (tv_bind _ _ (ism dim N)); [apply tv_lift, tbc2_ism; auto|]. intros ac Hac.
          apply (tv_bind _ _ (ism dim N)); [apply tv_tot, normal_tot|]. intros no Hno. apply tv_lift.
          destruct (tbc2_col nmul (p_g p) no dim N) as (gn & -> & Hgn); auto. cbn [rbind]. apply tbc2_ism; auto.
        + apply (tv_bind _ _ (ism N dim)); [apply (t_bwdens_tv Zf B k); auto; lia|]. intros gb (Hb1 & Hb2).
          apply (tv_bind _ _ (ism dim N)); [apply tv_lift; eauto|]. intros x Hx.
          apply (tv_bind _ _ (fun _ => True)); [apply tv_lift; eauto|]. intros tt' _. apply tv_lift. unfold t_bw_det_step.
          destruct (tw_f _ WP x tt' (proj1 Hx) (proj2 Hx)) as (F & HF & F1 & F2). rewrite HF. cbn [rbind].
          destruct (tbc2_col nmul (msq (p_g p)) gro dim N) as (c1 & -> & Hc1); auto. cbn [rbind].
          destruct (tbc2_ism nsub F c1 dim N) as (d1 & -> & Hd1); [split; auto|auto|]. cbn [rbind].
          destruct (tbc2_col nmul (smul nhalf (msq (p_g p))) (mT gb) dim N) as (c2 & -> & Hc2); auto; [split; auto|]. cbn [rbind].
          destruct (tbc2_ism nadd d1 c2 dim N) as (d2 & -> & Hd2); auto. cbn [rbind].
          apply tbc2_ism; [exact Hx|exact Hd2].
      - intros y Hy. apply tv_lift. apply tsetsl_tot; auto; lia.
    Qed.
    Lemma t_bw_tv grid Zf : 1 <= List.length grid -> sh Zf dim N (List.length grid) ->
      tv (t_backward_simulation E p "RBF" grid Zf (zeros3 dim N (List.length grid))) (fun B => sh B dim N (List.length grid)).
    Proof.
      intros Hk HZ. unfold t_backward_simulation. apply (tv_bind _ _ (fun B => sh B dim N (List.length grid))).
      2:{ intros B HBB. apply tv_lift. apply pin_tot; auto. }
      apply tv_mfold; [apply sh_zeros|]. intros B [i t] HBB Hin. apply t_bw_body_tv; auto.
      unfold enumerate in Hin. apply in_combine_l in Hin. apply in_seq in Hin. rewrite init_length in Hin. lia.
    Qed.
    Lemma t_kern_rbf : kern_used (p_kern p) = "RBF".
    Proof. unfold kern_used. destruct (tw_kern _ WP) as [-> | ->]; reflexivity. Qed.
    Lemma t_construct_tv grid : t_timegrid (p_t1 p) (p_t2 p) = Ok grid -> 1 <= List.length grid -> p_reweight p && p_brown p = false \/ p_det p = false ->
      tv (t_construct E IsTensor p) (fun _ => True).
    Proof.
      intros HG Hk HB. unfold t_construct. rewrite t_kern_rbf, HG. cbn [size_dim0].
      apply (tv_bind _ _ (fun d => d = dim)); [apply tv_lift; eauto|]. intros d ->. apply (tv_bind _ _ (fun g => g = grid)); [apply tv_lift; eauto|]. intros g ->. fold N.
      apply (tv_bind _ _ (fun ZZ => sh (fst ZZ) dim N (List.length grid))).
      - destruct (p_det p) eqn:Hd.
        + apply (tv_bind _ _ (fun Z1 => sh Z1 dim N (List.length grid))); [now apply t_otto_tv|]. intros Z1 HZ1. destruct HB as [->|]; [|congruence]. now apply tv_ret.
        + apply (tv_bind _ _ (fun Z1 => sh Z1 dim N (List.length grid))); [apply tv_tot; now apply t_stoch_tot|]. intros Z1 HZ1. now apply tv_ret.
      - intros [Z1 Zt] HZ1. apply (tv_bind _ _ (fun _ => True)); [|intros; now apply tv_ret]. eapply tv_weaken; [now apply t_bw_tv|auto].
    Qed.
  End Problem.
End TTotal.
