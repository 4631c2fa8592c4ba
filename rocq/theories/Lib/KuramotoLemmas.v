(** The loops of the Kuramoto class as sequences of specified steps (no modelling content). *)
From Coq Require Import String List ZArith Lia Bool.
From Verif Require Import Base.Num Base.Py Base.Arr Lib.ArrLemmas Model.Ext Model.Cdist Model.Score Model.DPFC Model.Kuramoto.
From Verif Require Import Spec.FlowSpec Spec.KuramotoSpec Lib.FlowLemmas Lib.ScoreLemmas Lib.StepLemmas Lib.RunLemmas.
Import ListNotations.

Section KL.
  Context {T S : Type} {O : NumOps T} (E : Ext T S) (wrap : T -> T) (mvn : S -> list T -> mat T -> nat -> (nat -> nat -> T) * S).
  Notation mat := (mat T). Notation arr3 := (arr3 T).

  Lemma is_K_of_all kern x y l K : K_of_all kern x y l = Ok K -> is K (mr x) (mr y).
  Proof.
    unfold K_of_all. destruct (String.eqb kern "RBF"); [apply is_K_all|]. destruct (String.eqb kern "periodic"); [apply is_K_per|discriminate].
  Qed.
  Lemma grdx_all_dims kern x y l G : grdx_of_all kern x y l = Ok G -> a_k G = mc x.
  Proof.
    unfold grdx_of_all. destruct (String.eqb kern "RBF"); [|discriminate]. unfold grdx_K_all. destruct (bok (mc x) (mc y)); [|discriminate].
    intro H. invok. reflexivity.
  Qed.
  Lemma prep_all_ok K grd (X Zp : mat) l K_xz Ksinv A s : prep_all E K grd X Zp l = Ok (K_xz, Ksinv, A, s) ->
    K X Zp l = Ok K_xz /\ exists G, grd X Zp l = Ok G /\ s = sum0_3 (Arr3 (a_d G) (a_n G) (a_k G) (map mopp (a_s G))).
  Proof.
    unfold prep_all. intro H. apply rbind_ok in H. destruct H as (k & HK & H). do 3 (apply rbind_ok in H; destruct H as (? & _ & H)).
    apply rbind_ok in H. destruct H as (G & HG & H). injection H as <- _ _ <-. eauto.
  Qed.
  Lemma score_all_shape X Zp C kern l G : score_function_multid_seperate_all_dims E X Zp C kern l = Ok G -> mr G = mr X /\ mc G = mc X.
  Proof.
    unfold score_function_multid_seperate_all_dims. intro H. apply rbind_ok in H. destruct H as ([[[K_xz Ksinv] A] s] & E0 & E1).
    apply eval_at_samples_rows in E1. destruct E1 as (-> & ->). destruct (prep_all_ok _ _ _ _ _ _ _ _ _ E0) as (HK & G0 & HG & ->).
    apply is_K_of_all in HK as (_ & -> & _). apply grdx_all_dims in HG. cbn [sum0_3 mk mc a_k]. auto.
  Qed.
  Lemma score_all_fun_shape X Zp C kern l fn x G : score_function_multid_seperate_all_dims_fun E X Zp C kern l = Ok fn -> fn x = Ok G ->
    mr G = mr x /\ mc G = mc X.
  Proof.
    unfold score_function_multid_seperate_all_dims_fun. intros H Hx. apply rbind_ok in H. destruct H as ([[[K_xz Ksinv] A] s] & E0 & H).
    injection H as <-. apply eval_fun_rows in Hx. destruct Hx as (k & Hk & -> & ->). apply is_Ksz_of in Hk as (_ & -> & _).
    destruct (prep_all_ok _ _ _ _ _ _ _ _ _ E0) as (HK & G0 & HG & ->). apply grdx_all_dims in HG. cbn [sum0_3 mk mc a_k]. auto.
  Qed.

  Section P.
  Context (p : kpar T).
  Let dim := List.length (k_y1 p).
  Let N := k_N p.
  Notation step grid := (fun i => phase_step E wrap (k_reweight p) (k_dt p) (k_kern p) (k_M p) (k_g p) (k_f p) (k_U p) i (nth i grid nzero)).

  (** the move without reweighting *)
  Lemma move_ok (x y x' : mat) (i : nat) t s s' : wf x -> mr x = dim -> mc x = N ->
    (if i =? 1 then
       let* fx := lift (k_f p x (nsub t (k_dt p))) in
       let* a := lift (bc2 nadd x (smul (k_dt p) fx)) in
       let* noise := normal E (nsqrt (k_dt p)) dim N in
       lift (bc2 nadd a (smul (k_g p) noise))
     else
       let* d := k_drift E p x (nsub t (k_dt p)) in
       lift (bc2 nadd x (smul (k_dt p) d))) s = (Ok y, s') ->
    fits (mmap1 wrap y) dim N -> (forall a b, a < dim -> b < N -> get x' a b = bget (mmap1 wrap y) a b) ->
    (if i =? 1 then phase_noisy_step E wrap (k_dt p) (k_g p) (k_f p) (nsub t (k_dt p))
     else phase_flow_step E wrap (k_dt p) (k_kern p) (k_M p) (k_g p) (k_f p) (nsub t (k_dt p))) x x' s s'.
  Proof.
    intros Wx Rx Cx H Fy Hx'. destruct (mmap1_fit _ _ _ _ Fy) as (Fy' & GW). destruct (i =? 1).
    - invok. apply normal_ok in E2. destruct E2 as (W & HW & ->). unfold smul in *.
      destruct (bc2_fit _ _ _ _ _ _ H Fy') as (F1 & F2 & G). destruct (bc2_fit _ _ _ _ _ _ E1 F1) as (F3 & F4 & G1).
      destruct (mmap1_fit _ _ _ _ F4) as (F5 & G2). destruct (mmap1_fit _ _ _ _ F2) as (F6 & G3).
      exists a, W. rewrite Rx, Cx. split; [auto|]. split; [auto|]. intros d n Hd Hn. rewrite Hx', GW, G, G1, G2, G3 by auto.
      rewrite bget_mk by auto. rewrite (bget_in x) by lia. reflexivity.
    - apply bind_ok in H. destruct H as (dr & s1 & Hd & H). unfold k_drift in Hd. invok.
      apply own_bnds_ok in E0. destruct E0 as (Lb & Hb). apply sample_box_ok in E1. destruct E1 as (rows & Hdr & Lr & HT & _).
      rewrite HT, lengthscales_eq in E2. pose proof (score_all_shape _ _ _ _ _ _ E2) as (RG & CG). cbn [mT mk mr mc] in RG, CG. unfold smul in *.
      destruct (bc2_fit _ _ _ _ _ _ H Fy') as (F1 & F2 & G). destruct (mmap1_fit _ _ _ _ F2) as (F3 & G1).
      destruct (bc2_fit _ _ _ _ _ _ Hd F3) as (F4 & F5 & G2). destruct (mmap1_fit _ _ _ _ F5) as (F6 & G3).
      exists a2, a, rows, a1. split; [auto|]. split; [auto|]. split; [auto|]. split; [auto|]. split; [auto|]. rewrite Rx, Cx.
      intros d n Hd' Hn. rewrite Hx', GW, G by auto. rewrite G1, G2, G3 by auto. rewrite (bget_in x), (bget_in (mT a1)) by (cbn; lia).
      rewrite get_mT by lia. reflexivity.
  Qed.

  Lemma reweight_ok (x y : mat) : wf x -> mr x = dim -> mc x = N -> k_reweight_slice E wrap p x = Ok y ->
    wf y /\ mr y = dim /\ mc y = N /\ exists u, k_U p x = Ok u /\ phase_reweighted E wrap (fun n => elem u 0 n) x y.
  Proof.
    intros Wx Rx Cx H. unfold k_reweight_slice in H. change (k_N p) with N in H.
    apply rbind_ok in H. destruct H as (u & Hu & H). apply rbind_ok in H. destruct H as (w & Hw & H).
    apply rbind_ok in H. destruct H as (c & Hc & H). apply rbind_ok in H. destruct H as (y0 & Hy & H). injection H as <-.
    apply weights_of_ok in Hw. destruct Hw as (Fu & Hw). cbv zeta in Hw.
    unfold k_cost, cdist_sq in Hc. cbn [mT mk mc mr] in Hc. rewrite Nat.eqb_refl in Hc. cbn [rbind] in Hc. rewrite Cx in Hc.
    apply rbind_ok in Hc. destruct Hc as (mx & Hmx & Hc). injection Hc as <-. fold (mT x) in *.
    apply mmul_ok in Hy. destruct Hy as (_ & Wy & Ry & Cy & Gy). unfold smul in *. cbn [mmap1 mk mr mc] in Ry, Cy, Gy.
    split; [apply wf_mk|]. split; [cbn; lia|]. split; [cbn; lia|]. exists u. split; [auto|].
    unfold phase_reweighted. cbv zeta. rewrite Cx.
    assert (Hsq : forall i j, i < N -> j < N -> sqdist (mT x) (mT x) i j = nsum (map (fun d => nsq (nsub (get x d i) (get x d j))) (seq 0 (mr x)))).
    { intros i j Hi Hj. unfold sqdist. cbn [mc mT mk]. f_equal. apply map_seq_ext. intros d Hd. now rewrite !get_mT by lia. }
    exists mx, (divs (mk N N (fun i j => sqdist (mT x) (mT x) i j)) mx). split; [|split; [|split; [|split; [|split]]]]; [| | | | |intros d n Hd Hn].
    - rewrite <- Hmx. cbn [mk mr]. f_equal. rewrite !flat_map_concat_map. f_equal. apply map_seq_ext. intros i Hi.
      unfold row. cbn [mc mk]. apply map_seq_ext. intros j Hj. rewrite get_mk by auto. now rewrite Hsq.
    - apply wf_rect, wf_mk.
    - reflexivity.
    - reflexivity.
    - intros i j Hi Hj. unfold divs. rewrite get_mmap1 by (cbn; lia). rewrite get_mk by auto. now rewrite Hsq.
    - rewrite get_mmap1 by (cbn in *; lia). rewrite Gy by (cbn; lia). rewrite Cx. f_equal. f_equal.
      apply map_seq_ext. intros m Hm. rewrite (get_mk N N) by lia. rewrite get_mmap1 by lia. rewrite Hw. reflexivity.
  Qed.

  Lemma forward_step_ok grid (Zf Z' : arr3) i s s' k : sh Zf dim N k -> 0 < i ->
    k_forward_body E wrap mvn p Zf (i, nth i grid nzero) s = (Ok Z', s') ->
    i < k /\ sh Z' dim N k /\ step grid i (slice Zf (i-1)) (slice Z' i) s s' /\ forall t, t <> i -> slice Z' t = slice Zf t.
  Proof.
    intros HZ Hp H. unfold k_forward_body in H. fold dim N in H. destruct (Nat.eqb_spec i 0); [lia|].
    apply bind_ok in H. destruct H as (Z1 & s1 & H1 & H).
    apply bind_ok in H1. destruct H1 as (x & s2 & Hx & H1). apply lift_ok in Hx. destruct Hx as (Hx & ->).
    replace (Z.of_nat i - 1)%Z with (Z.of_nat (i-1)) in Hx by lia.
    apply bind_ok in H1. destruct H1 as (y & s3 & Hy & H1). apply lift_ok in H1. destruct H1 as (H1 & ->).
    apply (assign_fit _ _ _ _ _ _ _ HZ) in H1. destruct H1 as (Hi & HZ1 & Fr & Fc & Hg & Hf). assert (F : fits (mmap1 wrap y) dim N) by (split; auto).
    split; [auto|].
    rewrite getsl_nat in Hx by (destruct HZ as (_ & _ & _ & ->); lia). injection Hx as <-.
    destruct (sh_slice _ _ _ _ (i-1) HZ ltac:(lia)) as (W0 & R0 & C0). destruct (sh_slice _ _ _ _ i HZ1 Hi) as (W1 & R1 & C1).
    pose proof (move_ok _ _ (slice Z1 i) i _ _ _ W0 R0 C0 Hy F Hg) as Hm.
    unfold phase_step. cbv zeta. destruct (k_reweight p); cbn [andb] in H.
    - destruct (Nat.ltb_spec 0 i); [|lia]. apply lift_ok in H. destruct H as (H & ->). invok.
      rewrite getsl_nat in E0 by (destruct HZ1 as (_ & _ & _ & ->); lia). injection E0 as <-.
      apply reweight_ok in E1; auto. destruct E1 as (Wy & Ry & Cy & u & Hu & mx & cost & K1 & K2 & K3 & K4 & K5 & K6).
      apply (assign_fit _ _ _ _ _ _ _ HZ1) in H. destruct H as (_ & HZ' & _ & _ & Hg' & Hf').
      split; [auto|]. split.
      + exists (slice Z1 i), u. split; [now apply wf_rect|]. split; [congruence|]. split; [congruence|]. split; [auto|]. split; [auto|].
        exists mx, cost. split; [auto|]. split; [auto|]. split; [auto|]. split; [auto|]. split; [auto|]. cbv zeta.
        intros d m Hd Hm'. rewrite <- K6 by auto. rewrite Hg' by lia. apply bget_in; lia.
      + intros t Ht. rewrite Hf' by auto. auto.
    - apply ret_ok in H. destruct H as (-> & ->). auto.
  Qed.

  Lemma forward_run (grid : list T) k s Zf s' : k_forward E wrap mvn p grid (zeros3 dim N k) s = (Ok Zf, s') -> grid <> [] ->
    List.length grid <= k /\ sh Zf dim N k /\
    (forall t, List.length grid <= t -> slice Zf t = mzeros dim N) /\
    exists h s0, mvn s (k_y1 p) (divs (muls (eye dim) (k_g p)) ntwo) N = (h, s0) /\
      slice Zf 0 = mk dim N (fun d n => h n d) /\
      exists sg, sg 0 = s0 /\ sg (List.length grid - 1) = s' /\
        forall i, 1 <= i < List.length grid -> step grid i (slice Zf (i-1)) (slice Zf i) (sg (i-1)) (sg i).
  Proof.
    intros H Hne. unfold k_forward in H. destruct grid as [|t0 grid]; [congruence|]. clear Hne.
    rewrite (enumerate_cons _ _ nzero) in H. cbn [mfold] in H. apply bind_ok in H. destruct H as (Z0 & s0 & H0 & H).
    set (n := List.length (t0 :: grid)) in *. assert (En : List.length grid = n - 1) by (unfold n; cbn; lia). assert (N1 : 1 <= n) by (unfold n; cbn; lia). rewrite En in H.
    pose proof (sh_zeros (T:=T) dim N k) as HA.
    unfold k_forward_body in H0. cbn [Nat.eqb] in H0. rewrite andb_false_r in H0. apply bind_ok in H0. destruct H0 as (Z1 & s1 & H1 & H2).
    apply ret_ok in H2. destruct H2 as (-> & ->). fold dim N in H1.
    destruct (mvn s (k_y1 p) (divs (muls (eye dim) (k_g p)) ntwo) N) as (h & s2) eqn:Em. injection H1 as H1 <-.
    apply (assign_fit _ _ _ _ 0 _ _ HA) in H1. destruct H1 as (Hk & HZ1 & _ & _ & Hg & Hf).
    assert (Hk' : forall i, i < n - 1 -> Datatypes.S i < k \/ True) by auto.
    assert (Q : n <= k /\ sh Zf dim N k /\ (forall t, (forall i, i < n - 1 -> t <> Datatypes.S i) -> slice Zf t = slice Z1 t) /\
      exists sg, sg 0 = s2 /\ sg (n - 1) = s' /\ forall i, i < n - 1 -> step (t0 :: grid) (Datatypes.S i) (slice Zf i) (slice Zf (Datatypes.S i)) (sg i) (sg (Datatypes.S i))).
    { assert (Hb : forall i B sb B' sb', i < n - 1 -> sh B dim N k -> k_forward_body E wrap mvn p B (Datatypes.S i, nth (Datatypes.S i) (t0 :: grid) nzero) sb = (Ok B', sb') ->
        sh B' dim N k /\ (Datatypes.S i < k /\ step (t0 :: grid) (Datatypes.S i) (slice B i) (slice B' (Datatypes.S i)) sb sb') /\ forall t, t <> Datatypes.S i -> slice B' t = slice B t).
      { intros i B sb B' sb' Hi HB Hbd. apply (forward_step_ok (t0 :: grid) B B' (Datatypes.S i) sb sb' k HB ltac:(lia)) in Hbd.
        replace (Datatypes.S i - 1) with i in Hbd by lia. destruct Hbd as (A1 & A2 & A3 & A4). auto. }
      apply (flow_fold _ _ (fun i => Datatypes.S i) (fun i => i)
             (fun i x x' sb sb' => Datatypes.S i < k /\ step (t0 :: grid) (Datatypes.S i) x x' sb sb') dim N k) in H; auto; [|intros; lia].
      destruct H as (HZ & Hun & sg & Hs0 & Hs1 & Hst). split.
      - destruct (Nat.le_gt_cases n k); auto. destruct (Hst (n - 2) ltac:(lia)) as (X & _). lia.
      - split; [auto|]. split; [auto|]. exists sg. split; [auto|]. split; [auto|]. intros i Hi. apply Hst. auto. }
    destruct Q as (Hnk & HZ & Hun & sg & S0 & S1 & Hst). split; [auto|]. split; [auto|]. split.
    - intros t Ht. rewrite Hun by (intros; lia). rewrite Hf by lia. apply slice_zeros.
    - exists h, s2. split; [auto|]. split.
      + rewrite Hun by (intros; lia). destruct (sh_slice _ _ _ _ 0 HZ1 Hk) as (W & R & C). apply wf_eq; auto; [apply wf_mk|].
        rewrite R, C. intros a b Ha Hb'. rewrite Hg by auto. now apply bget_in.
      + exists sg. split; [auto|]. split; [auto|]. intros i Hi. specialize (Hst (i-1) ltac:(lia)). cbv beta in Hst.
        replace (Datatypes.S (i-1)) with i in Hst by lia. exact Hst.
  Qed.

  (** ** backward *)
  Lemma pin_end_ok (Zf B B' : arr3) k : sh Zf dim N k -> sh B dim N k -> 0 < k -> k_pin_end dim Zf B = Ok B' ->
    sh B' dim N k /\ slice B' (k-1) = slice Zf (k-1) /\ forall t, t <> k - 1 -> slice B' t = slice B t.
  Proof.
    intros HZ HB Hk H. unfold k_pin_end in H. apply rbind_ok in H. destruct H as (z & Hz & H).
    apply getsl_ok in Hz. destruct Hz as (j & Pj & -> & _). replace (a_k Zf) with k in Pj by (symmetry; apply HZ). rewrite pyidx_m1 in Pj by auto. injection Pj as <-.
    destruct (sh_slice _ _ _ _ (k-1) HZ ltac:(lia)) as (WZ & RZ & CZ).
    apply (rfold_seq_inv _ (fun i B1 => sh B1 dim N k /\ (forall t, t <> k - 1 -> slice B1 t = slice B t) /\
       forall a b, a < i -> a < dim -> b < N -> get (slice B1 (k-1)) a b = get (slice Zf (k-1)) a b)) in H.
    - destruct H as (HB' & Hf & Hg). split; [auto|]. split; [|auto]. destruct (sh_slice _ _ _ _ (k-1) HB' ltac:(lia)) as (W & R & C).
      apply wf_eq; auto; try congruence. rewrite R, C. intros. apply Hg; auto.
    - split; [auto|]. split; [auto|]. intros; lia.
    - intros i B0 B1 Hi (HB0 & Hf & Hg) Hs. invok.
      apply getsl_ok in E0. destruct E0 as (j & Pj & -> & _). replace (a_k B0) with k in Pj by (symmetry; apply HB0). rewrite pyidx_m1 in Pj by auto. injection Pj as <-.
      destruct (sh_slice _ _ _ _ (k-1) HB0 ltac:(lia)) as (W0 & R0 & C0).
      apply setrow_nat_ok in E1. destruct E1 as (Hi' & Ra & Ca & Wa & Hrow & Hga).
      assert (Hs' : setsl B0 (Z.of_nat (k-1)) a0 = Ok B1).
      { rewrite <- Hs. unfold setsl. replace (a_k B0) with k by (symmetry; apply HB0). rewrite pyidx_m1 by auto. now rewrite pyidx_nat by lia. }
      apply (assign_fit _ _ _ _ _ _ _ HB0) in Hs'. destruct Hs' as (_ & HB1 & _ & _ & Hg1 & Hf1).
      split; [auto|]. split; [intros t Ht; rewrite Hf1 by auto; auto|].
      intros a b Ha1 Ha Hb. rewrite Hg1 by auto. rewrite bget_in by lia.
      destruct (Nat.eqb_spec a i) as [->|Hne].
      + rewrite Hrow by lia. rewrite bget_in by (cbn; rewrite ?row_length; lia). unfold vec. rewrite get_mk by (rewrite ?row_length; lia). now rewrite nth_row by lia.
      + rewrite Hga by lia. apply Hg; auto. lia.
  Qed.

  Lemma density_ok (Zf B : arr3) gro s s' k j : sh Zf dim N k -> sh B dim N k -> j + 1 < k ->
    k_density E p Zf B (Z.of_nat (j+1)) s = (Ok gro, s') ->
    mr gro = dim /\ mc gro = N /\ exists G, phase_score_at E (k_kern p) (k_M p) (slice Zf j) (slice B (j+1)) G s s' /\
      forall d n, d < dim -> n < N -> get gro d n = get G n d.
  Proof.
    intros HZ HB Hj H. unfold k_density in H. replace (Z.of_nat (j+1) - 1)%Z with (Z.of_nat j) in H by lia. fold dim in H.
    assert (KZ : a_k Zf = k) by apply HZ. assert (KB : a_k B = k) by apply HB.
    rewrite (getsl_nat Zf), (getsl_nat B) in H by lia. destruct (sh_slice _ _ _ _ (j+1) HB Hj) as (WB & RB & CB).
    destruct (sh_slice _ _ _ _ j HZ ltac:(lia)) as (WZ & RZ & CZ). invok.
    apply inter_bnds_ok in E2. destruct E2 as (Lb & Hb). apply sample_box_ok in E3. destruct E3 as (rows & Hdr & Lr & HT & _).
    rewrite HT, lengthscales_eq in E4. pose proof (score_all_fun_shape _ _ _ _ _ _ _ _ E4 E5) as (RG & CG). cbn [mT mk mr mc] in RG, CG.
    split; [cbn; lia|]. split; [cbn; lia|]. exists a4. split.
    - exists a1, rows, a3. rewrite RB. auto.
    - intros d n Hd Hn. apply get_mT; lia.
  Qed.
  Lemma bw_density_ok (Zf B : arr3) gro s s' k j : sh Zf dim N k -> sh B dim N k -> j + 1 < k ->
    k_bw_density E p Zf B (Z.of_nat (j+1)) s = (Ok gro, s') ->
    mr gro = dim /\ mc gro = N /\ exists G, phase_score_self E (k_kern p) (k_M p) (slice Zf j) (slice B (j+1)) G s s' /\
      forall d n, d < dim -> n < N -> get gro d n = get G n d.
  Proof.
    intros HZ HB Hj H. unfold k_bw_density in H. replace (Z.of_nat (j+1) - 1)%Z with (Z.of_nat j) in H by lia. fold dim in H.
    assert (KZ : a_k Zf = k) by apply HZ. assert (KB : a_k B = k) by apply HB.
    rewrite (getsl_nat Zf), (getsl_nat B) in H by lia. destruct (sh_slice _ _ _ _ (j+1) HB Hj) as (WB & RB & CB).
    invok.
    apply inter_bnds_ok in E2. destruct E2 as (Lb & Hb). apply sample_box_ok in E3. destruct E3 as (rows & Hdr & Lr & HT & _).
    rewrite HT, lengthscales_eq in E4. pose proof (score_all_shape _ _ _ _ _ _ E4) as (RG & CG). cbn [mT mk mr mc] in RG, CG.
    split; [cbn; lia|]. split; [cbn; lia|]. exists a3. split.
    - exists a1, rows. rewrite RB. auto.
    - intros d n Hd Hn. apply get_mT; lia.
  Qed.

  Lemma back_step_ok grid (Zf B B' : arr3) i tt s s' k : sh Zf dim N k -> sh B dim N k -> List.length grid <= k -> 1 <= i -> i + 1 < List.length grid ->
    k_back_body E wrap p grid Zf B (i, tt) s = (Ok B', s') ->
    let j := List.length grid - i - 1 in
    sh B' dim N k /\
    phase_back_step E wrap (i =? 1) (k_dt p) (k_kern p) (k_M p) (k_g p) (k_f p) (nth (j+1) grid nzero) (slice Zf j) (slice B (j+1)) (slice B' j) s s' /\
    forall t, t <> j -> slice B' t = slice B t.
  Proof.
    intros HZ HB Hnk Hi1 Hi H j. unfold k_back_body in H. fold dim N in H. destruct (Nat.eqb_spec i 0); [lia|]. cbv zeta in H.
    replace (Z.of_nat (List.length grid) - Z.of_nat i)%Z with (Z.of_nat (j+1)) in H by (unfold j; lia).
    replace (Z.of_nat (j+1) - 1)%Z with (Z.of_nat j) in H by lia.
    assert (Hj : j + 1 < k) by (unfold j; lia). assert (Hjg : j + 1 < List.length grid) by (unfold j; lia).
    apply bind_ok in H. destruct H as (gro & s1 & Hg & H).
    destruct (density_ok _ _ _ _ _ _ _ HZ HB Hj Hg) as (Rg & Cg & Gz & Hsz & Hgz).
    apply bind_ok in H. destruct H as (y & s2 & Hy & H). apply lift_ok in H. destruct H as (H & ->).
    apply (assign_fit _ _ _ _ _ _ _ HB) in H. destruct H as (_ & HB' & Fr & Fc & Hgt & Hf).
    assert (F0 : fits (mmap1 wrap y) dim N) by (split; auto). destruct (mmap1_fit _ _ _ _ F0) as (F & GW).
    assert (KB : a_k B = k) by apply HB. destruct (sh_slice _ _ _ _ (j+1) HB Hj) as (WB & RB & CB).
    split; [auto|]. split; [|auto]. unfold phase_back_step. unfold smul, muls in *. destruct (i =? 1).
    - invok. rewrite getsl_nat in E0 by lia. injection E0 as <-. apply (pyget_nat_ok _ _ _ nzero) in E1. destruct E1 as (_ & ->).
      apply normal_ok in E5. destruct E5 as (W & HW & ->).
      destruct (bc2_fit _ _ _ _ _ _ Hy F) as (F1 & F2 & G). destruct (bc2_fit _ _ _ _ _ _ E4 F1) as (F3 & F4 & G1).
      destruct (bc2_fit _ _ _ _ _ _ E3 F3) as (F5 & F6 & G2). destruct (mmap1_fit _ _ _ _ F2) as (F7 & G3).
      destruct (mmap1_fit _ _ _ _ F4) as (F8 & G4). destruct (mmap1_fit _ _ _ _ F6) as (F9 & G5).
      exists a1, Gz; eexists. split; [exact Hsz|]. split; [auto|]. exists W. rewrite RB, CB. split; [auto|].
      intros d n0 Hd Hn. rewrite Hgt, GW, G, G1, G2 by auto. rewrite G3, G4, G5 by auto. rewrite bget_mk by auto.
      rewrite (bget_in (slice B (j+1))), (bget_in gro) by lia. rewrite Hgz by auto. reflexivity.
    - apply bind_ok in Hy. destruct Hy as (gb & s3 & Hgb & Hy). apply lift_ok in Hy. destruct Hy as (Hy & ->).
      destruct (bw_density_ok _ _ _ _ _ _ _ HZ HB Hj Hgb) as (Rb & Cb & Gb & Hsb & Hgb').
      invok. rewrite getsl_nat in E0 by lia. injection E0 as <-. apply (pyget_nat_ok _ _ _ nzero) in E1. destruct E1 as (_ & ->).
      destruct (bc2_fit _ _ _ _ _ _ Hy F) as (F1 & F2 & G). destruct (mmap1_fit _ _ _ _ F2) as (F3 & G0).
      destruct (bc2_fit _ _ _ _ _ _ E4 F3) as (F4 & F5 & G1). destruct (bc2_fit _ _ _ _ _ _ E3 F4) as (F6 & F7 & G2).
      destruct (mmap1_fit _ _ _ _ F7) as (F8 & G3). destruct (mmap1_fit _ _ _ _ F5) as (F9 & G4).
      exists a1, Gz; eexists. split; [exact Hsz|]. split; [auto|]. exists Gb. split; [auto|]. rewrite RB, CB.
      intros d n0 Hd Hn. rewrite Hgt, GW, G by auto. rewrite G0, G1, G2 by auto. rewrite G3, G4 by auto.
      rewrite (bget_in (slice B (j+1))), (bget_in gro), (bget_in gb) by lia. rewrite Hgz, Hgb' by auto. reflexivity.
  Qed.

  Lemma backward_run (grid : list T) (Zf : arr3) k s B s' : sh Zf dim N k -> List.length grid <= k -> 0 < k ->
    k_backward E wrap p grid Zf (zeros3 dim N k) s = (Ok B, s') -> let n := List.length grid in
    sh B dim N k /\ slice B 0 = mk dim N (fun a _ => nth a (k_y1 p) nzero) /\
    (2 <= n -> slice B (k-1) = slice Zf (k-1) /\ (n < k -> slice B (n-1) = mzeros dim N)) /\
    exists sg, sg (n - 1) = s /\ (2 <= n -> sg 1 = s') /\
      forall j, 1 <= j -> j + 1 < n ->
        phase_back_step E wrap (j =? n - 2) (k_dt p) (k_kern p) (k_M p) (k_g p) (k_f p) (nth (j+1) grid nzero)
          (slice Zf j) (slice B (j+1)) (slice B j) (sg (j+1)) (sg j).
  Proof.
    intros HZ Hnk Hk H n. unfold k_backward in H. fold dim in H. apply bind_ok in H. destruct H as (B1 & s1 & H1 & H).
    apply lift_ok in H. destruct H as (H & ->).
    assert (X : sh B1 dim N k /\ (2 <= n -> slice B1 (k-1) = slice Zf (k-1) /\ (n < k -> slice B1 (n-1) = mzeros dim N)) /\
      exists sg, sg (n - 1) = s /\ (2 <= n -> sg 1 = s1) /\
      forall j, 1 <= j -> j + 1 < n ->
        phase_back_step E wrap (j =? n - 2) (k_dt p) (k_kern p) (k_M p) (k_g p) (k_f p) (nth (j+1) grid nzero)
          (slice Zf j) (slice B1 (j+1)) (slice B1 j) (sg (j+1)) (sg j)).
    { clear H. pose proof (init_length grid) as Li. fold n in Li, Hnk. destruct (init grid) as [|t0 l] eqn:Eg.
      - cbn in H1. invok. cbn in Li. split; [apply sh_zeros|]. split; [lia|]. exists (fun _ => s1). repeat split; intros; lia.
      - rewrite (enumerate_cons _ _ nzero) in H1. cbn [mfold] in H1. apply bind_ok in H1. destruct H1 as (B0 & s0 & H0 & H1).
        cbn in Li. assert (Hn : 2 <= n) by lia. unfold k_back_body in H0 at 1. cbn [Nat.eqb] in H0. apply lift_ok in H0. destruct H0 as (H0 & ->). fold dim in H0.
        apply (pin_end_ok _ _ _ k HZ (sh_zeros _ _ _) Hk) in H0. destruct H0 as (HB0 & I & Hun0).
        replace (List.length l) with (n-2) in H1 by lia.
        apply (flow_fold _ _ (fun i => n - 2 - i) (fun i => n - 1 - i)
             (fun i => phase_back_step E wrap (i =? 0) (k_dt p) (k_kern p) (k_M p) (k_g p) (k_f p) (nth (n-1-i) grid nzero) (slice Zf (n-2-i))) dim N k) in H1; auto; try (intros; lia).
        + destruct H1 as (HB1 & Hun & sg & Hs0 & Hs1 & Hst). split; [auto|]. split.
          * intros _. split; [rewrite Hun by (intros; lia); auto|]. intro Hl. rewrite Hun by (intros; lia). rewrite Hun0 by lia. apply slice_zeros.
          * exists (fun j => sg (n - 1 - j)). split. { now rewrite Nat.sub_diag. } split. { intros _. now replace (n-1-1) with (n-2) by lia. }
            intros j Hj1 Hj. specialize (Hst (n - 2 - j) ltac:(lia)). cbv beta in Hst.
            replace (n-1-(n-2-j)) with (j+1) in Hst by lia. replace (n-2-(n-2-j)) with j in Hst by lia.
            replace (n - 1 - (j+1)) with (n-2-j) by lia. replace (n-1-j) with (Datatypes.S (n-2-j)) by lia.
            replace (j =? n-2) with (n-2-j =? 0); auto. destruct (Nat.eqb_spec (n-2-j) 0), (Nat.eqb_spec j (n-2)); auto; lia.
        + intros i Bb sb Bb' sb' Hi HBb Hbd.
          apply (back_step_ok grid Zf Bb Bb' (Datatypes.S i) _ sb sb' k) in Hbd; auto; [|lia|fold n; lia]. cbv zeta in Hbd. fold n in Hbd.
          replace (n - Datatypes.S i - 1) with (n-2-i) in Hbd by lia. replace (n-2-i+1) with (n-1-i) in Hbd by lia. exact Hbd. }
    destruct X as (HB1 & Hy2 & sg & Sk & S1 & Hst).
    apply (pin_ok _ _ _ _ _ _ _ HB1) in H. destruct H as (HB & L1 & Hex & I & Hun).
    assert (Hne : forall t, 1 <= t -> slice B t = slice B1 t). { intros t Ht. apply Hun. rewrite pyidx_0 by auto. intro Q. injection Q as Q. lia. }
    split; [auto|]. split. { apply I. now apply pyidx_0. } split.
    - intro Hn. rewrite !Hne by (fold n in Hnk; lia). auto.
    - exists sg. split; [auto|]. split; [auto|]. intros j Hj1 Hj. rewrite !Hne by lia. auto.
  Qed.
  End P.
End KL.
