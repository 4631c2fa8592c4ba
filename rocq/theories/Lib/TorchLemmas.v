(** The simulation loops of torched_DPFC as sequences of specified steps (no modelling content). *)
From Coq Require Import String List ZArith Lia Bool.
From Verif Require Import Base.Num Base.Py Base.Arr Lib.ArrLemmas Model.Ext Model.Cdist Model.Reweight Model.Score Model.ScoreTorch Model.DPFC Model.TDPFC.
From Verif Require Import Spec.FlowSpec Spec.TorchSpec Lib.FlowLemmas Lib.ScoreLemmas Lib.StepLemmas Lib.RunLemmas.
Import ListNotations.

Lemma tor_ok {A} (m : res A) a : tor m = Ok a -> m = Ok a.
Proof. destruct m as [b|[]]; cbn; congruence. Qed.

Section TorchSteps.
  Context {T S : Type} {O : NumOps T} (E : Ext T S).
  Notation mat := (mat T). Notation arr3 := (arr3 T).

  Lemma tbc2_ok op (A B C : mat) : tbc2 op A B = Ok C -> bc2 op A B = Ok C.
  Proof. apply tor_ok. Qed.
  Lemma tmmul_ok (A B C : mat) : tmmul A B = Ok C -> mmul A B = Ok C.
  Proof. apply tor_ok. Qed.
  Lemma tsetsl_ok (A A' : arr3) t src : tsetsl A t src = Ok A' -> setsl A t src = Ok A'.
  Proof. apply tor_ok. Qed.

  Ltac detor :=
    repeat match goal with
    | H : tbc2 _ _ _ = Ok _ |- _ => apply tbc2_ok in H
    | H : tmmul _ _ = Ok _ |- _ => apply tmmul_ok in H
    | H : tsetsl _ _ _ = Ok _ |- _ => apply tsetsl_ok in H
    | H : tor _ = Ok _ |- _ => apply tor_ok in H
    end.

  Lemma t_em_is_em g fd dim N (x y : mat) t s s' :
    t_em_step E g fd dim N x t s = (Ok y, s') -> em_step E g fd dim N x t s = (Ok y, s').
  Proof.
    unfold t_em_step, em_step. intro H. invok. detor.
    unfold bind, lift. rewrite E0, E1, E2. cbn [rbind]. rewrite E3. cbn [rbind]. now rewrite H.
  Qed.

  Lemma t_bw_stoch_is p (x y gro : mat) t s s' :
    t_bw_stoch_step E p x t gro s = (Ok y, s') -> bw_stoch_step E p x t gro s = (Ok y, s').
  Proof.
    unfold t_bw_stoch_step, bw_stoch_step. intro H. invok. detor.
    unfold bind, lift. rewrite E0, E1, E2, E3, E4. cbn [rbind]. rewrite E5. cbn [rbind]. now rewrite H.
  Qed.
  Lemma t_bw_det_is (p : params T) (x gro gb y : mat) t :
    t_bw_det_step p x t gro gb = Ok y -> bw_det_step p x t gro gb = Ok y.
  Proof.
    unfold t_bw_det_step, bw_det_step. intro H. invok. detor.
    rewrite E0; cbn [rbind]. rewrite E1; cbn [rbind]. rewrite E2; cbn [rbind]. rewrite E3; cbn [rbind]. rewrite E4; cbn [rbind]. auto.
  Qed.

  Lemma tlengthscales_eq (x : mat) : two_tstd x = tlengthscales x.
  Proof. unfold two_tstd, tlengthscales, tstd1. now rewrite map_map. Qed.

  Lemma t_sample_box_ok m bnds s P s' : t_sample_box E m bnds s = (Ok P, s') -> tdrawn E m s bnds P s'.
  Proof.
    unfold t_sample_box. destruct (forallb _ bnds) eqn:Q; [|discriminate].
    destruct (x_tuniform E s (map fst bnds) (map snd bnds) m) as [h s1] eqn:Hx. intro H. injection H as <- <-.
    split; [|exists h; auto]. intros d Hd. rewrite forallb_forall in Q. apply Q. now apply nth_In.
  Qed.

  Lemma hull_bnd_ok (z b : mat) d r : hull_bnd z b d = Ok r -> union_range z b d r.
  Proof.
    unfold hull_bnd. intro H. invok. detor. exists (a, a1), (a0, a2). unfold range_of. simpl. auto.
  Qed.
  Lemma hull_bnds_ok dim (z b : mat) bnds : hull_bnds dim z b = Ok bnds ->
    List.length bnds = dim /\ forall d, d < dim -> union_range z b d (nth d bnds (nzero, nzero)).
  Proof.
    unfold hull_bnds. intro H. apply (rmapM_seq_ok _ _ _ (nzero, nzero)) in H. destruct H as (Hl & Hn).
    split; auto. intros d Hd. apply hull_bnd_ok. auto.
  Qed.
  Lemma dens_bnd_ok (z b : mat) d r : dens_bnd z b d = Ok r -> dens_range z b d r.
  Proof.
    unfold dens_bnd. intro H. apply rbind_ok in H. destruct H as (blo & H1 & H). apply rbind_ok in H. destruct H as (bhi & H2 & H).
    apply tor_ok in H1, H2. exists (blo, bhi). split; [split; auto|]. cbn [fst snd]. destruct (neqb blo bhi).
    - invok. detor. unfold range_of. auto.
    - now apply hull_bnd_ok.
  Qed.

  (** shapes of the estimator *)
  Lemma rbf_vals_shape l (X Y k : mat) : rbf_vals l X Y = Ok k -> mr k = mr X /\ mc k = mr Y.
  Proof.
    unfold rbf_vals. destruct (bok (mc X) (mc Y)); [|discriminate]. destruct l as [l0|ls].
    - intro H. injection H as <-. auto.
    - destruct (bok (bdim (mc X) (mc Y)) (List.length ls)); [|discriminate]. intro H. injection H as <-. auto.
  Qed.
  Lemma tprep_ok (X Zp : mat) ls b K_xz Ki A s : 1 < List.length ls ->
    tprep E X Zp (TTens1 ls) = Ok (b, K_xz, Ki, A, s) ->
    bok (mc X) (mc Zp) = true /\ bok (bdim (mc X) (mc Zp)) (List.length ls) = true /\
    mc s = bdim (bdim (mc X) (mc Zp)) (List.length ls).
  Proof.
    intros Hl H. unfold tprep in H. cbn [tl_multil rbind] in H.
    assert ((1 <? List.length ls) = true) as Q by now apply Nat.ltb_lt. rewrite Q in H. clear Q.
    cbn [tl_lscale RBF_init rbind] in H.
    apply rbind_ok in H. destruct H as ((K1 & R1) & HK1 & H).
    cbn [rbind] in H. apply rbind_ok in H. destruct H as ((K2 & R2) & HK2 & H).
    apply rbind_ok in H. destruct H as (a & Ha & H). apply rbind_ok in H. destruct H as (Ki' & HKi & H).
    apply rbind_ok in H. destruct H as (A' & HA & H). apply rbind_ok in H. destruct H as (G & HG & H).
    injection H as _ _ _ _ <-. unfold RBF_Kernel in HK1. cbn [rb_l] in HK1. apply rbind_ok in HK1. destruct HK1 as (k & Hk & HK1).
    injection HK1 as _ <-. unfold RBF_gradient_X in HG. cbn [rb_l rb_K] in HG.
    destruct (bok (mc X) (mc Zp)) eqn:B1; [|discriminate].
    destruct (bok (bdim (mc X) (mc Zp)) (List.length ls)) eqn:B2; [|discriminate].
    cbn [rbind] in HG. destruct (bok _ _ && bok _ _); [|discriminate]. injection HG as <-. cbn.
    rewrite map_length, seq_length. auto.
  Qed.
  Lemma torch_score_shape (X Zp G : mat) l C kern :
    torched_score_function_multid_seperate_all_dims E X Zp l C kern = Ok G -> wf G /\ mr G = mr X /\ mc G = mc Zp.
  Proof.
    unfold torched_score_function_multid_seperate_all_dims. intro H. apply rbind_ok in H.
    destruct H as (((((b & K_xz) & Ki) & A) & s) & H0 & H). apply rbind_ok in H. destruct H as (cols & _ & H).
    injection H as <-. split; [apply wf_mk|]. auto.
  Qed.
  Lemma torch_score_fun_shape (X Zp G x : mat) l C kern fn b :
    torched_score_function_multid_seperate_all_dims_fun E X Zp l C kern = Ok fn -> fn b x = Ok G ->
    exists b' K Ki A s, tprep E X Zp l = Ok (b', K, Ki, A, s) /\ wf G /\ mr G = mr x /\ mc G = mc s.
  Proof.
    unfold torched_score_function_multid_seperate_all_dims_fun. intro H. apply rbind_ok in H.
    destruct H as (((((b' & K_xz) & Ki) & A) & s) & H0 & H). injection H as <-. intro H.
    exists b', K_xz, Ki, A, s. split; [auto|]. invok. detor. apply mmul_ok in H, E3, E2.
    destruct H as (_ & W & R & C0 & _). destruct E3 as (_ & _ & R3 & _). destruct E2 as (_ & _ & R2 & _).
    assert (Rk : mr a = mr x).
    { unfold tKsz in E0. destruct (String.eqb kern "RBF"); [|discriminate]. destruct b'.
      - destruct l; try discriminate; eapply rbf_vals_shape; eauto.
      - destruct b; [discriminate|]. destruct (tl_lscale l) as [|[|? [|]]]; eapply rbf_vals_shape; eauto. }
    split; [auto|]. split; congruence.
  Qed.

  Lemma t_f_step_ok m g fd (x y : mat) t s s' dim N : wf x -> mr x = dim -> mc x = N ->
    t_det_step (t_f_seperate E m g fd) x t s = (Ok y, s') -> fits y dim N ->
    forall x', (forall a b, a < dim -> b < N -> get x' a b = bget y a b) ->
    t_flow_step E dt m g fd (nsub t dt) x x' s s'.
  Proof.
    intros Wx Hr Hc H F x' Hx'. unfold t_det_step in H. apply bind_ok in H. destruct H as (dr & s1 & Hd & H).
    apply lift_ok in H. destruct H as (H & ->). apply tbc2_ok in H.
    unfold t_f_seperate, t_own_bnds in Hd. invok. detor.
    apply own_bnds_ok in E0. destruct E0 as (Lb & Hb).
    apply t_sample_box_ok in E1. pose proof E1 as (_ & h & _ & HP).
    rewrite tlengthscales_eq in E2. pose proof (torch_score_shape _ _ _ _ _ _ E2) as (WG & RG & CG).
    assert (RG' : mr a1 = N) by (rewrite RG; exact Hc).
    assert (CG' : mc a1 = dim). { rewrite CG, HP. cbn. lia. }
    destruct (bc2_fit _ _ _ _ _ _ H F) as (F1 & F2 & G).
    destruct (mmap1_fit _ _ _ _ F2) as (F3 & G1).
    destruct (bc2_fit _ _ _ _ _ _ Hd F3) as (F4 & F5 & G2).
    destruct (bc2_fit _ _ _ _ _ _ E4 F5) as (F6 & F7 & G3).
    destruct (mmap1_fit _ _ _ _ F6) as (F8 & G4). destruct (mmap1_fit _ _ _ _ F8) as (F9 & G5).
    exists a2, a, a0, a1. split; [auto|]. split; [auto|]. split; [auto|]. split; [auto|]. split; [auto|].
    split; [congruence|]. split; [congruence|].
    rewrite Hr, Hc. intros d n Hd' Hn. rewrite Hx', G by auto. unfold smul. rewrite G1, G2, G3 by auto.
    unfold smul, msq. rewrite G4, G5 by auto. rewrite (bget_in x) by lia. rewrite (bget_in (mT a1)) by (cbn; lia).
    rewrite get_mT by lia. reflexivity.
  Qed.

  Lemma t_reweight_slice_ok N (e x y : mat) : wf x -> mc x = N ->
    t_reweight_slice E N e x = Ok y ->
    fits e 1 N /\ wf y /\ mr y = mr x /\ mc y = N /\ t_reweighted E (fun n => bget e 0 n) x y.
  Proof.
    intros Wx Hc H. unfold t_reweight_slice in H. apply rbind_ok in H. destruct H as (w & Hw & H). apply tor_ok in Hw.
    apply rbind_ok in H. destruct H as (c & HC & H). apply weights_of_ok in Hw. destruct Hw as (F & Hw).
    split; [auto|]. unfold t_cost in HC. apply rbind_ok in HC. destruct HC as (c0 & H0 & HC).
    apply rbind_ok in HC. destruct HC as (mx & Hmx & HC). apply tor_ok in Hmx. injection HC as <-.
    unfold ot_dist, cdist_sq in H0. rewrite Nat.eqb_refl in H0. injection H0 as <-.
    apply tmmul_ok, mmul_ok in H. destruct H as (_ & Wy & Ry & Cy & Gy).
    split; [auto|]. split; [auto|]. split. { rewrite Cy. reflexivity. }
    unfold t_reweighted. rewrite Hc. cbv zeta in Hw |- *. rewrite <- Hw.
    assert (Hsq : forall a b, a < N -> b < N -> sqdist (mT x) (mT x) a b =
         nsum (map (fun d => nsq (nsub (get x d a) (get x d b))) (seq 0 (mr x)))).
    { intros a b Ha Hb. unfold sqdist. cbn [mc mT mk]. f_equal. apply map_seq_ext. intros d Hd.
      now rewrite !get_mT by lia. }
    exists mx, (divs (mk (mr (mT x)) (mr (mT x)) (fun i j => sqdist (mT x) (mT x) i j)) mx). eexists. split.
    { rewrite <- Hmx. f_equal. rewrite !flat_map_concat_map. f_equal. cbn [mr mk mT]. rewrite Hc.
      apply map_seq_ext. intros i Hi. unfold row. cbn [mc mk mT mr]. rewrite ?Hc. apply map_seq_ext. intros j Hj.
      rewrite get_mk by auto. symmetry. now apply Hsq. }
    split; [apply wf_rect, wf_mk|]. split; [cbn; auto|]. split; [cbn; auto|]. split; [|split; [reflexivity|]].
    - intros i j Hi Hj. unfold divs. rewrite get_mmap1 by (cbn; lia). cbn [mr mc mk mT]. rewrite ?Hc. rewrite get_mk by auto. now rewrite Hsq.
    - intros d n Hd Hn. rewrite Gy.
      + cbn [mc smul mmap1 mk]. rewrite Hc. f_equal. apply map_seq_ext. intros m Hm. unfold smul. rewrite get_mmap1 by lia.
        rewrite get_mk by lia. cbn [mr mT mk]. rewrite ?Hc. reflexivity.
      + cbn. lia.
      + cbn. lia.
  Qed.

  (** ** backward steps *)
  Lemma t_density_ok p kern (Zf B : arr3) t gro s s' dim N k j :
    dim = List.length (p_y1 p) -> N = p_N p -> sh Zf dim N k -> sh B dim N k -> j < k -> t = Z.of_nat j -> 1 <= dim ->
    t_density_estimation E p kern Zf B t s = (Ok gro, s') -> exists G,
      t_score_of_at E kern (p_M p) (slice Zf j) (slice B j) G s s' /\ 2 <= dim /\ mr gro = dim /\ mc gro = N /\
      forall d n, d < dim -> n < N -> get gro d n = get G n d.
  Proof.
    intros Hdim HN HZ HB Hj -> Hd1 H. unfold t_density_estimation in H. rewrite <- Hdim in H.
    assert (KZ : a_k Zf = k) by apply HZ. assert (KB : a_k B = k) by apply HB.
    rewrite (getsl_nat Zf) in H by lia. rewrite (getsl_nat B) in H by lia.
    destruct (sh_slice _ _ _ _ j HB Hj) as (WB & RB & CB). destruct (sh_slice _ _ _ _ j HZ Hj) as (WZ & RZ & CZ).
    invok. apply (rmapM_seq_ok _ _ _ (nzero, nzero)) in E2. destruct E2 as (Lb & Hb).
    apply t_sample_box_ok in E3. pose proof E3 as (_ & h & _ & HP). rewrite tlengthscales_eq in E4.
    destruct (torch_score_fun_shape _ _ _ _ _ _ _ _ _ E4 E5) as (b' & K & Ki & A & s0 & Htp & WG & RG & CG).
    cbn [mr mT mk] in RG.
    assert (Hls : List.length (tlengthscales (slice Zf j)) = dim) by (unfold tlengthscales; now rewrite map_length, seq_length, RZ).
    assert (H2 : 2 <= dim).
    { destruct (Nat.eq_dec dim 1) as [D1|]; [|lia]. exfalso.
      unfold torched_score_function_multid_seperate_all_dims_fun in E4. rewrite Htp in E4. cbn [rbind] in E4. injection E4 as <-.
      assert (b' = false).
      { unfold tprep in Htp. cbn [tl_multil rbind] in Htp. rewrite Hls, D1 in Htp. cbn [Nat.ltb Nat.leb] in Htp. 
        destruct (RBF_init _ none1 false); [|discriminate]. cbn [rbind] in Htp. apply rbind_ok in Htp. destruct Htp as ((? & ?) & _ & Htp).
        cbn [rbind] in Htp. apply rbind_ok in Htp. destruct Htp as ((? & ?) & _ & Htp). invok. congruence. }
      subst b'. unfold tKsz in E5. destruct (String.eqb kern "RBF"); discriminate. }
    apply tprep_ok in Htp; [|lia]. destruct Htp as (_ & _ & Hs0).
    assert (CG' : mc a4 = dim).
    { rewrite CG, Hs0, Hls, HP. cbn [mc mT mk]. rewrite RZ, Lb, bdim_refl. apply bdim_refl. }
    exists a4. split.
    - exists a1, a2, a3. rewrite RB, CB. split; [auto|]. split. { intros d Hd. apply dens_bnd_ok. auto. } split; [auto|]. split; [auto|].
      split; [auto|]. split; [congruence|auto].
    - split; [auto|]. subst gro. cbn [mr mc mT mk]. split; [congruence|]. split; [congruence|].
      intros d n Hd Hn. apply get_mT; lia.
  Qed.

  Lemma t_bw_density_ok p kern (Zf B : arr3) t gro s s' dim N k j :
    dim = List.length (p_y1 p) -> N = p_N p -> sh Zf dim N k -> sh B dim N k -> j < k -> t = Z.of_nat j ->
    t_bw_density_estimation E p kern Zf B t s = (Ok gro, s') ->
      t_score_of_self E kern (p_M p) (slice Zf j) (slice B j) gro s s' /\ mr gro = N /\ mc gro = dim.
  Proof.
    intros Hdim HN HZ HB Hj -> H. unfold t_bw_density_estimation in H. rewrite <- Hdim in H.
    assert (KZ : a_k Zf = k) by apply HZ. assert (KB : a_k B = k) by apply HB.
    rewrite (getsl_nat Zf) in H by lia. rewrite (getsl_nat B) in H by lia.
    destruct (sh_slice _ _ _ _ j HB Hj) as (WB & RB & CB).
    invok. apply hull_bnds_ok in E2. destruct E2 as (Lb & Hb).
    apply t_sample_box_ok in E3. pose proof E3 as (_ & h & _ & HP). rewrite tlengthscales_eq in H.
    pose proof (torch_score_shape _ _ _ _ _ _ H) as (WG & RG & CG). cbn [mr mT mk] in RG.
    assert (mc gro = dim) by (rewrite CG, HP; cbn; lia). assert (mr gro = N) by congruence.
    split; [|auto]. exists a1, a2. rewrite RB, CB. auto 10.
  Qed.

  (** ** loops *)
  Definition t_otto_step (p : params T) (grid : list T) (i : nat) : mat -> mat -> S -> S -> Prop :=
    if p_reweight p then
      t_weighted_step E dt (p_M p) (p_g p) (call2 (p_f p)) (ocall2 (p_U p)) i (nth i grid nzero)
    else t_plain_step E dt (p_M p) (p_g p) (call2 (p_f p)) i (nth i grid nzero).

  Lemma t_plain_step_ok m g fd (Zf Z1 : arr3) i t s s' dim N k y :
    sh Zf dim N k -> i < k -> 0 < i ->
    (if i =? 1 then t_em_step E g fd dim N (slice Zf (i-1)) t
     else t_det_step (t_f_seperate E m g fd) (slice Zf (i-1)) t) s = (Ok y, s') ->
    setsl Zf (Z.of_nat i) y = Ok Z1 ->
    sh Z1 dim N k /\ t_plain_step E dt m g fd i t (slice Zf (i-1)) (slice Z1 i) s s' /\
    forall t, t <> i -> slice Z1 t = slice Zf t.
  Proof.
    intros HZ Hi Hp Hs Ha. apply (assign_fit _ _ _ _ _ _ _ HZ) in Ha.
    destruct Ha as (_ & HZ1 & Fr & Fc & Hg & Hf). assert (F : fits y dim N) by (split; auto).
    destruct (sh_slice _ _ _ _ (i-1) HZ ltac:(lia)) as (W & R & C).
    split; [auto|]. split; [|auto]. unfold t_plain_step. destruct (i =? 1).
    - apply t_em_is_em in Hs. eapply em_step_ok; eauto.
    - eapply t_f_step_ok; eauto.
  Qed.

  Lemma t_reweight_frame (Z1 Z' : arr3) i dim N k (e : mat) y : sh Z1 dim N k -> i < k ->
    t_reweight_slice E N e (slice Z1 i) = Ok y -> setsl Z1 (Z.of_nat i) y = Ok Z' ->
    sh Z' dim N k /\ fits e 1 N /\ t_reweighted E (fun n => bget e 0 n) (slice Z1 i) (slice Z' i) /\
    forall t, t <> i -> slice Z' t = slice Z1 t.
  Proof.
    intros HZ1 Hi Hy H. destruct (sh_slice _ _ _ _ i HZ1 Hi) as (W1 & R1 & C1).
    apply t_reweight_slice_ok in Hy; auto. destruct Hy as (F & Wy & Ry & Cy & Hrw).
    apply (assign_fit _ _ _ _ _ _ _ HZ1) in H. destruct H as (_ & HZ' & _ & _ & Hg & Hf).
    split; [auto|]. split; [auto|]. split; [|auto].
    unfold t_reweighted in Hrw |- *. cbv zeta in Hrw |- *. destruct Hrw as (mx & cost & flow & K0 & K & K1 & K2 & K3 & K4 & K5).
    exists mx, cost, flow. split; [auto|]. split; [auto|]. split; [auto|]. split; [auto|]. split; [auto|]. split; [auto|].
    intros d n Hd Hn. rewrite <- K5 by auto. rewrite Hg by lia. apply bget_in; lia.
  Qed.
  Lemma t_reweighted_ext (e e' : nat -> T) (y x' : mat) : (forall n, n < mc y -> e n = e' n) -> t_reweighted E e y x' -> t_reweighted E e' y x'.
  Proof.
    intros He. unfold t_reweighted. cbv zeta.
    assert (Q : map (fun n => nexp (e n)) (seq 0 (mc y)) = map (fun n => nexp (e' n)) (seq 0 (mc y))).
    { apply map_seq_ext. intros n Hn. now rewrite He. }
    now rewrite Q.
  Qed.

  Lemma t_otto_step_ok p grid (Zf Z' : arr3) i s s' dim N k :
    dim = List.length (p_y1 p) -> N = p_N p -> sh Zf dim N k -> i < k -> 0 < i ->
    t_otto_body E p Zf (i, nth i grid nzero) s = (Ok Z', s') ->
    sh Z' dim N k /\ t_otto_step p grid i (slice Zf (i-1)) (slice Z' i) s s' /\
    forall t, t <> i -> slice Z' t = slice Zf t.
  Proof.
    intros Hdim HN HZ Hi Hp H. unfold t_otto_body in H. rewrite <- Hdim, <- HN in H.
    destruct (Nat.eqb_spec i 0); [lia|].
    apply bind_ok in H. destruct H as (Z1 & s1 & H1 & H).
    apply bind_ok in H1. destruct H1 as (x & s2 & Hx & H1). apply lift_ok in Hx. destruct Hx as (Hx & ->).
    replace (Z.of_nat i - 1)%Z with (Z.of_nat (i-1)) in Hx by lia.
    rewrite getsl_nat in Hx by (destruct HZ as (_ & _ & _ & ->); lia). injection Hx as <-.
    apply bind_ok in H1. destruct H1 as (y & s3 & Hy & H1). apply lift_ok in H1. destruct H1 as (H1 & ->). apply tsetsl_ok in H1.
    destruct (t_plain_step_ok _ _ _ _ _ _ _ _ _ _ _ _ _ HZ Hi Hp Hy H1) as (HZ1 & Hst & Hfr).
    unfold t_otto_step. destruct (p_reweight p); cbn [andb] in H.
    - destruct (Nat.ltb_spec 0 i); [|lia]. apply lift_ok in H. destruct H as (H & ->). invok. detor.
      rewrite getsl_nat in E0 by (destruct HZ1 as (_ & _ & _ & ->); lia). injection E0 as <-.
      destruct (sh_slice _ _ _ _ i HZ1 Hi) as (W1 & R1 & C1).
      destruct (sh_slice _ _ _ _ (i-1) HZ ltac:(lia)) as (W0 & R0 & C0).
      destruct (t_reweight_frame _ _ _ _ _ _ _ _ HZ1 Hi E2 H) as (HZ' & F & Hrw & Hf).
      split; [auto|]. split.
      + exists (slice Z1 i), a0. split; [now apply wf_rect|]. split; [congruence|]. split; [congruence|]. split; [auto|]. split; [auto|].
        unfold muls in F, Hrw. destruct (mmap1_fit _ _ _ _ F) as (F' & G).
        eapply t_reweighted_ext; [|exact Hrw]. intros j Hj. cbv beta. rewrite G by lia. reflexivity.
      + intros t Ht. rewrite Hf by auto. auto.
    - apply ret_ok in H. destruct H as (-> & ->). auto.
  Qed.

  Lemma t_otto_run p (grid : list T) s Z s' : let dim := List.length (p_y1 p) in let k := List.length grid in
    t_forward_sampling_Otto E p grid (zeros3 dim (p_N p) k) s = (Ok Z, s') -> 0 < k ->
    sh Z dim (p_N p) k /\ (p_brown p = true -> dim <= List.length (p_y2 p)) /\
    slice Z 0 = mk dim (p_N p) (fun a _ => if p_brown p && (k =? 1) then nth a (p_y2 p) nzero else nth a (p_y1 p) nzero) /\
    exists sg, sg 0 = s /\ sg (k - 1) = s' /\
      forall i, 1 <= i < k -> t_otto_step p grid i (slice Z (i-1)) (slice Z i) (sg (i-1)) (sg i).
  Proof.
    intros dim k H Hk. unfold t_forward_sampling_Otto in H. subst k. destruct grid as [|t0 grid]; [simpl in Hk; lia|].
    rewrite (enumerate_cons _ _ nzero) in H. cbn [mfold] in H.
    apply bind_ok in H. destruct H as (Z0 & s0 & H0 & H).
    set (k := List.length (t0 :: grid)) in *. assert (Ek : List.length grid = k - 1) by (unfold k; simpl; lia).
    pose proof (sh_zeros (T:=T) dim (p_N p) k) as HA.
    assert (I : otto_init (p_brown p) (p_y1 p) (p_y2 p) dim (zeros3 dim (p_N p) k) = Ok Z0 /\ s0 = s).
    { unfold t_otto_body in H0. cbn [Nat.eqb] in H0. rewrite andb_false_r in H0. apply bind_ok in H0.
      destruct H0 as (? & ? & H1 & H2). apply lift_ok in H1. apply ret_ok in H2. destruct H1 as (H1 & ->).
      destruct H2 as (-> & ->). auto. }
    destruct I as (I & ->). clear H0. apply (otto_init_ok _ _ _ _ _ _ _ _ HA Hk) in I. destruct I as (HZ0 & L1 & L2 & I).
    rewrite Ek in H.
    apply (flow_fold _ _ (fun i => Datatypes.S i) (fun i => i)
             (fun i => t_otto_step p (t0 :: grid) (Datatypes.S i)) dim (p_N p) k) in H; auto.
    - destruct H as (HZ & Hun & sg & Hs0 & Hs1 & Hst). split; [auto|]. split; [auto|]. split.
      + rewrite Hun by (intros; lia). rewrite I by lia. apply mk_ext. intros a b _ _.
        destruct (p_brown p); cbn [andb]; [|reflexivity].
        replace (0 =? k - 1) with (k =? 1); [reflexivity|].
        destruct (Nat.eqb_spec k 1), (Nat.eqb_spec 0 (k-1)); auto; lia.
      + exists sg. split; [auto|]. split; [auto|]. intros i Hi. specialize (Hst (i-1) ltac:(lia)).
        replace (Datatypes.S (i-1)) with i in Hst by lia. exact Hst.
    - intros; lia.
    - intros i B sb B' sb' Hi HB Hbd. apply t_otto_step_ok with (dim := dim) (N := p_N p) (k := k) in Hbd; auto; try lia.
      replace (Datatypes.S i - 1) with i in Hbd by lia. exact Hbd.
  Qed.

  (** the auxiliary flow of the bridge mode: shape, start and, step by step, the fact that f_seperate_true returned *)
  Definition t_true_step (p : params T) (kern : string) (i : nat) (t : T) (x x' : mat) (s s' : S) : Prop :=
    if i =? 1 then noisy_step E dt (p_g p) (ocall2 (p_f_true p)) (nsub t dt) x x' s s'
    else exists y, t_det_step (t_f_seperate_true E kern (p_M p) (p_g p) (ocall2 (p_f_true p))) x t s = (Ok y, s').
  Lemma t_otto_true_run p kern (grid : list T) s Z s' : let dim := List.length (p_y1 p) in let k := List.length grid in
    t_forward_sampling_Otto_true E p kern grid (zeros3 dim (p_N p) k) s = (Ok Z, s') -> 0 < k ->
    sh Z dim (p_N p) k /\
    slice Z 0 = mk dim (p_N p) (fun a _ => nth a (p_y1 p) nzero) /\
    exists sg, sg 0 = s /\ sg (k - 1) = s' /\
      forall i, 1 <= i < k -> t_true_step p kern i (nth i grid nzero) (slice Z (i-1)) (slice Z i) (sg (i-1)) (sg i).
  Proof.
    intros dim k H Hk. unfold t_forward_sampling_Otto_true in H. subst k. destruct grid as [|t0 grid]; [simpl in Hk; lia|].
    rewrite (enumerate_cons _ _ nzero) in H. cbn [mfold] in H.
    apply bind_ok in H. destruct H as (Z0 & s0 & H0 & H).
    set (k := List.length (t0 :: grid)) in *. assert (Ek : List.length grid = k - 1) by (unfold k; simpl; lia).
    pose proof (sh_zeros (T:=T) dim (p_N p) k) as HA.
    unfold t_otto_true_body in H0 at 1. cbn [Nat.eqb] in H0. apply lift_ok in H0. destruct H0 as (H0 & ->).
    apply (pin_ok _ _ _ _ _ _ _ HA) in H0. destruct H0 as (HZ0 & L1 & _ & I & _).
    specialize (I 0 (pyidx_0 _ Hk)).
    rewrite Ek in H.
    apply (flow_fold _ _ (fun i => Datatypes.S i) (fun i => i)
             (fun i => t_true_step p kern (Datatypes.S i) (nth (Datatypes.S i) (t0 :: grid) nzero)) dim (p_N p) k) in H; auto.
    - destruct H as (HZ & Hun & sg & Hs0 & Hs1 & Hst). split; [auto|]. split.
      + rewrite Hun by (intros; lia). exact I.
      + exists sg. split; [auto|]. split; [auto|]. intros i Hi. specialize (Hst (i-1) ltac:(lia)).
        replace (Datatypes.S (i-1)) with i in Hst by lia. exact Hst.
    - intros; lia.
    - intros i B sb B' sb' Hi HB Hbd. unfold t_otto_true_body in Hbd. cbn [Nat.eqb] in Hbd.
      apply bind_ok in Hbd. destruct Hbd as (x & s2 & Hx & H1). apply lift_ok in Hx. destruct Hx as (Hx & ->).
      replace (Z.of_nat (Datatypes.S i) - 1)%Z with (Z.of_nat i) in Hx by lia.
      rewrite getsl_nat in Hx by (destruct HB as (_ & _ & _ & ->); lia). injection Hx as <-.
      apply bind_ok in H1. destruct H1 as (y & s3 & Hy & H1). apply lift_ok in H1. destruct H1 as (H1 & ->). apply tsetsl_ok in H1.
      destruct (sh_slice _ _ _ _ i HB ltac:(lia)) as (W & R & C).
      apply (assign_fit _ _ _ _ _ _ _ HB) in H1. destruct H1 as (_ & HB' & Fr & Fc & Hg & Hf).
      split; [auto|]. split; [|auto]. unfold t_true_step. cbn [Nat.eqb]. destruct (i =? 0).
      + apply t_em_is_em in Hy. eapply em_step_ok; eauto. split; auto.
      + eauto.
  Qed.

  (** stochastic mode *)
  Definition t_stoch_step (p : params T) (i : nat) (t : T) : mat -> mat -> S -> S -> Prop :=
    if p_reweight p then t_stoch_weighted_step E dt (p_g p) (call2 (p_f p)) (ocall1 (p_U p)) t
    else noisy_step E dt (p_g p) (call2 (p_f p)) (nsub t dt).
  Lemma t_stoch_step_ok p (Zf Z' : arr3) i tt s s' dim N k :
    dim = List.length (p_y1 p) -> N = p_N p -> sh Zf dim N k -> i < k -> 0 < i ->
    t_stoch_body E p Zf (i, tt) s = (Ok Z', s') ->
    sh Z' dim N k /\ t_stoch_step p i tt (slice Zf (i-1)) (slice Z' i) s s' /\
    forall t, t <> i -> slice Z' t = slice Zf t.
  Proof.
    intros Hdim HN HZ Hi Hp H. unfold t_stoch_body in H. rewrite <- Hdim, <- HN in H.
    destruct (Nat.eqb_spec i 0); [lia|].
    apply bind_ok in H. destruct H as (x & s2 & Hx & H). apply lift_ok in Hx. destruct Hx as (Hx & ->).
    replace (Z.of_nat i - 1)%Z with (Z.of_nat (i-1)) in Hx by lia.
    rewrite getsl_nat in Hx by (destruct HZ as (_ & _ & _ & ->); lia). injection Hx as <-.
    apply bind_ok in H. destruct H as (y & s3 & Hy & H). apply t_em_is_em in Hy.
    apply bind_ok in H. destruct H as (Z1 & s4 & H1 & H). apply lift_ok in H1. destruct H1 as (H1 & ->). apply tsetsl_ok in H1.
    apply (assign_fit _ _ _ _ _ _ _ HZ) in H1. destruct H1 as (_ & HZ1 & Fr & Fc & Hg & Hfr).
    destruct (sh_slice _ _ _ _ (i-1) HZ ltac:(lia)) as (W0 & R0 & C0).
    assert (Hst : noisy_step E dt (p_g p) (call2 (p_f p)) (nsub tt dt) (slice Zf (i-1)) (slice Z1 i) s s3).
    { eapply em_step_ok; eauto. split; auto. }
    unfold t_stoch_step. destruct (p_reweight p).
    - apply lift_ok in H. destruct H as (H & ->). invok. detor.
      rewrite getsl_nat in E0 by (destruct HZ1 as (_ & _ & _ & ->); lia). injection E0 as <-.
      destruct (sh_slice _ _ _ _ i HZ1 Hi) as (W1 & R1 & C1).
      destruct (t_reweight_frame _ _ _ _ _ _ _ _ HZ1 Hi E2 H) as (HZ' & F & Hrw & Hf).
      split; [auto|]. split.
      + exists (slice Z1 i), a0. split; [now apply wf_rect|]. split; [congruence|]. split; [congruence|]. split; [auto|]. split; [auto|]. exact Hrw.
      + intros t Ht. rewrite Hf by auto. auto.
    - apply ret_ok in H. destruct H as (-> & ->). auto.
  Qed.

  Lemma t_stoch_run p (grid : list T) s Z s' : let dim := List.length (p_y1 p) in let k := List.length grid in
    t_forward_sampling E p grid (zeros3 dim (p_N p) k) s = (Ok Z, s') -> 0 < k ->
    sh Z dim (p_N p) k /\ 2 <= dim /\
    slice Z 0 = mk dim (p_N p) (fun a _ => if a <? 2 then nth a (p_y1 p) nzero else nzero) /\
    exists sg, sg 0 = s /\ sg (k - 1) = s' /\
      forall i, 1 <= i < k -> t_stoch_step p i (nth i grid nzero) (slice Z (i-1)) (slice Z i) (sg (i-1)) (sg i).
  Proof.
    intros dim k H Hk. unfold t_forward_sampling in H. subst k. destruct grid as [|t0 grid]; [simpl in Hk; lia|].
    rewrite (enumerate_cons _ _ nzero) in H. cbn [mfold] in H.
    apply bind_ok in H. destruct H as (Z0 & s0 & H0 & H).
    set (k := List.length (t0 :: grid)) in *. assert (Ek : List.length grid = k - 1) by (unfold k; simpl; lia).
    pose proof (sh_zeros (T:=T) dim (p_N p) k) as HA.
    unfold t_stoch_body in H0 at 1. cbn [Nat.eqb] in H0. apply lift_ok in H0. destruct H0 as (H0 & ->).
    invok. apply (pyget_nat_ok _ 0 _ nzero) in E0. destruct E0 as (L0 & ->).
    apply (pyget_nat_ok _ 1 _ nzero) in E2. destruct E2 as (L1 & ->).
    pose proof HA as (WA & DA & NA & KA).
    apply (setrow3_ok _ 0) in E1; auto. destruct E1 as (j & Pj & Jk & Id & WB & ->).
    rewrite KA, pyidx_0 in Pj by auto. injection Pj as <-.
    apply (setrow3_ok _ 1) in H0; auto. destruct H0 as (j & Pj & Jk' & Id' & WB' & HZ0).
    cbn [a_k setslice] in Pj. rewrite KA, pyidx_0 in Pj by auto. injection Pj as <-.
    cbn [a_k setslice] in Jk, Jk', Id'. rewrite KA in Jk. cbn in Id'.
    assert (SZ0 : sh Z0 dim (p_N p) k) by (split; [auto|]; rewrite HZ0; cbn; auto).
    assert (I : slice Z0 0 = mk dim (p_N p) (fun a _ => if a <? 2 then nth a (p_y1 p) nzero else nzero)).
    { rewrite HZ0. rewrite slice_set_same by (auto; cbn; lia). rewrite slice_set_same by (auto; cbn; lia).
      rewrite slice_zeros. unfold rowset. cbn [mr mc mk mzeros mconst]. apply mk_ext. intros a b Ha Hb.
      rewrite get_mk by auto. destruct a as [|[|a]]; cbn [Nat.eqb Nat.ltb Nat.leb]; auto. unfold mzeros, mconst; now rewrite get_mk by auto. }
    rewrite Ek in H.
    apply (flow_fold _ _ (fun i => Datatypes.S i) (fun i => i) (fun i => t_stoch_step p (Datatypes.S i) (nth (Datatypes.S i) (t0 :: grid) nzero)) dim (p_N p) k) in H; auto.
    - destruct H as (HZ & Hun & sg & Hs0 & Hs1 & Hst). split; [auto|]. split; [unfold dim; lia|].
      split. { rewrite Hun by (intros; lia). auto. }
      exists sg. split; [auto|]. split; [auto|].
      intros i Hi. specialize (Hst (i-1) ltac:(lia)).
      replace (Datatypes.S (i-1)) with i in Hst by lia. exact Hst.
    - intros; lia.
    - intros i B sb B' sb' Hi HB Hbd. apply (t_stoch_step_ok _ _ _ _ _ _ _ dim (p_N p) k) in Hbd; auto; try lia.
      replace (Datatypes.S i - 1) with i in Hbd by lia. exact Hbd.
  Qed.

  (** backward_simulation *)
  Lemma t_bw_step_ok p kern grid (Zf B B' : arr3) i tt s s' dim N k : 
    dim = List.length (p_y1 p) -> N = p_N p -> k = List.length grid -> sh Zf dim N k -> sh B dim N k -> 1 <= dim ->
    1 <= i -> i + 1 < k ->
    t_bw_body E p kern grid Zf B (i, tt) s = (Ok B', s') ->
    sh B' dim N k /\
    (2 <= dim /\ t_back_step E ((i =? 1) || negb (p_det p)) dt kern (p_M p) (p_g p) (call2 (p_f p)) (nth (k-i) grid nzero)
       (slice Zf (k-i)) (slice B (k-i)) (slice B' (k-i-1)) s s') /\
    forall t, t <> k - i - 1 -> slice B' t = slice B t.
  Proof.
    intros Hdim HN Hk HZ HB Hd1 Hi1 Hi H. unfold t_bw_body in H. rewrite <- Hdim, <- Hk in H.
    destruct (Nat.eqb_spec i 0); [lia|]. cbv zeta in H.
    replace (Z.of_nat k - Z.of_nat i - 1)%Z with (Z.of_nat (k - i - 1)) in H by lia.
    replace (Z.of_nat (k - i - 1) + 1)%Z with (Z.of_nat (k - i)) in H by lia.
    apply bind_ok in H. destruct H as (gro & s1 & Hg & H).
    destruct (t_density_ok _ _ _ _ _ _ _ _ dim N k (k-i) Hdim HN HZ HB ltac:(lia) eq_refl Hd1 Hg) as (Gz & Hsz & H2 & Rg & Cg & Ez).
    apply bind_ok in H. destruct H as (y & s2 & Hy & H). apply lift_ok in H. destruct H as (H & ->). apply tsetsl_ok in H.
    apply (assign_fit _ _ _ _ _ _ _ HB) in H. destruct H as (_ & HB' & Fr & Fc & Hgt & Hf).
    assert (F : fits y dim N) by (split; auto).
    assert (KB : a_k B = k) by apply HB.
    destruct (sh_slice _ _ _ _ (k-i) HB ltac:(lia)) as (WB & RB & CB).
    split; [auto|]. split; [|auto]. split; [auto|].
    replace ((i =? 1) && p_det p || negb (p_det p)) with ((i =? 1) || negb (p_det p)) in Hy
      by (destruct (i =? 1), (p_det p); reflexivity).
    unfold t_back_step. destruct ((i =? 1) || negb (p_det p)).
    - apply bind_ok in Hy. destruct Hy as (x & s3 & Hx & Hy). apply lift_ok in Hx. destruct Hx as (Hx & ->).
      apply bind_ok in Hy. destruct Hy as (t & s3 & Ht & Hy). apply lift_ok in Ht. destruct Ht as (Ht & ->).
      rewrite getsl_nat in Hx by lia. injection Hx as <-.
      apply (pyget_nat_ok _ _ _ nzero) in Ht. destruct Ht as (_ & ->). apply t_bw_stoch_is in Hy.
      destruct (bw_stoch_ok E _ _ _ _ _ _ _ dim N Hdim HN RB CB Rg Cg Hy F) as (Fd & W & HF & HW & Hv).
      exists Fd, W, Gz, s1. rewrite RB, CB. split; [auto|]. split; [auto|]. split; [auto|].
      intros d n0 Hd Hn0. rewrite Hgt, Hv by auto. now rewrite Ez.
    - apply bind_ok in Hy. destruct Hy as (gb & s3 & Hgb & Hy).
      destruct (t_bw_density_ok _ _ _ _ _ _ _ _ dim N k (k-i) Hdim HN HZ HB ltac:(lia) eq_refl Hgb) as (Hsb & Rb & Cb).
      apply bind_ok in Hy. destruct Hy as (x & s4 & Hx & Hy). apply lift_ok in Hx. destruct Hx as (Hx & ->).
      apply bind_ok in Hy. destruct Hy as (t & s4 & Ht & Hy). apply lift_ok in Ht. destruct Ht as (Ht & ->).
      rewrite getsl_nat in Hx by lia. injection Hx as <-.
      apply (pyget_nat_ok _ _ _ nzero) in Ht. destruct Ht as (_ & ->).
      apply lift_ok in Hy. destruct Hy as (Hy & ->). apply t_bw_det_is in Hy.
      destruct (bw_det_ok _ _ _ (mT gb) _ _ dim N RB CB Rg Cg ltac:(cbn; auto) ltac:(cbn; auto) Hy F) as (Fd & HF & Hv).
      exists Fd, Gz, gb, s1. rewrite RB, CB. split; [auto|]. split; [auto|]. split; [auto|].
      intros d n0 Hd Hn0. rewrite Hgt, Hv by auto. rewrite Ez by auto. now rewrite get_mT by lia.
  Qed.

  Lemma t_bw_run p kern (grid : list T) (Zf : arr3) s B s' : let dim := List.length (p_y1 p) in let k := List.length grid in
    sh Zf dim (p_N p) k -> 1 <= dim ->
    t_backward_simulation E p kern grid Zf (zeros3 dim (p_N p) k) s = (Ok B, s') -> 
    sh B dim (p_N p) k /\ (0 < k -> slice B 0 = mk dim (p_N p) (fun a _ => nth a (p_y1 p) nzero)) /\ 0 < k /\
    (2 <= k -> slice B (k-1) = mk dim (p_N p) (fun a _ => nth a (p_y2 p) nzero) /\ dim <= List.length (p_y2 p)) /\
    (3 <= k -> 2 <= dim) /\
    exists sg, sg (k - 1) = s /\ sg 1 = s' /\
      forall j, 1 <= j -> j + 1 < k ->
        t_back_step E ((j =? k - 2) || negb (p_det p)) dt kern (p_M p) (p_g p) (call2 (p_f p)) (nth (j+1) grid nzero)
          (slice Zf (j+1)) (slice B (j+1)) (slice B j) (sg (j+1)) (sg j).
  Proof.
    intros dim k HZ Hd1 H. unfold t_backward_simulation in H. apply bind_ok in H. destruct H as (B1 & s1 & H1 & H).
    apply lift_ok in H. destruct H as (H & ->).
    assert (X : sh B1 dim (p_N p) k /\ (2 <= k -> slice B1 (k-1) = mk dim (p_N p) (fun a _ => nth a (p_y2 p) nzero) /\ dim <= List.length (p_y2 p)) /\
      (3 <= k -> 2 <= dim) /\
      exists sg, sg (k - 1) = s /\ sg 1 = s1 /\
      forall j, 1 <= j -> j + 1 < k ->
        t_back_step E ((j =? k - 2) || negb (p_det p)) dt kern (p_M p) (p_g p) (call2 (p_f p)) (nth (j+1) grid nzero)
          (slice Zf (j+1)) (slice B1 (j+1)) (slice B1 j) (sg (j+1)) (sg j)).
    { clear H. pose proof (init_length grid) as Li. fold k in Li.
      destruct (init grid) as [|t0 l] eqn:Eg.
      - cbn in H1. invok. simpl in Li. split; [apply sh_zeros|]. split; [lia|]. split; [lia|]. exists (fun _ => s1). repeat split; intros; lia.
      - rewrite (enumerate_cons _ _ nzero) in H1. cbn [mfold] in H1. apply bind_ok in H1. destruct H1 as (B0 & s0 & H0 & H1).
        simpl in Li. assert (Hk : 2 <= k) by lia.
        unfold t_bw_body in H0 at 1. cbn [Nat.eqb] in H0. apply lift_ok in H0. destruct H0 as (H0 & ->).
        apply (pin_ok _ _ _ _ _ _ _ (sh_zeros _ _ _)) in H0. destruct H0 as (HB0 & L2 & _ & I & _).
        specialize (I (k-1) (pyidx_m1 k ltac:(lia))).
        replace (List.length l) with (k-2) in H1 by lia.
        apply (flow_fold _ _ (fun i => k - 2 - i) (fun i => k - 1 - i)
             (fun i x x' sa sb => 2 <= dim /\ t_back_step E ((i =? 0) || negb (p_det p)) dt kern (p_M p) (p_g p) (call2 (p_f p)) (nth (k-1-i) grid nzero)
                          (slice Zf (k-1-i)) x x' sa sb) dim (p_N p) k) in H1; auto; try (intros; lia).
        + destruct H1 as (HB1 & Hun & sg & Hs0 & Hs1 & Hst). split; [auto|]. split; [|split].
          * intros _. rewrite Hun by (intros; lia). auto.
          * intro Hk3. apply (Hst 0). lia.
          * exists (fun j => sg (k - 1 - j)). split. { now rewrite Nat.sub_diag. } split. { now replace (k-1-1) with (k-2) by lia. }
            intros j Hj1 Hj. destruct (Hst (k - 2 - j) ltac:(lia)) as (_ & Hst'). clear Hst. rename Hst' into Hst. cbv beta in Hst.
            replace (k-1-(k-2-j)) with (j+1) in Hst by lia. replace (k-2-(k-2-j)) with j in Hst by lia.
            replace (k - 1 - (j+1)) with (k-2-j) by lia. replace (k-1-j) with (Datatypes.S (k-2-j)) by lia.
            replace (j =? k-2) with (k-2-j =? 0); auto.
            destruct (Nat.eqb_spec (k-2-j) 0), (Nat.eqb_spec j (k-2)); auto; lia.
        + intros i Bb sb Bb' sb' Hi HBb Hbd.
          apply (t_bw_step_ok p kern grid Zf Bb Bb' (Datatypes.S i) _ sb sb' dim (p_N p) k) in Hbd; auto; try lia.
          replace (k - Datatypes.S i) with (k-1-i) in Hbd by lia.
          replace (k-1-i-1) with (k-2-i) in Hbd by lia. exact Hbd. }
    destruct X as (HB1 & Hy2 & Hd2 & sg & Sk & S1 & Hst).
    apply (pin_ok _ _ _ _ _ _ _ HB1) in H. destruct H as (HB & L1 & Hex & I & Hun).
    split; [auto|]. split. { intro Hk. apply I. now apply pyidx_0. } split.
    { destruct (Hex Hd1) as (j & Hj). apply pyidx_some in Hj. lia. }
    assert (Hne : forall t, 1 <= t -> slice B t = slice B1 t).
    { intros t Ht. apply Hun. intro Q. destruct (Nat.lt_ge_cases 0 k) as [Hk|Hk].
      - rewrite pyidx_0 in Q by auto. injection Q as Q. lia.
      - apply pyidx_some in Q. lia. }
    split; [|split; [auto|]].
    - intro Hk. rewrite Hne by lia. auto.
    - exists sg. split; [auto|]. split; [auto|]. intros j Hj1 Hj. rewrite !Hne by lia. auto.
  Qed.

  (** the constructor, unfolded *)
  Lemma t_construct_ok b p s o s' : t_construct E b p s = (Ok o, s') ->
    let dim := List.length (p_y1 p) in let grid := o_grid o in let kern := kern_used (p_kern p) in
    let zeros := zeros3 dim (p_N p) (List.length grid) in
    b = IsTensor /\ o_par o = p /\ o_kern o = kern /\ t_timegrid (p_t1 p) (p_t2 p) = Ok grid /\
    exists s1 s2,
      (if p_det p then
         t_forward_sampling_Otto E p grid zeros s = (Ok (o_Z o), s1) /\
         (if p_reweight p && p_brown p then
            exists Zt, o_Ztr o = Some Zt /\ t_forward_sampling_Otto_true E p kern grid zeros s1 = (Ok Zt, s2)
          else o_Ztr o = None /\ s2 = s1)
       else t_forward_sampling E p grid zeros s = (Ok (o_Z o), s1) /\ s2 = s1 /\
            o_Ztr o = (if p_reweight p && p_brown p then Some zeros else None)) /\
      t_backward_simulation E p kern grid (o_Z o) zeros s2 = (Ok (o_B o), s').
  Proof.
    intros H. cbv zeta. unfold t_construct in H. destruct b; [|discriminate].
    apply bind_ok in H. destruct H as (dim & s0 & HD & H). apply lift_ok in HD. destruct HD as (HD & ->).
    cbn in HD. injection HD as <-.
    apply bind_ok in H. destruct H as (grid & s0 & HG & H). apply lift_ok in HG. destruct HG as (HG & ->).
    apply bind_ok in H. destruct H as ([Z1 Zt] & s2 & HZ & H).
    apply bind_ok in H. destruct H as (B & s3 & HB & H). apply ret_ok in H. destruct H as (-> & ->).
    cbn [o_par o_kern o_grid o_Z o_B o_Ztr fst snd] in *. split; [auto|]. split; [auto|]. split; [auto|]. split; [auto|].
    destruct (p_det p).
    - apply bind_ok in HZ. destruct HZ as (Z2 & s1 & HZ & HT). exists s1, s2. destruct (p_reweight p && p_brown p).
      + apply bind_ok in HT. destruct HT as (Zt' & s4 & HT & HR). apply ret_ok in HR. destruct HR as (HR & ->).
        injection HR as -> ->. split; [|exact HB]. split; [auto|]. eauto.
      + apply ret_ok in HT. destruct HT as (HT & ->). injection HT as -> ->. split; [|exact HB]. auto.
    - apply bind_ok in HZ. destruct HZ as (Z2 & s1 & HZ & HT). apply ret_ok in HT. destruct HT as (HT & ->).
      injection HT as -> ->. exists s1, s1. split; [|exact HB]. auto.
  Qed.
End TorchSteps.
