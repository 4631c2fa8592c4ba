(** One step of each simulation loop, related to the entrywise specification (no modelling content). *)
From Coq Require Import String List ZArith Lia Bool.
From Verif Require Import Base.Num Base.Py Base.Arr Lib.ArrLemmas Model.Ext Model.Cdist Model.Reweight Model.Score Model.DPFC.
From Verif Require Import Spec.FlowSpec Lib.FlowLemmas Lib.ScoreLemmas.
Import ListNotations.

Section Step.
  Context {T S : Type} {O : NumOps T} (E : Ext T S).
  Notation mat := (mat T). Notation arr3 := (arr3 T).

  Lemma wf_rect (A : mat) : wf A -> rect A.
  Proof.
    intro W. unfold rect. unfold wf in W. remember (get A) as f. remember (mr A) as r. remember (mc A) as c. rewrite W. cbn.
    split. { now rewrite map_length, seq_length. }
    apply Forall_forall. intros x Hx. apply in_map_iff in Hx. destruct Hx as (i & <- & _). now rewrite map_length, seq_length.
  Qed.
  Lemma rect_wf (A : mat) : rect A -> wf A.
  Proof.
    intros (L & F). unfold wf. destruct A as [r c m]. unfold mk, get. cbn in *. f_equal.
    apply (nth_ext _ _ [] []); [now rewrite map_length, seq_length|]. intros i Hi. rewrite L in Hi. rewrite nth_map_seq by auto.
    assert (Li : List.length (nth i m []) = c). { rewrite Forall_forall in F. apply F. apply nth_In. lia. }
    rewrite <- Li at 1. symmetry. apply map_nth_seq.
  Qed.

  Definition fits (A : mat) (d n : nat) : Prop := (mr A = d \/ mr A = 1) /\ (mc A = n \/ mc A = 1).

  Lemma bc2_fit op (A B C : mat) d n : bc2 op A B = Ok C -> fits C d n ->
    fits A d n /\ fits B d n /\
    forall i j, i < d -> j < n -> bget C i j = op (bget A i j) (bget B i j).
  Proof.
    intros H (Fr & Fc). pose proof H as H0. apply bc2_ok in H0. destruct H0 as (Br & Bc & _ & Hr & Hc & _).
    rewrite Hr in Fr. rewrite Hc in Fc.
    destruct (bdim_fit _ _ _ Br Fr) as (? & ?). destruct (bdim_fit _ _ _ Bc Fc) as (? & ?).
    split; [split; auto|]. split; [split; auto|]. intros i j Hi Hj. apply (bget_bc2 _ _ _ _ _ _ H); lia.
  Qed.
  Lemma mmap1_fit f (A : mat) d n : fits (mmap1 f A) d n ->
    fits A d n /\ forall i j, i < d -> j < n -> bget (mmap1 f A) i j = f (bget A i j).
  Proof.
    unfold fits. intros (Fr & Fc). cbn in Fr, Fc. split; [auto|]. intros. apply bget_mmap1; lia.
  Qed.
  Lemma fits_mk d n f : fits (mk d n f) d n. Proof. split; cbn; auto. Qed.
  Lemma bget_mk d n (f : nat -> nat -> T) i j : i < d -> j < n -> bget (mk d n f) i j = f i j.
  Proof. intros. rewrite bget_in by auto. now apply get_mk. Qed.

  Lemma lengthscales_eq x : two_std x = lengthscales x.
  Proof. unfold two_std, lengthscales, std1. now rewrite map_map. Qed.

  Lemma uniform_ok lo hi m s r s' : uniform E lo hi m s = (Ok r, s') ->
    exists h, x_uniform E s lo hi m = (Ok h, s') /\ r = map h (seq 0 m).
  Proof.
    unfold uniform. destruct (x_uniform E s lo hi m) as [[h|e] s1]; intro H; inversion H; subst. eauto.
  Qed.
  Lemma drawn_ok m bnds s rows s' :
    mmap (fun b : T * T => uniform E (fst b) (snd b) m) bnds s = (Ok rows, s') ->
    drawn E m s bnds rows s' /\ List.length rows = List.length bnds.
  Proof.
    revert s rows. induction bnds as [|[lo hi] bs IH]; simpl; intros s rows H; invok.
    - split; [constructor|reflexivity].
    - apply uniform_ok in E0. destruct E0 as (h & Hh & ->). apply IH in E1. destruct E1 as (Hd & Hl).
      split; [econstructor; eauto|simpl; lia].
  Qed.
  Lemma sample_box_ok m bnds s X s' : sample_box E m bnds s = (Ok X, s') ->
    exists rows, drawn E m s bnds rows s' /\ List.length rows = List.length bnds /\ mT X = points m rows /\
                 X = mk (List.length bnds) m (fun i j => nth j (nth i rows []) nzero).
  Proof.
    unfold sample_box. intro H. apply bind_ok in H. destruct H as (rows & s1 & Hr & H).
    apply ret_ok in H. destruct H as (-> & ->).
    apply drawn_ok in Hr. destruct Hr as (Hd & Hl). exists rows. repeat split; auto.
    rewrite mT_mk. unfold points. now rewrite Hl.
  Qed.

  Lemma own_bnds_ok (x : mat) bnds : own_bnds x = Ok bnds ->
    List.length bnds = mr x /\ forall d, d < mr x -> range_of x d (nth d bnds (nzero, nzero)).
  Proof.
    unfold own_bnds. intro H. apply (rmapM_seq_ok _ _ _ (nzero, nzero)) in H. destruct H as (Hl & Hn).
    split; auto. intros d Hd. specialize (Hn d Hd). invok. unfold range_of.
    match goal with Q : (_, _) = nth _ _ _ |- _ => rewrite <- Q end. simpl. auto.
  Qed.
  Lemma inter_bnd_ok (z b : mat) d r : inter_bnd z b d = Ok r -> common_range z b d r.
  Proof.
    unfold inter_bnd. intro H. invok. exists (a, a1), (a0, a2). unfold range_of. simpl. auto.
  Qed.
  Lemma inter_bnds_ok dim (z b : mat) bnds : inter_bnds dim z b = Ok bnds ->
    List.length bnds = dim /\ forall d, d < dim -> common_range z b d (nth d bnds (nzero, nzero)).
  Proof.
    unfold inter_bnds. intro H. apply (rmapM_seq_ok _ _ _ (nzero, nzero)) in H. destruct H as (Hl & Hn).
    split; auto. intros d Hd. apply inter_bnd_ok. auto.
  Qed.

  Lemma normal_ok sc r c s m s' : normal E sc r c s = (Ok m, s') ->
    exists W, x_normal E s sc r c = (W, s') /\ m = mk r c W.
  Proof. unfold normal. destruct (x_normal E s sc r c) as [W s1]. intro H; inversion H; subst. eauto. Qed.

  (** entrywise content of the forward steps *)
  Lemma em_step_ok g fd dim N (x y : mat) t s s' : wf x -> mr x = dim -> mc x = N ->
    em_step E g fd dim N x t s = (Ok y, s') -> fits y dim N ->
    forall x', (forall a b, a < dim -> b < N -> get x' a b = bget y a b) ->
    noisy_step E dt g fd (nsub t dt) x x' s s'.
  Proof.
    intros Wx Hr Hc H F x' Hx'. unfold em_step in H. invok.
    apply normal_ok in E2. destruct E2 as (W & HW & ->).
    destruct (bc2_fit _ _ _ _ _ _ H F) as (F1 & F2 & G).
    destruct (bc2_fit _ _ _ _ _ _ E1 F1) as (F3 & F4 & G1).
    destruct (bc2_fit _ _ _ _ _ _ E3 F2) as (F5 & F6 & G2).
    destruct (mmap1_fit _ _ _ _ F4) as (F7 & G3).
    exists a, W. rewrite Hr, Hc. split; [auto|]. split; [auto|].
    intros d n Hd Hn. rewrite Hx', G, G1, G2 by auto. unfold smul. rewrite G3 by auto.
    rewrite bget_mk by auto. rewrite (bget_in x) by lia. reflexivity.
  Qed.

  Lemma score_rows dim n (v : nat -> res (list T)) G :
    fill_rows dim n v = Ok G -> (forall i l, i < dim -> v i = Ok l -> List.length l = n) ->
    wf G /\ mr G = dim /\ mc G = n /\
    exists score : nat -> list T, forall i, i < dim -> v i = Ok (score i) /\ List.length (score i) = n /\
      forall j, j < n -> get G i j = nth j (score i) nzero.
  Proof.
    intros H Hl. apply fill_rows_ok in H. destruct H as (W & R & Cc & H).
    split; [auto|]. split; [auto|]. split; [auto|].
    exists (fun i => match v i with Ok l => l | Err _ => [] end). intros i Hi.
    destruct (H i Hi) as (l & Hv & _ & Hg). rewrite Hv. specialize (Hl i l Hi Hv). split; [auto|]. split; [auto|].
    intros j Hj. rewrite Hg by auto. rewrite bidx_lt; auto. lia.
  Qed.

  Lemma f_step_ok kern m g fd guard (x y : mat) t s s' dim N : wf x -> mr x = dim -> mc x = N ->
    det_step (f_seperate E kern m g fd guard) x t s = (Ok y, s') -> fits y dim N ->
    forall x', (forall a b, a < dim -> b < N -> get x' a b = bget y a b) ->
    flow_step E dt kern m g fd (nsub t dt) x x' s s'.
  Proof.
    intros Wx Hr Hc H F x' Hx'. unfold det_step in H. apply bind_ok in H. destruct H as (dr & s1 & Hd & H).
    apply lift_ok in H. destruct H as (H & ->).
    unfold f_seperate in Hd. invok.
    apply own_bnds_ok in E0. destruct E0 as (Lb & Hb).
    apply sample_box_ok in E2. destruct E2 as (rows & Hdr & Lr & HT & _).
    rewrite HT, lengthscales_eq in E3.
    apply score_rows in E3; [|intros i l Hi Hv; apply score_length in Hv; exact Hv].
    destruct E3 as (WG & RG & CG & score & Hs).
    destruct (bc2_fit _ _ _ _ _ _ H F) as (F1 & F2 & G).
    destruct (mmap1_fit _ _ _ _ F2) as (F3 & G1).
    destruct (bc2_fit _ _ _ _ _ _ Hd F3) as (F4 & F5 & G2).
    destruct (bc2_fit _ _ _ _ _ _ E5 F5) as (F6 & F7 & G3).
    destruct (mmap1_fit _ _ _ _ F6) as (F8 & G4). destruct (mmap1_fit _ _ _ _ F8) as (F9 & G5).
    exists a3, a, rows, score. split; [auto|]. split; [auto|]. split; [auto|]. split; [auto|]. split.
    - intros d Hd'. destruct (Hs d Hd') as (H1 & H2 & _). split; auto.
    - rewrite Hr, Hc. intros d n Hd' Hn. rewrite Hx', G by auto. unfold smul. rewrite G1, G2, G3 by auto.
      unfold smul, msq. rewrite G4, G5 by auto. rewrite (bget_in x) by lia. rewrite (bget_in a2) by lia.
      destruct (Hs d ltac:(lia)) as (_ & _ & H3). rewrite H3 by lia. reflexivity.
  Qed.

  Lemma weights_of_ok N (e : mat) w : weights_of N e = Ok w -> fits e 1 N /\
    let ws := map (fun n => nexp (bget e 0 n)) (seq 0 N) in
    w = map (fun v => ndiv v (nsum ws)) ws.
  Proof.
    unfold weights_of. intro H. invok. apply assign_shape_ok in E0.
    destruct E0 as (W & R & Cc & Fr & Fc & G). cbn in Fr, Fc.
    assert (F : fits e 1 N) by (split; tauto). split; [exact F|]. cbv zeta.
    assert (Hrow : row a 0 = map (fun n => nexp (bget e 0 n)) (seq 0 N)).
    { unfold row. rewrite Cc. apply map_seq_ext. intros j Hj. rewrite G by lia.
      destruct (mmap1_fit nexp e 1 N) as (_ & HH). { split; cbn; tauto. } apply HH; lia. }
    now rewrite Hrow.
  Qed.

  Lemma reweight_slice_ok N (e x y : mat) : wf x -> mc x = N ->
    reweight_slice E N e x = Ok y ->
    fits e 1 N /\ wf y /\ mr y = mr x /\ mc y = N /\ reweighted E (fun n => bget e 0 n) x y.
  Proof.
    intros Wx Hc H. unfold reweight_slice in H. apply rbind_ok in H. destruct H as (w & Hw & H).
    apply rbind_ok in H. destruct H as (Ts & HT & H). apply weights_of_ok in Hw. destruct Hw as (F & Hw).
    split; [auto|].
    unfold reweight_optimal_transport_multidim in HT. cbn [mr mT mk] in HT. rewrite Hc in HT.
    destruct (List.length w =? N); [|discriminate]. injection HT as <-.
    apply mmul_ok in H. destruct H as (_ & Wy & Ry & Cy & Gy).
    split; [auto|]. split; [auto|]. split. { rewrite Cy. reflexivity. }
    unfold reweighted. rewrite Hc. cbv zeta in Hw |- *. rewrite <- Hw.
    exists (square_pdist (mT x)), (x_emd E w (repeat (ndiv none1 (nofnat N)) N) (square_pdist (mT x))).
    split. { apply wf_rect, wf_mk. } split. { cbn. auto. } split. { cbn. auto. } split.
    - intros i j Hi Hj. unfold square_pdist. cbn [mr mT mk]. rewrite Hc, get_mk by auto.
      assert (Hsq : forall a b, a < N -> b < N -> sqdist (mT x) (mT x) a b =
         nsum (map (fun d => nsq (nsub (get x d a) (get x d b))) (seq 0 (mr x)))).
      { intros a b Ha Hb. unfold sqdist. cbn [mc mT mk]. f_equal. apply map_seq_ext. intros d Hd.
        now rewrite !get_mT by lia. }
      destruct (Nat.eqb_spec i j) as [->|Hne].
      + destruct (Nat.ltb_spec j j); [lia|]. reflexivity.
      + destruct (Nat.ltb_spec i j).
        * rewrite Nat.min_l, Nat.max_r by lia. now rewrite Hsq.
        * destruct (Nat.ltb_spec j i); [|lia]. rewrite Nat.min_r, Nat.max_l by lia. now rewrite Hsq.
    - split; [reflexivity|]. intros d n Hd Hn. rewrite Gy.
      + rewrite Hc. f_equal. apply map_seq_ext. intros m Hm. unfold muls. rewrite get_mmap1 by (cbn; lia).
        now rewrite get_mk by lia.
      + lia.
      + cbn. lia.
  Qed.

  (** ** backward steps *)
  Lemma density_ok p kern (Zf B : arr3) t gro s s' dim N k j :
    dim = List.length (p_y1 p) -> N = p_N p -> sh Zf dim N k -> sh B dim N k -> j < k -> t = Z.of_nat j ->
    density_estimation E p kern Zf B t s = (Ok gro, s') ->
    wf gro /\ mr gro = dim /\ mc gro = N /\ exists score,
      score_of_at E kern (p_M p) (slice Zf j) (slice B j) dim N score s s' /\
      forall d n, d < dim -> n < N -> get gro d n = nth n (score d) nzero.
  Proof.
    intros Hdim HN HZ HB Hj -> H. unfold density_estimation in H. rewrite <- Hdim, <- HN in H.
    assert (KZ : a_k Zf = k) by apply HZ. assert (KB : a_k B = k) by apply HB.
    rewrite (getsl_nat Zf) in H by lia. rewrite (getsl_nat B) in H by lia.
    destruct (sh_slice _ _ _ _ j HB Hj) as (WB & RB & CB).
    invok.
    apply inter_bnds_ok in E2. destruct E2 as (Lb & Hb).
    apply sample_box_ok in E4. destruct E4 as (rows & Hdr & Lr & HT & _).
    rewrite HT, lengthscales_eq in H.
    apply score_rows in H.
    2:{ intros i l Hi Hv. apply rbind_ok in Hv. destruct Hv as (fn & Hfn & Hv).
        rewrite (score_fun_length _ _ _ _ _ _ _ _ _ _ Hfn Hv). cbn. exact CB. }
    destruct H as (WG & RG & CG & score & Hs).
    split; [auto|]. split; [auto|]. split; [auto|]. exists score. split.
    - exists a1, rows. split; [auto|]. split; [auto|]. split; [auto|]. intros d Hd.
      destruct (Hs d Hd) as (Hv & Hl & _). split; [auto|]. apply rbind_ok in Hv. exact Hv.
    - intros d n Hd Hn. destruct (Hs d Hd) as (_ & _ & Hg). auto.
  Qed.

  Lemma bw_density_ok p kern (Zf B : arr3) t gro s s' dim N k j :
    dim = List.length (p_y1 p) -> N = p_N p -> sh Zf dim N k -> sh B dim N k -> j < k -> t = Z.of_nat j ->
    bw_density_estimation E p kern Zf B t s = (Ok gro, s') ->
    wf gro /\ mr gro = dim /\ mc gro = N /\ exists score,
      score_of_self E kern (p_M p) (slice Zf j) (slice B j) dim N score s s' /\
      forall d n, d < dim -> n < N -> get gro d n = nth n (score d) nzero.
  Proof.
    intros Hdim HN HZ HB Hj -> H. unfold bw_density_estimation in H. rewrite <- Hdim, <- HN in H.
    assert (KZ : a_k Zf = k) by apply HZ. assert (KB : a_k B = k) by apply HB.
    rewrite (getsl_nat Zf) in H by lia. rewrite (getsl_nat B) in H by lia.
    destruct (sh_slice _ _ _ _ j HB Hj) as (WB & RB & CB).
    invok.
    apply inter_bnds_ok in E2. destruct E2 as (Lb & Hb).
    apply sample_box_ok in E3. destruct E3 as (rows & Hdr & Lr & HT & _).
    rewrite HT, lengthscales_eq in H.
    apply score_rows in H.
    2:{ intros i l Hi Hv. rewrite (score_length _ _ _ _ _ _ _ _ Hv). cbn. exact CB. }
    destruct H as (WG & RG & CG & score & Hs).
    split; [auto|]. split; [auto|]. split; [auto|]. exists score. split.
    - exists a1, rows. split; [auto|]. split; [auto|]. split; [auto|]. intros d Hd.
      destruct (Hs d Hd) as (Hv & Hl & _). split; [auto|]. exact Hv.
    - intros d n Hd Hn. destruct (Hs d Hd) as (_ & _ & Hg). auto.
  Qed.

  Lemma bw_stoch_ok p (x gro y : mat) t s1 s' dim N :
    dim = List.length (p_y1 p) -> N = p_N p -> mr x = dim -> mc x = N -> mr gro = dim -> mc gro = N ->
    bw_stoch_step E p x t gro s1 = (Ok y, s') -> fits y dim N ->
    exists F W, call2 (p_f p) x t = Ok F /\ x_normal E s1 (nsqrt dt) dim N = (W, s') /\
      forall d n, d < dim -> n < N ->
        bget y d n = nadd (nadd (nsub (get x d n) (nmul (elem F d n) dt))
                                (nmul (nmul dt (nsq (elem (p_g p) d n))) (get gro d n)))
                          (nmul (elem (p_g p) d n) (W d n)).
  Proof.
    intros Hdim HN Rx Cx Rg Cg H F. unfold bw_stoch_step in H. rewrite <- Hdim, <- HN in H. invok.
    apply normal_ok in E4. destruct E4 as (W & HW & ->). exists a, W. split; [auto|]. split; [auto|]. unfold muls, smul, msq in *.
    destruct (bc2_fit _ _ _ _ _ _ H F) as (F1 & F2 & G).
    destruct (bc2_fit _ _ _ _ _ _ E3 F1) as (F3 & F4 & G1).
    destruct (bc2_fit _ _ _ _ _ _ E5 F2) as (F5 & F6 & G2).
    destruct (bc2_fit _ _ _ _ _ _ E1 F3) as (F7 & F8 & G3).
    destruct (bc2_fit _ _ _ _ _ _ E2 F4) as (F9 & F10 & G4).
    destruct (mmap1_fit _ _ _ _ F8) as (F11 & G5).
    destruct (mmap1_fit _ _ _ _ F9) as (F12 & G6).
    destruct (mmap1_fit _ _ _ _ F12) as (F13 & G7).
    intros d n Hd Hn. rewrite G, G1, G2, G3, G4 by auto. rewrite G5, G6 by auto.
    rewrite G7 by auto. rewrite bget_mk by auto. rewrite (bget_in x), (bget_in gro) by lia. reflexivity.
  Qed.

  Lemma bw_det_ok p (x gro gb y : mat) t dim N :
    mr x = dim -> mc x = N -> mr gro = dim -> mc gro = N -> mr gb = dim -> mc gb = N ->
    bw_det_step p x t gro gb = Ok y -> fits y dim N ->
    exists F, call2 (p_f p) x t = Ok F /\
      forall d n, d < dim -> n < N ->
        bget y d n = nsub (get x d n)
          (nmul (nadd (nsub (elem F d n) (nmul (nsq (elem (p_g p) d n)) (get gro d n)))
                      (nmul (nmul nhalf (nsq (elem (p_g p) d n))) (get gb d n))) dt).
  Proof.
    intros Rx Cx Rg Cg Rb Cb H F. unfold bw_det_step in H. invok. exists a. split; [auto|]. unfold muls, smul, msq in *.
    destruct (bc2_fit _ _ _ _ _ _ H F) as (F1 & F2 & G).
    destruct (mmap1_fit _ _ _ _ F2) as (F3 & G0).
    destruct (bc2_fit _ _ _ _ _ _ E4 F3) as (F4 & F5 & G1).
    destruct (bc2_fit _ _ _ _ _ _ E2 F4) as (F6 & F7 & G2).
    destruct (bc2_fit _ _ _ _ _ _ E1 F7) as (F8 & F9 & G3).
    destruct (bc2_fit _ _ _ _ _ _ E3 F5) as (F10 & F11 & G4).
    destruct (mmap1_fit _ _ _ _ F8) as (F12 & G5).
    destruct (mmap1_fit _ _ _ _ F10) as (F13 & G6).
    destruct (mmap1_fit _ _ _ _ F13) as (F14 & G7).
    intros d n Hd Hn. rewrite G by auto. rewrite G0, G1, G2, G3, G4 by auto.
    rewrite G5, G6, G7 by auto.
    rewrite (bget_in x), (bget_in gro), (bget_in gb) by lia. reflexivity.
  Qed.
End Step.
