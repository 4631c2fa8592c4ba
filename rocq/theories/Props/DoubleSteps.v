(** C85: rounding error of every step of the flows in double precision. *)
From Coq Require Import String List ZArith Reals Bool Lia Lra Psatz Permutation.
From Flocq Require Import Core BinarySingleNaN Relative.
From Verif Require Import Base.Num Base.Py Base.Arr Lib.ArrLemmas Lib.RSum Spec.RealSpec Model.Ext Model.Score Model.ScoreTorch Model.DPFC Model.TDPFC Run.Double Spec.DoubleSpec Spec.FlowSpec Spec.TorchSpec Spec.RoundSpec.
From Verif Require Import Lib.DoubleLemmas Lib.FlowLemmas Lib.StepLemmas Lib.RoundLemmas Props.Flows Props.Torch Props.DoubleQueries Props.DoubleWeights Props.DoubleEdge.
Import ListNotations.
Local Open Scope R_scope.

Section C85.
  Context (fexp fsin fcos : double -> double) (fsum : list double -> double) (Hs : sum_contract fsum).
  #[local] Instance StOps : NumOps double := DoubleOps fexp fsin fcos fsum.
  Notation mat := (mat double).

  Lemma tabs_seq (f : nat -> double) n : tabs (map f (seq 0 n)) = sumn n (fun m => Rabs (B2R (f m))).
  Proof.
    induction n as [|n IH]; [reflexivity|]. rewrite seq_S, map_app, tabs_app, IH. cbn. ring.
  Qed.

  (** one entry of the mapped ensemble, given the products *)
  Lemma mapped_entry (N : nat) (y pl p : nat -> double) : (INR N <= 1000000) -> (forall m, (m < N)%nat -> sized 100000 (y m) /\ sized 1 (pl m)) ->
    (forall m, (m < N)%nat -> appr (p m) (INR N * (B2R (y m) * B2R (pl m))) (INR N * Rabs (B2R (y m) * B2R (pl m))) (3 + / 10) (/ 10000000000000000000)) ->
    let z := nsum (map p (seq 0 N)) in
    finite z /\ Rabs (B2R z - INR N * sumn N (fun m => B2R (y m) * B2R (pl m))) <= 2 * (INR N + 4) * u * (INR N * sumn N (fun m => Rabs (B2R (y m) * B2R (pl m)))) + / 10000000000.
  Proof.
    intros HN H Hp z. pose proof (pos_INR N) as P0. pose proof u_small as U.
    set (A := fun m => INR N * Rabs (B2R (y m) * B2R (pl m))). set (V := fun m => INR N * (B2R (y m) * B2R (pl m))). set (SA := sumn N A).
    assert (A0 : forall m, (m < N)%nat -> 0 <= A m <= 100000000000).
    { intros m Hm. destruct (H m Hm) as ((_ & B1) & _ & B2). unfold A. rewrite Rabs_mult. assert (0 <= Rabs (B2R (y m)) * Rabs (B2R (pl m)) <= 100000 * 1) by (split; [apply Rmult_le_pos; apply Rabs_pos|apply Rmult_le_compat; auto using Rabs_pos]).
      split; [apply Rmult_le_pos; lra|]. apply Rle_trans with (1000000 * 100000); [apply Rmult_le_compat; lra|lra]. }
    assert (SA0 : 0 <= SA) by (apply sumn_ge0; intros; now apply A0).
    assert (PA : forall m, (m < N)%nat -> Rabs (B2R (p m)) <= A m * (1 + / 1000000000) + / 1000000000000000000).
    { intros m Hm. destruct (Hp m Hm) as (_ & B1 & B2). fold (V m) (A m) in B1, B2. pose proof (A0 m Hm). assert ((3 + / 10) * u * A m <= / 1000000000 * A m) by (apply Rmult_le_compat_r; lra). apply Rabs_le_inv in B1, B2. apply Rabs_le. split; lra. }
    assert (TA : tabs (map p (seq 0 N)) <= SA * (1 + / 1000000000) + INR N * / 1000000000000000000).
    { rewrite tabs_seq. rewrite <- sumn_const. unfold SA. rewrite <- sumn_scal_r. rewrite <- sumn_plus. apply sumn_le. intros m Hm. now apply PA. }
    assert (SB : SA <= 100000000000000000). { unfold SA. apply Rle_trans with (sumn N (fun _ => 100000000000)); [apply sumn_le; intros; now apply A0|]. rewrite sumn_const. apply Rle_trans with (1000000 * 100000000000); [apply Rmult_le_compat_r; lra|lra]. }
    assert (GL : gam N <= 1 + 2 * INR N * u). { apply gam_lin. apply Rle_trans with (1000000 * / 1000000000000); [apply Rmult_le_compat; lra|lra]. } pose proof (gam_ge N) as GG.
    assert (NU : 0 <= 2 * INR N * u <= / 100000). { split; [apply Rmult_le_pos; lra|]. apply Rle_trans with (2 * 1000000 * / 1000000000000); [apply Rmult_le_compat; lra|lra]. }
    pose proof (tabs_nn (map p (seq 0 N))) as T0. set (T := tabs (map p (seq 0 N))) in *.
    destruct (tree_signed _ _ (Hs (map p (seq 0 N)))) as (Fz & Ez).
    { intros x Hx. apply in_map_iff in Hx. destruct Hx as (m & <- & Hm). apply in_seq in Hm. apply Hp. lia. }
    { fold T. rewrite map_length, seq_length. apply Rle_trans with (bpow radix2 60); [|apply bpow_le; lia]. apply Rle_trans with (200000000000000000 * 2); [apply Rmult_le_compat; lra|cbn; lra]. }
    change (fsum (map p (seq 0 N))) with z in *. split; [exact Fz|]. fold T in Ez. rewrite total_seq, map_length, seq_length in Ez.
    assert (Sm : Rabs (sumn N (fun m => B2R (p m)) - sumn N V) <= (3 + / 10) * u * SA + INR N * / 10000000000000000000) by (apply (sum_appr N p V A N); auto).
    assert (EV : sumn N V = INR N * sumn N (fun m => B2R (y m) * B2R (pl m))) by (unfold V; now rewrite sumn_scal).
    assert (EA : SA = INR N * sumn N (fun m => Rabs (B2R (y m) * B2R (pl m)))) by (unfold SA, A; now rewrite sumn_scal).
    rewrite <- EV, <- EA. set (X := sumn N (fun m => B2R (p m))) in *. set (NN := INR N) in *.
    assert (E1 : T * (gam N - 1) <= (SA * (1 + / 1000000000) + NN * / 1000000000000000000) * (2 * NN * u)) by (apply Rmult_le_compat; lra).
    set (q := SA * u). assert (Q : 0 <= q) by (apply Rmult_le_pos; lra). assert (NNq : 0 <= NN * q) by (apply Rmult_le_pos; lra).
    assert (E2 : (SA * (1 + / 1000000000) + NN * / 1000000000000000000) * (2 * NN * u) = 2 * NN * q * (1 + / 1000000000) + NN * / 1000000000000000000 * (2 * NN * u)) by (unfold q; ring).
    assert (E3 : NN * / 1000000000000000000 * (2 * NN * u) <= 1000000 * / 1000000000000000000 * / 100000) by (apply Rmult_le_compat; lra).
    assert (NB : NN * / 10000000000000000000 <= / 1000000000000) by lra.
    assert (E4 : NN * q * / 1000000000 <= q * / 1000). { replace (NN * q * / 1000000000) with (q * (NN * / 1000000000)) by ring. apply Rmult_le_compat_l; lra. }
    replace (2 * (NN + 4) * u * SA) with (2 * (NN * q) + 8 * q) by (unfold q; ring). replace ((3 + / 10) * u * SA) with ((3 + / 10) * q) in Sm by (unfold q; ring).
    apply Rabs_le_inv in Ez, Sm. apply Rabs_le. split; lra.
  Qed.

  Lemma prod_np (N : nat) (y pl : double) : INR N <= 1000000 -> sized 100000 y -> sized 1 pl ->
    appr (nmul y (nmul pl (nofnat N))) (INR N * (B2R y * B2R pl)) (INR N * Rabs (B2R y * B2R pl)) (3 + / 10) (/ 10000000000000000000).
  Proof.
    intros HN (Fy & By) (Fp & Bp). pose proof (pos_INR N) as P0. pose proof eta_small. assert (NZ : (Z.of_nat N < 9007199254740992)%Z) by (apply lt_IZR; rewrite <- INR_IZR_INZ; lra).
    destruct (nofnat_ex fexp fsin fcos fsum N NZ) as (Fn & Vn). change (@nofnat _ (QOps fexp fsin fcos fsum) N) with (nofnat N : double) in *. cbn [nmul StOps DoubleOps].
    pose proof (ap_exact y _ Fy (Rle_refl _)) as Y. pose proof (ap_exact pl _ Fp (Rle_refl _)) as P. pose proof (ap_exact (nofnat N) (INR N) Fn ltac:(rewrite Vn, Rabs_pos_eq; lra)) as NN. rewrite Vn in NN.
    pose proof (Rabs_pos (B2R y)). pose proof (Rabs_pos (B2R pl)). assert (0 <= Rabs (B2R pl) * INR N <= 1 * 1000000) by (split; [apply Rmult_le_pos; lra|apply Rmult_le_compat; lra]).
    pose proof (ap_mult _ _ _ _ _ _ _ _ _ _ (1 + / 100) eta P NN ltac:(lra) ltac:(lra) ltac:(lra) ltac:(lra) ltac:(lra) ltac:(lra) ltac:(lra) ltac:(lra) ltac:(lra)) as PN.
    assert (0 <= Rabs (B2R y) * (Rabs (B2R pl) * INR N) <= 100000 * 1000000) by (split; [apply Rmult_le_pos; lra|apply Rmult_le_compat; lra]).
    assert (0 <= Rabs (B2R y) * eta <= 100000 * eta) by (split; [apply Rmult_le_pos; lra|apply Rmult_le_compat_r; lra]).
    pose proof (ap_mult _ _ _ _ _ _ _ _ _ _ (3 + / 10) (/ 10000000000000000000) Y PN ltac:(lra) ltac:(lra) ltac:(lra) ltac:(lra) ltac:(unfold eta in *; lra) ltac:(lra) ltac:(lra) ltac:(lra) ltac:(unfold eta in *; lra)) as Z.
    replace (INR N * (B2R y * B2R pl)) with (B2R y * (B2R pl * INR N)) by ring. replace (INR N * Rabs (B2R y * B2R pl)) with (Rabs (B2R y) * (Rabs (B2R pl) * INR N)) by (rewrite Rabs_mult; ring). exact Z.
  Qed.
  Lemma prod_torch (N : nat) (y pl : double) : INR N <= 1000000 -> sized 100000 y -> sized 1 pl ->
    appr (nmul (nmul (nofnat N) y) pl) (INR N * (B2R y * B2R pl)) (INR N * Rabs (B2R y * B2R pl)) (3 + / 10) (/ 10000000000000000000).
  Proof.
    intros HN (Fy & By) (Fp & Bp). pose proof (pos_INR N) as P0. pose proof eta_small. assert (NZ : (Z.of_nat N < 9007199254740992)%Z) by (apply lt_IZR; rewrite <- INR_IZR_INZ; lra).
    destruct (nofnat_ex fexp fsin fcos fsum N NZ) as (Fn & Vn). change (@nofnat _ (QOps fexp fsin fcos fsum) N) with (nofnat N : double) in *. cbn [nmul StOps DoubleOps].
    pose proof (ap_exact y _ Fy (Rle_refl _)) as Y. pose proof (ap_exact pl _ Fp (Rle_refl _)) as P. pose proof (ap_exact (nofnat N) (INR N) Fn ltac:(rewrite Vn, Rabs_pos_eq; lra)) as NN. rewrite Vn in NN.
    pose proof (Rabs_pos (B2R y)). pose proof (Rabs_pos (B2R pl)). assert (0 <= INR N * Rabs (B2R y) <= 1000000 * 100000) by (split; [apply Rmult_le_pos; lra|apply Rmult_le_compat; lra]).
    pose proof (ap_mult _ _ _ _ _ _ _ _ _ _ (1 + / 100) eta NN Y ltac:(lra) ltac:(lra) ltac:(lra) ltac:(lra) ltac:(lra) ltac:(lra) ltac:(lra) ltac:(lra) ltac:(lra)) as PN.
    assert (0 <= INR N * Rabs (B2R y) * Rabs (B2R pl) <= 100000000000 * 1) by (split; [apply Rmult_le_pos; lra|apply Rmult_le_compat; lra]).
    assert (0 <= Rabs (B2R pl) * eta <= 1 * eta) by (split; [apply Rmult_le_pos; lra|apply Rmult_le_compat_r; lra]).
    pose proof (ap_mult _ _ _ _ _ _ _ _ _ _ (3 + / 10) (/ 10000000000000000000) PN P ltac:(lra) ltac:(lra) ltac:(lra) ltac:(lra) ltac:(lra) ltac:(lra) ltac:(lra) ltac:(lra) ltac:(unfold eta in *; lra)) as Z.
    replace (INR N * (B2R y * B2R pl)) with (INR N * B2R y * B2R pl) by ring. replace (INR N * Rabs (B2R y * B2R pl)) with (INR N * Rabs (B2R y) * Rabs (B2R pl)) by (rewrite Rabs_mult; ring). exact Z.
  Qed.
  Lemma sum_fin (N : nat) (f : nat -> double) : finite (nsum (map f (seq 0 N))) -> forall m, (m < N)%nat -> finite (f m).
  Proof. intros H m Hm. apply (tree_fin_all _ _ (Hs (map f (seq 0 N))) H). apply in_map_iff. exists m. split; [reflexivity|apply in_seq; lia]. Qed.

  Context {S : Type} (E : Ext double S).
  Lemma noisy_ok g fd t (x x' : mat) s s' : noisy_step E nmilli g fd t x x' s s' -> r_noisy E g fd t x x' s s'.
  Proof. intros (F & W & A & B & H). exists F, W. split; [exact A|]. split; [exact B|]. intros d n Hd Hn. rewrite H by auto. apply noisy_close_ok. Qed.
  Lemma flow_ok kern m g fd t (x x' : mat) s s' : flow_step E nmilli kern m g fd t x x' s s' -> r_flow E kern m g fd t x x' s s'.
  Proof.
    intros (F & bnds & rows & score & A & B & C & D & G & H). exists F, bnds, rows, score. split; [exact A|]. split; [exact B|]. split; [exact C|]. split; [exact D|]. split; [intros d Hd; now apply G|].
    intros d n Hd Hn. rewrite H by auto. apply flow_close_ok.
  Qed.
  Lemma tflow_ok m g fd t (x x' : mat) s s' : t_flow_step E nmilli m g fd t x x' s s' -> r_tflow E m g fd t x x' s s'.
  Proof.
    intros (F & bnds & P & G & A & B & C & D & Q & _ & _ & H). exists F, bnds, P, G. split; [exact A|]. split; [exact B|]. split; [exact C|]. split; [exact D|]. split; [exact Q|].
    intros d n Hd Hn. rewrite H by auto. apply flow_close_ok.
  Qed.
  Lemma back_noisy_ok kern m g fd t z (b b' : mat) s s' : back_noisy_step E nmilli kern m g fd t z b b' s s' -> r_back_noisy E kern m g fd t z b b' s s'.
  Proof. intros (F & W & score & s1 & A & B & C & H). exists F, W, score, s1. split; [exact A|]. split; [exact B|]. split; [exact C|]. intros d n Hd Hn. rewrite H by auto. apply back_noisy_close_ok. Qed.
  Lemma tback_noisy_ok kern m g fd t z (b b' : mat) s s' : t_back_noisy_step E nmilli kern m g fd t z b b' s s' -> r_tback_noisy E kern m g fd t z b b' s s'.
  Proof. intros (F & W & score & s1 & A & B & C & H). exists F, W, score, s1. split; [exact A|]. split; [exact B|]. split; [exact C|]. intros d n Hd Hn. rewrite H by auto. apply back_noisy_close_ok. Qed.
  Lemma back_flow_ok kern m g fd t z (b b' : mat) s s' : back_flow_step E nmilli kern m g fd t z b b' s s' -> r_back_flow E kern m g fd t z b b' s s'.
  Proof. intros (F & sz & sb & s1 & A & B & C & H). exists F, sz, sb, s1. split; [exact A|]. split; [exact B|]. split; [exact C|]. intros d n Hd Hn. rewrite H by auto. apply back_flow_close_ok. Qed.
  Lemma tback_flow_ok kern m g fd t z (b b' : mat) s s' : t_back_flow_step E nmilli kern m g fd t z b b' s s' -> r_tback_flow E kern m g fd t z b b' s s'.
  Proof. intros (F & sz & sb & s1 & A & B & C & H). exists F, sz, sb, s1. split; [exact A|]. split; [exact B|]. split; [exact C|]. intros d n Hd Hn. rewrite H by auto. apply back_flow_close_ok. Qed.
  Lemma particles_ok g f (x x' : mat) s s' : particle_step E nmilli g f x x' s s' -> r_particles E g f x x' s s'.
  Proof.
    intros (sg & A & B & H). exists sg. split; [exact A|]. split; [exact B|]. intros n Hn. destruct (H n Hn) as (F & W & C & D & G). exists F, W. split; [exact C|]. split; [exact D|].
    intros d Hd. rewrite G by auto. apply noisy_close_ok.
  Qed.
  Lemma reweighted_ok e (y x' : mat) : reweighted E e y x' -> r_reweighted E e y x'.
  Proof.
    unfold reweighted, r_reweighted. set (N := mc y). set (ws := map (fun n => nexp (e n)) (seq 0 N)). intros (cost & flow & A & B & C & D & -> & H). eexists _, cost. split; [|split; [reflexivity|]].
    { unfold ws. now rewrite !map_length, seq_length. }
    split; [exact A|]. split; [exact B|]. split; [exact C|]. split; [exact D|]. cbv zeta. set (w := map (fun v => ndiv v (nsum ws)) ws) in *. set (pl := x_emd E w (repeat (ndiv none1 (nofnat N)) N) cost) in *.
    intros d n Hd Hn. fold N in Hn |- *. rewrite H by auto. split.
    - intros F m Hm. pose proof (sum_fin N (fun m => nmul (get y d m) (nmul (pl m n) (nofnat N))) F m Hm) as Q. cbn [nmul StOps DoubleOps] in Q. apply mult_fin2 in Q. destruct Q as (Q1 & Q2). apply mult_fin2 in Q2. tauto.
    - intros HN Hsz. apply (mapped_entry N (get y d) (fun m => pl m n)); auto. intros m Hm. destruct (Hsz m Hm). now apply prod_np.
  Qed.
  Lemma treweighted_ok e (y x' : mat) : t_reweighted E e y x' -> r_treweighted E e y x'.
  Proof.
    unfold t_reweighted, r_treweighted. set (N := mc y). set (ws := map (fun n => nexp (e n)) (seq 0 N)). cbv zeta. intros (mx & cost & flow & A0 & A & B & C & D & -> & H). eexists _, mx, cost. split; [|split; [reflexivity|]].
    { unfold ws. now rewrite !map_length, seq_length. }
    split; [exact A|]. split; [exact B|]. split; [exact C|]. split; [split; [exact A0|exact D]|]. set (w := map (fun v => ndiv v (nsum ws)) ws) in *. set (pl := x_otemd E w (repeat (ndiv none1 (nofnat N)) N) cost) in *.
    intros d n Hd Hn. fold N in Hn |- *. rewrite H by auto. split.
    - intros F m Hm. pose proof (sum_fin N (fun m => nmul (nmul (nofnat N) (get y d m)) (pl m n)) F m Hm) as Q. cbn [nmul StOps DoubleOps] in Q. apply mult_fin2 in Q. destruct Q as (Q1 & Q2). apply mult_fin2 in Q1. tauto.
    - intros HN Hsz. apply (mapped_entry N (get y d) (fun m => pl m n)); auto. intros m Hm. destruct (Hsz m Hm). now apply prod_torch.
  Qed.

  Section Obj.
    Context (p : params double) (s : S) (o : obj double) (s' : S) (Hc : construct E p s = (Ok o, s')).
    Let k := List.length (o_grid o).

    Theorem C85_forward : p_det p = true -> (1 <= k)%nat -> exists sg : nat -> S, sg 0%nat = s /\
      forall i, (1 <= i < k)%nat ->
        let t := nth i (o_grid o) nzero in let x := slice (o_Z o) (i - 1) in let x' := slice (o_Z o) i in
        if p_reweight p
        then exists y w, rect y /\ mr y = mr x /\ mc y = mc x /\ r_step E (o_kern o) (p_M p) (p_g p) (call2 (p_f p)) i t x y (sg (i - 1)%nat) (sg i) /\
               ocall2 (p_U p) y t = Ok w /\ r_reweighted E (fun n => nmul (elem w 0 n) nmilli) y x'
        else r_step E (o_kern o) (p_M p) (p_g p) (call2 (p_f p)) i t x x' (sg (i - 1)%nat) (sg i).
    Proof.
      intros Hd Hk. destruct (C06_forward_recurrence E p s o s' Hc Hd Hk) as (sg & H0 & H). exists sg. split; [exact H0|]. intros i Hi. specialize (H i Hi). cbv zeta.
      assert (ST : forall y, plain_step E nmilli (o_kern o) (p_M p) (p_g p) (call2 (p_f p)) i (nth i (o_grid o) nzero) (slice (o_Z o) (i - 1)) y (sg (i - 1)%nat) (sg i) ->
                             r_step E (o_kern o) (p_M p) (p_g p) (call2 (p_f p)) i (nth i (o_grid o) nzero) (slice (o_Z o) (i - 1)) y (sg (i - 1)%nat) (sg i)).
      { intros y P. unfold plain_step in P. unfold r_step. destruct (i =? 1)%nat; [now apply noisy_ok|now apply flow_ok]. }
      destruct (p_reweight p); [|now apply ST]. destruct H as (y & w & A & B & C & D & F & G). exists y, w. split; [exact A|]. split; [exact B|]. split; [exact C|]. split; [now apply ST|]. split; [exact F|]. now apply reweighted_ok.
    Qed.
    Theorem C85_bridge_flow : p_det p = true -> p_reweight p = true -> p_brown p = true -> (1 <= k)%nat -> exists Zt (sg : nat -> S), o_Ztr o = Some Zt /\
      forall i, (1 <= i < k)%nat -> r_step E (o_kern o) (p_M p) (p_g p) (ocall2 (p_f_true p)) i (nth i (o_grid o) nzero) (slice Zt (i - 1)) (slice Zt i) (sg (i - 1)%nat) (sg i).
    Proof.
      intros Hd Hr Hb Hk. destruct (C08_bridge_flow E p s o s' Hc Hd Hr Hb Hk) as (Zt & sg & HZ & _ & H). exists Zt, sg. split; [exact HZ|]. intros i Hi. specialize (H i Hi).
      unfold plain_step in H. unfold r_step. destruct (i =? 1)%nat; [now apply noisy_ok|now apply flow_ok].
    Qed.
    Theorem C85_backward : exists sg : nat -> S, sg 1%nat = s' /\
      forall j, (1 <= j)%nat -> (j + 1 < k)%nat ->
        let t := nth (j + 1) (o_grid o) nzero in
        if ((j =? k - 2)%nat || negb (p_det p))%bool
        then r_back_noisy E (o_kern o) (p_M p) (p_g p) (call2 (p_f p)) t (slice (o_Z o) (j + 1)) (slice (o_B o) (j + 1)) (slice (o_B o) j) (sg (j + 1)%nat) (sg j)
        else r_back_flow E (o_kern o) (p_M p) (p_g p) (call2 (p_f p)) t (slice (o_Z o) (j + 1)) (slice (o_B o) (j + 1)) (slice (o_B o) j) (sg (j + 1)%nat) (sg j).
    Proof.
      destruct (C07_backward_recurrence E p s o s' Hc) as (sg & H0 & H). exists sg. split; [exact H0|]. intros j H1 H2. specialize (H j H1 H2). fold k in H. cbv zeta.
      destruct (_ || _)%bool; [now apply back_noisy_ok|now apply back_flow_ok].
    Qed.
    Theorem C85_stochastic : p_det p = false -> (2 <= k)%nat -> exists sg : nat -> S, sg 0%nat = s /\
      forall i, (1 <= i < k - 1)%nat ->
        let x := slice (o_Z o) (i - 1) in let x' := slice (o_Z o) i in
        if p_reweight p
        then exists y w, rect y /\ mr y = mr x /\ mc y = mc x /\ r_particles E (p_g p) (call1 (p_f p)) x y (sg (i - 1)%nat) (sg i) /\
               ocall1 (p_U p) y = Ok w /\ r_reweighted E (fun n => elem w 0 n) y x'
        else r_particles E (p_g p) (call1 (p_f p)) x x' (sg (i - 1)%nat) (sg i).
    Proof.
      intros Hd Hk. destruct (C56_stochastic_recurrence E p s o s' Hc Hd Hk) as (sg & H0 & H). exists sg. split; [exact H0|]. intros i Hi. specialize (H i Hi). cbv zeta.
      destruct (p_reweight p); [|now apply particles_ok]. destruct H as (y & w & A & B & C & D & F & G). exists y, w. split; [exact A|]. split; [exact B|]. split; [exact C|]. split; [now apply particles_ok|]. split; [exact F|]. now apply reweighted_ok.
    Qed.
    (** an infinity or NaN never heals: a finite coordinate of a time-reversed particle was finite at all later inner grid points *)
    Theorem C85_finite_history : forall i j d n, (1 <= i <= j)%nat -> (j < k)%nat -> (d < List.length (p_y1 p))%nat -> (n < p_N p)%nat -> finite (get3 (o_B o) d n i) -> finite (get3 (o_B o) d n j).
    Proof.
      intros i j d n Hij Hj Hd Hn F. induction j as [|j IH]; [lia|]. destruct (Nat.eq_dec i (Datatypes.S j)) as [<-|]; [exact F|]. specialize (IH ltac:(lia) ltac:(lia)).
      destruct C85_backward as (sg & _ & H). specialize (H j ltac:(lia) ltac:(unfold k in *; lia)). cbv zeta in H. unfold get3 in *. replace (j + 1)%nat with (Datatypes.S j) in H by lia.
      destruct (B_run E p s o s' Hc) as (s2 & HB & _). destruct (sh_slice _ _ _ _ (Datatypes.S j) HB Hj) as (_ & R & C).
      destruct (_ || _)%bool; [destruct H as (F0 & W & sc & s1 & _ & _ & _ & H)|destruct H as (F0 & sz & sb & s1 & _ & _ & _ & H)]; apply (H d n ltac:(lia) ltac:(lia)); exact IH.
    Qed.
  End Obj.

  Section TObj.
    Context (b : ykind) (p : params double) (s : S) (o : obj double) (s' : S) (Hc : t_construct E b p s = (Ok o, s')) (Hy : p_y1 p <> []).
    Let k := List.length (o_grid o).

    Theorem C85_torch_forward : p_det p = true -> exists sg : nat -> S, sg 0%nat = s /\
      forall i, (1 <= i < k)%nat ->
        let t := nth i (o_grid o) nzero in let x := slice (o_Z o) (i - 1) in let x' := slice (o_Z o) i in
        if p_reweight p
        then exists y w, rect y /\ mr y = mr x /\ mc y = mc x /\ r_tstep E (p_M p) (p_g p) (call2 (p_f p)) i t x y (sg (i - 1)%nat) (sg i) /\
               ocall2 (p_U p) y t = Ok w /\ r_treweighted E (fun n => nmul (elem w 0 n) nmilli) y x'
        else r_tstep E (p_M p) (p_g p) (call2 (p_f p)) i t x x' (sg (i - 1)%nat) (sg i).
    Proof.
      intros Hd. destruct (C57_torch_forward_recurrence E b p s o s' Hc Hy Hd) as (sg & H0 & H). exists sg. split; [exact H0|]. intros i Hi. specialize (H i Hi). cbv zeta.
      assert (ST : forall y, t_plain_step E nmilli (p_M p) (p_g p) (call2 (p_f p)) i (nth i (o_grid o) nzero) (slice (o_Z o) (i - 1)) y (sg (i - 1)%nat) (sg i) ->
                             r_tstep E (p_M p) (p_g p) (call2 (p_f p)) i (nth i (o_grid o) nzero) (slice (o_Z o) (i - 1)) y (sg (i - 1)%nat) (sg i)).
      { intros y P. unfold t_plain_step in P. unfold r_tstep. destruct (i =? 1)%nat; [now apply noisy_ok|now apply tflow_ok]. }
      destruct (p_reweight p); [|now apply ST]. destruct H as (y & w & A & B & C & D & F & G). exists y, w. split; [exact A|]. split; [exact B|]. split; [exact C|]. split; [now apply ST|]. split; [exact F|]. now apply treweighted_ok.
    Qed.
    Theorem C85_torch_backward : exists sg : nat -> S, sg 1%nat = s' /\
      forall j, (1 <= j)%nat -> (j + 1 < k)%nat ->
        let t := nth (j + 1) (o_grid o) nzero in
        if ((j =? k - 2)%nat || negb (p_det p))%bool
        then r_tback_noisy E (o_kern o) (p_M p) (p_g p) (call2 (p_f p)) t (slice (o_Z o) (j + 1)) (slice (o_B o) (j + 1)) (slice (o_B o) j) (sg (j + 1)%nat) (sg j)
        else r_tback_flow E (o_kern o) (p_M p) (p_g p) (call2 (p_f p)) t (slice (o_Z o) (j + 1)) (slice (o_B o) (j + 1)) (slice (o_B o) j) (sg (j + 1)%nat) (sg j).
    Proof.
      destruct (C58_torch_backward_recurrence E b p s o s' Hc Hy) as (sg & H0 & H). exists sg. split; [exact H0|]. intros j H1 H2. specialize (H j H1 H2). fold k in H. cbv zeta.
      destruct (_ || _)%bool; [now apply tback_noisy_ok|now apply tback_flow_ok].
    Qed.
    Theorem C85_torch_stochastic : p_det p = false -> exists sg : nat -> S, sg 0%nat = s /\
      forall i, (1 <= i < k)%nat ->
        let t := nth i (o_grid o) nzero in let x := slice (o_Z o) (i - 1) in let x' := slice (o_Z o) i in
        if p_reweight p
        then exists y w, rect y /\ mr y = mr x /\ mc y = mc x /\ r_noisy E (p_g p) (call2 (p_f p)) (nsub t nmilli) x y (sg (i - 1)%nat) (sg i) /\
               ocall1 (p_U p) y = Ok w /\ r_treweighted E (fun n => elem w 0 n) y x'
        else r_noisy E (p_g p) (call2 (p_f p)) (nsub t nmilli) x x' (sg (i - 1)%nat) (sg i).
    Proof.
      intros Hd. destruct (C59_torch_stochastic_recurrence E b p s o s' Hc Hy Hd) as (sg & H0 & H). exists sg. split; [exact H0|]. intros i Hi. specialize (H i Hi). cbv zeta.
      destruct (p_reweight p); [|now apply noisy_ok]. destruct H as (y & w & A & B & C & D & F & G). exists y, w. split; [exact A|]. split; [exact B|]. split; [exact C|]. split; [now apply noisy_ok|]. split; [exact F|]. now apply treweighted_ok.
    Qed.
    Theorem C85_torch_finite_history : forall i j d n, (1 <= i <= j)%nat -> (j < k)%nat -> (d < List.length (p_y1 p))%nat -> (n < p_N p)%nat -> finite (get3 (o_B o) d n i) -> finite (get3 (o_B o) d n j).
    Proof.
      intros i j d n Hij Hj Hd Hn F. induction j as [|j IH]; [lia|]. destruct (Nat.eq_dec i (Datatypes.S j)) as [<-|]; [exact F|]. specialize (IH ltac:(lia) ltac:(lia)).
      destruct C85_torch_backward as (sg & _ & H). specialize (H j ltac:(lia) ltac:(unfold k in *; lia)). cbv zeta in H. unfold get3 in *. replace (j + 1)%nat with (Datatypes.S j) in H by lia.
      destruct (tB_run E b p s o s' Hc Hy) as (s2 & HB & _). destruct (sh_slice _ _ _ _ (Datatypes.S j) HB Hj) as (_ & R & C).
      destruct (_ || _)%bool; [destruct H as (F0 & W & sc & s1 & _ & _ & _ & H)|destruct H as (F0 & sz & sb & s1 & _ & _ & _ & H)]; apply (H d n ltac:(lia) ltac:(lia)); exact IH.
    Qed.
  End TObj.
End C85.
