(** C80: the importance weights in double precision. *)
From Coq Require Import String List ZArith Reals Bool Lia Lra.
From Flocq Require Import Core BinarySingleNaN.
From Verif Require Import Base.Num Base.Py Base.Arr Lib.ArrLemmas Model.Ext Model.DPFC Run.Double Spec.DoubleSpec Spec.RealSpec Spec.ReweightSpec Spec.FlowSpec Lib.RSum Lib.StepLemmas Lib.FlowLemmas Lib.DoubleLemmas Props.Flows Lib.QueryLemmas Props.Queries.
Import ListNotations.
Local Open Scope R_scope.

Lemma sumn_abs n f : Rabs (sumn n f) <= sumn n (fun i => Rabs (f i)).
Proof. induction n as [|n IH]; cbn [sumn]; [rewrite Rabs_R0; lra|]. eapply Rle_trans; [apply Rabs_triang|]. lra. Qed.

Section Weights.
  Context (fexp fsin fcos : double -> double) (fsum : list double -> double).
  #[local] Instance DOps : NumOps double := DoubleOps fexp fsin fcos fsum.

  Lemma total_seq N (x : nat -> double) : total (map x (seq 0 N)) = sumn N (fun n => B2R (x n)).
  Proof. induction N as [|N IH]; [reflexivity|]. rewrite seq_S, map_app, total_app, IH. cbn. lra. Qed.

  Section One.
    Context (Hs : sum_contract fsum) (He : exp_contract fexp) (N : nat) (e : mat double) (w : list double) (Hw : weights_of N e = Ok w).
    Let x n := fexp (elem e 0 n).
    Let s := fsum (map x (seq 0 N)).
    Lemma w_len : List.length w = N.
    Proof. apply weights_of_ok in Hw. destruct Hw as (_ & ->). now rewrite !map_length, seq_length. Qed.
    Lemma w_val n d : (n < N)%nat -> nth n w d = Bdiv mode_NE (x n) s.
    Proof.
      intro Hn. apply weights_of_ok in Hw. destruct Hw as (_ & ->). cbv zeta. rewrite map_map. rewrite nth_map_seq by auto. reflexivity.
    Qed.
    Lemma in_x z : In z (map x (seq 0 N)) <-> exists n, (n < N)%nat /\ z = x n.
    Proof. rewrite in_map_iff. split; intros (n & A & B); exists n; rewrite in_seq in *; [split; [lia|auto]|split; [auto|lia]]. Qed.
    Context (Hnum : forall n, (n < N)%nat -> number (elem e 0 n)).
    Lemma x_nn z : In z (map x (seq 0 N)) -> nn z.
    Proof. intro H. apply in_x in H. destruct H as (n & Hn & ->). apply nn_dle, He. auto. Qed.

    (** the sum is finite and positive: proper weights *)
    Lemma regular : finite s -> 0 < B2R s ->
      (forall n, (n < N)%nat -> finite (nth n w dNaN) /\ 0 <= B2R (nth n w dNaN) <= 1 /\ B2R (nth n w dNaN) = rnd (B2R (x n) / B2R s) /\ finite (x n) /\ 0 <= B2R (x n)).
    Proof.
      intros Fs Ps n Hn. destruct (tree_nn _ _ (Hs (map x (seq 0 N))) x_nn) as (A & B & C & _). fold s in A, B, C.
      destruct (C Fs) as (F & _). specialize (F (x n) ltac:(apply in_x; eauto)). specialize (B (x n) ltac:(apply in_x; eauto)). rewrite !ext_fin in B by auto.
      destruct (x_nn (x n) ltac:(apply in_x; eauto)) as (_ & P). rewrite ext_fin in P by auto.
      rewrite w_val by auto. destruct (div_unit (x n) s F Fs ltac:(lra) Ps) as (D1 & D2 & D3). auto.
    Qed.
  End One.

  (** C80.  The weights are proper (finite, between 0 and 1, adding up to 1 within N 2^-50) or unusable: all NaN if every exponential
      underflows to zero, all 0 or NaN if their sum overflows *)
  Theorem C80_weights (N : nat) (e : mat double) w : sum_contract fsum -> exp_contract fexp ->
    (1 <= N)%nat -> INR N <= 2251799813685248 -> weights_of N e = Ok w -> (forall n, (n < N)%nat -> number (elem e 0 n)) ->
    exists s, tree_sum (map (fun n => fexp (elem e 0 n)) (seq 0 N)) s /\ List.length w = N /\
    ((finite s /\ 0 < B2R s /\ (forall n, (n < N)%nat -> finite (nth n w dNaN) /\ 0 <= B2R (nth n w dNaN) <= 1) /\
      Rabs (sumn N (fun n => B2R (nth n w dNaN)) - 1) <= INR N * / 1125899906842624)
     \/ ((forall n, (n < N)%nat -> finite (fexp (elem e 0 n)) /\ B2R (fexp (elem e 0 n)) = 0) /\ w = repeat dNaN N)
     \/ (s = dinf /\ forall n, (n < N)%nat -> (finite (fexp (elem e 0 n)) -> finite (nth n w dNaN) /\ B2R (nth n w dNaN) = 0) /\
                                              (~ finite (fexp (elem e 0 n)) -> nth n w (dZ 0) = dNaN))).
  Proof.
    intros Hs He HN HB Hw Hnum. set (x n := fexp (elem e 0 n)). set (s := fsum (map x (seq 0 N))).
    exists s. split; [apply Hs|]. split; [now apply (w_len N e)|].
    destruct (tree_nn _ _ (Hs (map x (seq 0 N))) (x_nn He N e Hnum)) as (A & B & C & D). fold s in A, B, C, D.
    assert (Hi : forall n, (n < N)%nat -> In (x n) (map x (seq 0 N))) by (intros; apply in_x; eauto).
    destruct (nn_cases s A) as [(Fs & Ps) | Is].
    - destruct (Req_dec (B2R s) 0) as [Z|NZ].
      + right; left. assert (X : forall n, (n < N)%nat -> finite (x n) /\ B2R (x n) = 0).
        { intros n Hn. destruct (C Fs) as (F & _). specialize (F _ (Hi n Hn)). split; [auto|]. specialize (B _ (Hi n Hn)). rewrite !ext_fin, Z in B by auto.
          destruct (x_nn He N e Hnum (x n) (Hi n Hn)) as (_ & P). rewrite ext_fin in P by auto. lra. }
        split; [exact X|]. apply nth_ext with (d := dNaN) (d' := dNaN); [rewrite repeat_length; now apply (w_len N e)|].
        intros n Hn. rewrite (w_len N e w Hw) in Hn. rewrite (w_val N e w Hw n dNaN Hn), nth_repeat. apply div_zero; auto; now apply X.
      + left. assert (P : 0 < B2R s) by lra. pose proof (regular Hs He N e w Hw Hnum Fs P) as Rg. fold x in Rg. fold s in Rg. split; [auto|]. split; [auto|].
        split. { intros n Hn. now destruct (Rg n Hn) as (R1 & R2 & _). }
        destruct (C Fs) as (_ & T). rewrite total_seq, map_length, seq_length in T. set (X := sumn N (fun n => B2R (x n))) in *.
        assert (PX : 0 <= X) by (apply sumn_ge0; intros; now apply Rg).
        pose proof u_pos as U. pose proof (pos_INR N) as PN. assert (N1 : 1 <= INR N) by (change 1 with (INR 1); now apply le_INR). set (q := 2 * INR N * u).
        assert (Hq : 0 <= q <= / 2). { unfold q, u in *. lra. }
        pose proof (gam_lin N ltac:(unfold q in Hq; lra)) as G. fold q in G. pose proof (gam_ge N) as G1.
        assert (T1 : X * (1 - q) <= B2R s <= X * (1 + q)). { split; [eapply Rle_trans; [|apply T]|eapply Rle_trans; [apply T|]]; apply Rmult_le_compat_l; lra. }
        assert (T2 : 1 - q <= X / B2R s <= 1 + 2 * q).
        { split; apply Rmult_le_reg_r with (B2R s); auto; unfold Rdiv; rewrite Rmult_assoc, Rinv_l, Rmult_1_r by lra; nra. }
        assert (T3 : sumn N (fun n => B2R (x n) / B2R s) = X / B2R s) by apply sumn_div.
        assert (Rn : Rabs (sumn N (fun n => B2R (nth n w dNaN)) - sumn N (fun n => B2R (x n) / B2R s)) <= sumn N (fun n => u * (B2R (x n) / B2R s) + eta)).
        { rewrite <- sumn_minus. eapply Rle_trans; [apply sumn_abs|]. apply sumn_le. intros n Hn. destruct (Rg n Hn) as (_ & _ & -> & _ & Q).
          eapply Rle_trans; [apply rnd_error|]. rewrite (Rabs_pos_eq (B2R (x n) / B2R s)); [lra|]. apply Rmult_le_pos; [auto|]. left. now apply Rinv_0_lt_compat. }
        rewrite sumn_plus, sumn_const, sumn_scal, T3 in Rn. apply Rabs_le_inv in Rn. apply Rabs_le. unfold q, eta, u in *. split; nra.
    - right; right. split; [exact Is|]. intros n Hn. assert (Ns : s = dinf) by auto. split; intro F.
      + rewrite (w_val N e w Hw n dNaN Hn). fold x s. rewrite Ns. now apply div_inf.
      + rewrite (w_val N e w Hw n (dZ 0) Hn). fold x s. rewrite Ns. destruct (nn_cases (x n) (x_nn He N e Hnum (x n) (Hi n Hn))) as [(F' & _) | Q]; [contradiction|]. change (Bdiv mode_NE (x n) dinf = dNaN). now rewrite Q.
  Qed.

  (** every exponent far below zero: all weights are NaN, although the exact weights (C33) are those of any shifted constraint *)
  Theorem C80_underflow (N : nat) (e : mat double) w : sum_contract fsum -> exp_contract fexp -> weights_of N e = Ok w ->
    (forall n, (n < N)%nat -> dle (elem e 0 n) (dZ (-760))) -> w = repeat dNaN N.
  Proof.
    intros Hs He Hw Hn. apply nth_ext with (d := dNaN) (d' := dNaN); [rewrite repeat_length; now apply (w_len N e)|].
    intros n Hl. rewrite (w_len N e w Hw) in Hl. rewrite (w_val N e w Hw n dNaN Hl), nth_repeat.
    assert (X : forall m, (m < N)%nat -> fexp (elem e 0 m) = dZ 0) by (intros; apply He; auto).
    rewrite X by auto. replace (map (fun m => fexp (elem e 0 m)) (seq 0 N)) with (repeat (dZ 0) N).
    2: { apply nth_ext with (d := dZ 0) (d' := dZ 0); [now rewrite repeat_length, map_length, seq_length|]. intros m Hm. rewrite repeat_length in Hm. rewrite nth_repeat, nth_map_seq by auto. now rewrite X. }
    destruct (tree_nn _ _ (Hs (repeat (dZ 0) N))) as (_ & _ & C & D). { intros z Hz. apply repeat_spec in Hz. subst z. apply nn_dle. reflexivity. }
    assert (F : finite (fsum (repeat (dZ 0) N))). { apply D. intros z Hz. apply repeat_spec in Hz. subst z. now split. }
    apply div_zero; [reflexivity|reflexivity|exact F|]. destruct (C F) as (_ & V). replace (total (repeat (dZ 0) N)) with 0 in V; [lra|].
    clear. induction N as [|N IH]; [reflexivity|]. cbn [repeat total fold_right]. fold (total (repeat (dZ 0) N)). rewrite <- IH. cbn. lra.
  Qed.

  (** exponents of moderate size: the weights are those of C33 up to rounding *)
  Lemma exp_nat n : exp (INR n) = exp 1 ^ n.
  Proof. induction n as [|n IH]; [apply exp_0|]. rewrite S_INR, exp_plus, IH. cbn [pow]. ring. Qed.
  Lemma exp_600 : exp 600 <= bpow radix2 960.
  Proof.
    replace 600 with (INR 600) by (rewrite INR_IZR_INZ; reflexivity). rewrite exp_nat. change 600%nat with (5 * 120)%nat. rewrite pow_mult.
    replace (bpow radix2 960) with ((2 ^ 8) ^ 120). 2: { rewrite <- pow_mult. change (bpow radix2 960) with (IZR (Zpower_pos 2 960)). rewrite Zpower_pos_nat. rewrite Zpower_nat_Z, <- pow_IZR. reflexivity. }
    apply pow_incr. pose proof exp_le_3. pose proof (exp_pos 1). split; [apply pow_le; lra|]. apply Rle_trans with (3 ^ 5); [apply pow_incr; lra|lra].
  Qed.
  Theorem C80_accuracy (N : nat) (e : mat double) w : sum_contract fsum -> exp_contract fexp ->
    (1 <= N)%nat -> INR N <= 1073741824 -> weights_of N e = Ok w ->
    (forall n, (n < N)%nat -> finite (elem e 0 n) /\ Rabs (B2R (elem e 0 n)) <= 600) ->
    forall n, (n < N)%nat -> let v := softmax N (fun m => B2R (elem e 0 m)) n in
      finite (nth n w dNaN) /\ Rabs (B2R (nth n w dNaN) - v) <= v * ((4 * INR N + 14) * u) + eta.
  Proof.
    intros Hs He HN HB Hw Hb n Hn v. set (x m := fexp (elem e 0 m)). set (s := fsum (map x (seq 0 N))). set (E m := exp (B2R (elem e 0 m))).
    assert (Hnum : forall m, (m < N)%nat -> number (elem e 0 m)) by (intros; apply fin_number; now apply Hb).
    assert (Hx : forall m, (m < N)%nat -> finite (x m) /\ E m * (1 - 4 * u) <= B2R (x m) <= E m * (1 + 4 * u)).
    { intros m Hm. destruct (Hb m Hm) as (F & B). destruct (ex_accurate _ He _ F B) as (F' & A). split; [exact F'|]. apply Rabs_le_inv in A. unfold E, x. lra. }
    assert (PE : forall m, 0 < E m) by (intro; apply exp_pos). pose proof u_pos as U. assert (Us : u <= / 1000000000) by (unfold u; lra).
    set (T := sumn N E). set (X := sumn N (fun m => B2R (x m))). assert (PT : 0 < T) by (apply sumn_gt0; [lia|auto]).
    assert (HX : T * (1 - 4 * u) <= X <= T * (1 + 4 * u)). { unfold T, X. rewrite <- !sumn_scal_r. split; apply sumn_le; intros; now apply Hx. }
    pose proof (pos_INR N) as PN. assert (N1 : 1 <= INR N) by (change 1 with (INR 1); now apply le_INR). set (q := 2 * INR N * u).
    assert (Hq : 0 <= q <= / 1000000). { unfold q, u in *. lra. } pose proof (gam_lin N ltac:(unfold q in Hq; lra)) as G. fold q in G. pose proof (gam_ge N) as G1.
    assert (Fs : finite s).
    { apply (tree_fin _ _ (Hs (map x (seq 0 N)))).
      - intros z Hz. split; [now apply (x_nn He N e)|]. apply in_x in Hz. destruct Hz as (m & Hm & ->). now apply Hx.
      - rewrite total_seq, map_length, seq_length. fold X. assert (TB : T <= INR N * bpow radix2 960).
        { unfold T. rewrite <- sumn_const. apply sumn_le. intros m Hm. eapply Rle_trans; [|apply exp_600]. destruct (Hb m Hm) as (_ & B). apply Rabs_le_inv in B. unfold E.
          destruct (Req_dec (B2R (elem e 0 m)) 600) as [Q|Q]; [rewrite Q; lra|]. left. apply exp_increasing. lra. }
        assert (PB : 0 < bpow radix2 960) by apply bpow_gt_0.
        assert (Q : 1073741824 * bpow radix2 960 * 2 * 2 <= bpow radix2 1000).
        { replace (1073741824 * bpow radix2 960 * 2 * 2) with (bpow radix2 960 * 4294967296) by ring. change 4294967296 with (bpow radix2 32). rewrite <- bpow_plus. apply bpow_le. lia. }
        eapply Rle_trans; [|exact Q]. apply Rmult_le_compat; try lra; try nra. }
    destruct (tree_nn _ _ (Hs (map x (seq 0 N))) (x_nn He N e Hnum)) as (_ & _ & C & _). destruct (C Fs) as (_ & TS). fold s in TS. rewrite total_seq, map_length, seq_length in TS. fold X in TS.
    assert (PX : 0 < X) by nra.
    assert (TS' : X * (1 - q) <= B2R s <= X * (1 + q)). { split; [eapply Rle_trans; [|apply TS]|eapply Rle_trans; [apply TS|]]; apply Rmult_le_compat_l; lra. }
    assert (Ps : 0 < B2R s) by nra.
    destruct (regular Hs He N e w Hw Hnum Fs Ps n Hn) as (Fw & _ & Vw & _ & Px). fold x in Vw, Px. fold s in Vw. split; [exact Fw|].
    destruct (Hx n Hn) as (_ & Hxn). pose proof (PE n) as PEn.
    assert (Hv : v = E n / T) by reflexivity. assert (Pv : 0 < v) by (rewrite Hv; apply Rdiv_lt_0_compat; auto).
    assert (En : E n = v * T) by (rewrite Hv; field; lra). set (a := 4 * u) in *. assert (Ha : 0 <= a <= / 100000000) by (unfold a; lra).
    assert (S1 : T * ((1 - a) * (1 - q)) <= B2R s) by (eapply Rle_trans; [|apply TS']; rewrite <- Rmult_assoc; apply Rmult_le_compat_r; lra).
    assert (S2 : B2R s <= T * ((1 + a) * (1 + q))) by (eapply Rle_trans; [apply TS'|]; rewrite <- Rmult_assoc; apply Rmult_le_compat_r; lra).
    assert (P1 : 1 + a <= (1 + 2 * q + 3 * a) * ((1 - a) * (1 - q))) by nra.
    assert (P2 : (1 - 2 * a - q) * ((1 + a) * (1 + q)) <= 1 - a) by nra.
    assert (Q : v * (1 - 2 * a - q) <= B2R (x n) / B2R s <= v * (1 + 2 * q + 3 * a)).
    { split; apply Rmult_le_reg_r with (B2R s); auto; unfold Rdiv; rewrite (Rmult_assoc (B2R (x n))), Rinv_l, Rmult_1_r by lra.
      - apply Rle_trans with (v * (1 - 2 * a - q) * (T * ((1 + a) * (1 + q)))). { apply Rmult_le_compat_l; [apply Rmult_le_pos; lra|exact S2]. }
        eapply Rle_trans; [|apply Hxn]. rewrite En. replace (v * (1 - 2 * a - q) * (T * ((1 + a) * (1 + q)))) with (v * T * ((1 - 2 * a - q) * ((1 + a) * (1 + q)))) by ring. apply Rmult_le_compat_l; [apply Rmult_le_pos; lra|exact P2].
      - eapply Rle_trans; [apply Hxn|]. apply Rle_trans with (v * (1 + 2 * q + 3 * a) * (T * ((1 - a) * (1 - q)))).
        + rewrite En. replace (v * (1 + 2 * q + 3 * a) * (T * ((1 - a) * (1 - q)))) with (v * T * ((1 + 2 * q + 3 * a) * ((1 - a) * (1 - q)))) by ring. apply Rmult_le_compat_l; [apply Rmult_le_pos; lra|exact P1].
        + apply Rmult_le_compat_l; [apply Rmult_le_pos; lra|exact S1]. }
    rewrite Vw. pose proof (rnd_error (B2R (x n) / B2R s)) as Er. rewrite (Rabs_pos_eq (B2R (x n) / B2R s)) in Er by (apply Rmult_le_pos; [auto|left; now apply Rinv_0_lt_compat]).
    apply Rabs_le_inv in Er. set (y := B2R (x n) / B2R s) in *. assert (Hy : y <= 2 * v) by nra.
    assert (Uy : u * y <= 2 * (u * v)). { replace (2 * (u * v)) with (u * (2 * v)) by ring. apply Rmult_le_compat_l; lra. }
    replace ((4 * INR N + 14) * u) with (2 * q + 14 * u) by (unfold q; ring). unfold a in *. apply Rabs_le. assert (0 <= v * q) by (apply Rmult_le_pos; lra). assert (0 <= v * u) by (apply Rmult_le_pos; lra). change (B2R (fexp (elem e 0 n)) / B2R s) with y. split; lra.
  Qed.

  (** a whole run: at a time at which the constraint times the step is at most -760 for every particle, the transport solver is called with
      NaN weights *)
  Theorem C80_run {S : Type} (E : Ext double S) p s o s' : sum_contract fsum -> exp_contract fexp ->
    construct E p s = (Ok o, s') -> p_det p = true -> p_reweight p = true ->
    forall i, (1 <= i < List.length (o_grid o))%nat ->
      exists y c, mr y = List.length (p_y1 p) /\ mc y = p_N p /\ ocall2 (p_U p) y (nth i (o_grid o) (dZ 0)) = Ok c /\
        ((forall n, (n < mc y)%nat -> dle (nmul (elem c 0 n) nmilli) (dZ (-760))) ->
         exists cost, forall d n, (d < mr y)%nat -> (n < mc y)%nat ->
           get3 (o_Z o) d n i = fsum (map (fun m => nmul (get y d m) (nmul (x_emd E (repeat dNaN (mc y)) (repeat (ndiv none1 (nofnat (mc y))) (mc y)) cost m n) (nofnat (mc y)))) (seq 0 (mc y)))).
  Proof.
    intros Hs He Hc Hd Hr i Hi. destruct (C06_forward_recurrence E p s o s' Hc Hd ltac:(lia)) as (sg & _ & H). specialize (H i Hi). rewrite Hr in H.
    destruct H as (y & c & Ry & My & Cy & _ & HU & HR). exists y, c.
    destruct (construct_consistent E p s o s' Hc) as (_ & (L & _ & HZ & _)). destruct HZ as (_ & _ & Kz & Lz & Fz). rewrite Forall_forall in Fz.
    destruct (Fz (slice (o_Z o) (i - 1))) as (Z1 & Z2 & _). { unfold slice. apply nth_In. lia. }
    split; [lia|]. split; [lia|]. split; [exact HU|]. intro Hn. unfold reweighted in HR. cbv zeta in HR. destruct HR as (cost & flow & _ & _ & _ & _ & Hf & Hg).
    exists cost. intros d n Hd' Hn'. unfold get3. rewrite (Hg d n Hd' Hn'). rewrite Hf.
    set (m0 := mk 1 (mc y) (fun _ n => nmul (elem c 0 n) nmilli)).
    assert (Hel : forall n, (n < mc y)%nat -> elem m0 0 n = nmul (elem c 0 n) nmilli).
    { intros k Hk. unfold elem, m0. cbn [mr mc mk Nat.eqb]. destruct (Nat.eqb_spec (mc y) 1); rewrite get_mk by lia; [|reflexivity]. now replace k with 0%nat by lia. }
    assert (W : exists w, weights_of (mc y) m0 = Ok w).
    { unfold weights_of, assign_shape, m0. cbn [mexp mmap1 mk mr mc]. rewrite !Nat.eqb_refl. cbn [andb orb rbind]. eauto. }
    destruct W as (w & W). pose proof (C80_underflow (mc y) m0 w Hs He W ltac:(intros; rewrite Hel by auto; auto)) as Wn.
    apply weights_of_ok in W. destruct W as (_ & W). cbv zeta in W. rewrite Wn in W.
    replace (map (fun k => nexp (bget m0 0 k)) (seq 0 (mc y))) with (map (fun n => nexp (nmul (elem c 0 n) nmilli)) (seq 0 (mc y))) in W.
    2: { apply map_ext_in. intros k Hk. apply in_seq in Hk. f_equal. symmetry. apply (Hel k). lia. }
    rewrite <- W. reflexivity.
  Qed.
End Weights.
