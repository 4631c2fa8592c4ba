(** C84: a run (executed) whose ensembles are resolved. *)
From Coq Require Import String List ZArith Reals Bool Lia Lra Psatz.
From Flocq Require Import Core BinarySingleNaN.
From Verif Require Import Base.Num Base.Py Base.Arr Lib.RSum Spec.RealSpec Model.Ext Model.Score Model.DPFC Run.Double Run.DoubleExp Spec.DoubleSpec Spec.FlowSpec Spec.QuerySpec.
From Verif Require Import Lib.CoreLemmas Lib.DoubleLemmas Lib.FlowLemmas Lib.QueryLemmas Props.Flows Props.Queries Props.DoubleQueries Props.DoubleNaNW Props.DoubleEdge.
Import ListNotations.
Local Open Scope R_scope.
Section W.
  Let fid := fun x : double => x.
  #[local] Instance WOps : NumOps double := DoubleOps ratexp fid fid sum_right.
  Lemma resolved4 (z : mat double) d : mc z = 4%nat -> (forall n, (n < 4)%nat -> finite (get z d n) /\ Rabs (coord z d n) <= 1) ->
    / 64 <= Rabs (coord z d 1 - coord z d 0) -> resolved (INR 4) z d 1 /\ / 32768 <= spread (INR 4) z d.
  Proof.
    intros H F D. assert (Sp : / 32768 <= spread (INR 4) z d).
    { unfold spread. rewrite H. set (m := mean 4 (coord z d)). replace (INR 4) with 4 by (cbn; ring). cbn [sumn].
      assert (Q : / 4096 <= (coord z d 1 - coord z d 0) ^ 2). { replace (/ 4096) with ((/ 64) ^ 2) by (cbn; field). rewrite <- (pow2_abs (_ - _)). apply pow_incr. lra. }
      set (a := coord z d 0) in *. set (b := coord z d 1) in *. pose proof (pow2_ge_0 (coord z d 2 - m)). pose proof (pow2_ge_0 (coord z d 3 - m)). pose proof (pow2_ge_0 (a + b - 2 * m)).
      assert ((a - m) ^ 2 + (b - m) ^ 2 = (b - a) ^ 2 / 2 + (a + b - 2 * m) ^ 2 / 2) by field. lra. }
    split; [|exact Sp]. unfold resolved. rewrite H. replace (INR 4) with 4 in * by (cbn; ring). split; [lia|]. split; [lra|]. split; [lra|]. split; [exact F|]. split; [lra|]. lra.
  Qed.
  (** all four coordinates at grid point 2 are between -1 and 1, and the first two differ by more than 1/64 *)
  Definition good (A : arr3 double) : bool :=
    forallb (fun n => Bleb (dZ (-1)) (get (slice A 2) 0%nat n) && Bleb (get (slice A 2) 0%nat n) (dZ 1))%bool (seq 0 4) &&
    ((Bleb (nlit 1 64) (get (slice A 2) 0%nat 0%nat) && Bleb (get (slice A 2) 0%nat 1%nat) (dZ 0)) ||
     (Bleb (get (slice A 2) 0%nat 0%nat) (nlit 15 16) && Bleb (nlit 61 64) (get (slice A 2) 0%nat 1%nat)))%bool.
  Lemma run_good q : q = strict_problem -> (match bind (forward_sampling_Otto StrictExt q (kern_used (p_kern q)) grid5 (zeros3 (List.length (p_y1 q)) (p_N q) (List.length grid5)))
    (fun Z1 s1 => match backward_simulation StrictExt q (kern_used (p_kern q)) grid5 Z1 (zeros3 (List.length (p_y1 q)) (p_N q) (List.length grid5)) s1 with (Ok B, s2) => (Ok (good Z1 && good B)%bool, s2) | (Err e, s2) => (Err e, s2) end) 0%nat
    with (Ok b, _) => b | _ => false end) = true.
  Proof. intros ->. vm_compute. reflexivity. Qed.
  Lemma lit_val (x : double) s m e : B2SF x = SpecFloat.S754_finite s m e -> B2R x = F2R (Float radix2 (cond_Zopp s (Zpos m)) e).
  Proof. intro H. rewrite <- SF2R_B2SF, H. reflexivity. Qed.
  Lemma lits : finite (nlit 1 64) /\ B2R (nlit 1 64) = / 64 /\ finite (nlit 15 16) /\ B2R (nlit 15 16) = 15 / 16 /\ finite (nlit 61 64) /\ B2R (nlit 61 64) = 61 / 64.
  Proof.
    split; [reflexivity|]. split; [rewrite (lit_val _ false 4503599627370496 (-58)) by (vm_compute; reflexivity); unfold F2R; cbn [Fnum Fexp cond_Zopp bpow]; change (Z.pow_pos radix2 58) with 288230376151711744%Z; lra|].
    split; [reflexivity|]. split; [rewrite (lit_val _ false 8444249301319680 (-53)) by (vm_compute; reflexivity); unfold F2R; cbn [Fnum Fexp cond_Zopp bpow]; change (Z.pow_pos radix2 53) with 9007199254740992%Z; lra|].
    split; [reflexivity|]. rewrite (lit_val _ false 8584986789675008 (-53)) by (vm_compute; reflexivity). unfold F2R. cbn [Fnum Fexp cond_Zopp bpow]. change (Z.pow_pos radix2 53) with 9007199254740992%Z. lra.
  Qed.
  Lemma good_resolved (A : arr3 double) : good A = true -> mc (slice A 2) = 4%nat -> resolved (INR 4) (slice A 2) 0 1 /\ / 32768 <= spread (INR 4) (slice A 2) 0.
  Proof.
    intros G H. unfold good in G. apply andb_true_iff in G. destruct G as (G1 & G2). destruct (dZ_exact (-1) ltac:(cbn; lia)) as (Fm & Vm). destruct dZ1 as (F1 & V1). destruct dZ0' as (F0 & V0). destruct lits as (A1 & A2 & A3 & A4 & A5 & A6).
    assert (R : forall n, (n < 4)%nat -> finite (get (slice A 2) 0 n) /\ Rabs (coord (slice A 2) 0 n) <= 1).
    { intros n Hn. rewrite forallb_forall in G1. specialize (G1 n ltac:(apply in_seq; lia)). apply andb_true_iff in G1. destruct G1 as (L & U).
      assert (F : finite (get (slice A 2) 0 n)). { destruct (get (slice A 2) 0 n) as [| [|] | |]; try reflexivity; discriminate. }
      split; [exact F|]. apply (dle_fin _ _ Fm F) in L. apply (dle_fin _ _ F F1) in U. rewrite Vm in L. rewrite V1 in U. unfold coord. apply Rabs_le. lra. }
    apply resolved4; auto. destruct (R 0%nat ltac:(lia)) as (Ra & _). destruct (R 1%nat ltac:(lia)) as (Rb & _). unfold coord. apply orb_true_iff in G2. destruct G2 as [G2|G2]; apply andb_true_iff in G2; destruct G2 as (L & U).
    - apply (dle_fin _ _ A1 Ra) in L. apply (dle_fin _ _ Rb F0) in U. rewrite A2 in L. rewrite V0 in U. rewrite <- Rabs_Ropp, Rabs_pos_eq; lra.
    - apply (dle_fin _ _ Ra A3) in L. apply (dle_fin _ _ A5 Rb) in U. rewrite A4 in L. rewrite A6 in U. rewrite Rabs_pos_eq; lra.
  Qed.
  Lemma run_edge q : q = strict_problem -> timegrid (p_t1 q) (p_t2 q) = grid5 -> p_det q = true -> (p_reweight q && p_brown q)%bool = false ->
    exists o s', construct StrictExt q 0%nat = (Ok o, s') /\ good (o_Z o) = true /\ good (o_B o) = true /\ o_par o = q /\ o_grid o = grid5.
  Proof.
    intros Hq G0 D R. pose proof (run_good q Hq) as H. unfold bind in H.
    destruct (forward_sampling_Otto StrictExt q (kern_used (p_kern q)) grid5 (zeros3 (List.length (p_y1 q)) (p_N q) (List.length grid5)) 0%nat) as [[Z1|] s1] eqn:HF; [|discriminate].
    destruct (backward_simulation StrictExt q (kern_used (p_kern q)) grid5 Z1 (zeros3 (List.length (p_y1 q)) (p_N q) (List.length grid5)) s1) as [[B|] s2] eqn:HB; [|discriminate].
    apply andb_true_iff in H. destruct H as (H1 & H2). eexists. exists s2. split; [exact (construct_steps StrictExt q 0%nat grid5 Z1 s1 B s2 G0 D R HF HB)|]. auto.
  Qed.
  (** y1 = (0,1), y2 = (1,2), four particles, five grid points: at index 2 the first component of the control is accurate to 10^-9 (|x|+1) at every point *)
  Example C84_example : exists o s', construct StrictExt strict_problem 0%nat = (Ok o, s') /\ List.length (o_grid o) = 5%nat /\
    forall gx sq, mc gx = 2%nat -> exists v, calculate_u StrictExt o gx 2 sq = (Ok v, sq) /\ forall i, (i < mr gx)%nat -> plain_coord (get gx i 0) ->
      let x := B2R (get gx i 0) in
      finite (get v 0 i) /\ Rabs (B2R (get v 0 i) - (exact_score (INR 4) (slice (o_B o) 2) 0 x - exact_score (INR 4) (slice (o_Z o) 2) 0 x)) <= / 1000000000 * (Rabs x + 1).
  Proof.
    destruct (run_edge strict_problem eq_refl (grid5_eq) eq_refl eq_refl) as (o & s' & R & GZ & GB & Po & Go). exists o, s'. split; [exact R|]. assert (L : List.length (o_grid o) = 5%nat) by (rewrite Go; reflexivity). split; [exact L|].
    destruct (construct_consistent _ _ _ _ _ R) as (_ & Hc). rewrite L in Hc. intros gx sq Hg.
    assert (HF : forward_of o (o_Z o)) by (unfold forward_of; rewrite Po; reflexivity).
    destruct (slices ratexp fid fid sum_right o _ _ _ (o_Z o) Hc HF 2 ltac:(lia)) as (CA & CB). change (mc (slice (o_Z o) 2) = 4%nat) in CA. change (mc (slice (o_B o) 2) = 4%nat) in CB.
    destruct (good_resolved _ GZ CA) as (RA & SA). destruct (good_resolved _ GB CB) as (RB & SB).
    destruct (C84_accuracy ratexp fid fid sum_right StrictExt sum_right_ok o _ _ _ (o_Z o) Hc HF gx 2 2 sq) as (v & V1 & _ & _ & V4).
    - cbn. lia.
    - split; [lia|]. left. reflexivity.
    - left. lia.
    - rewrite Hg. cbn. lia.
    - exists v. split; [exact V1|]. intros i Hi Hp x. destruct (V4 0%nat i 1 1 ltac:(cbn; lia) Hi Hp RB RA) as (F & E). split; [exact F|]. eapply Rle_trans; [exact E|]. fold x.
      change (INR (p_N strict_problem)) with (INR 4). pose proof (Rabs_pos x) as Px.
      assert (Q : forall S, / 32768 <= S -> (Rabs x + 1) / S <= 32768 * (Rabs x + 1)). { intros S0 HS. apply Rmult_le_reg_r with S0; [lra|]. unfold Rdiv. rewrite Rmult_assoc, Rinv_l, Rmult_1_r by lra. apply Rle_trans with (32768 * (Rabs x + 1) * / 32768); [lra|]. apply Rmult_le_compat_l; lra. }
      pose proof (Q _ SA) as QA. pose proof (Q _ SB) as QB. change (INR (p_N strict_problem)) with (INR 4) in *.
      match goal with |- _ * ((Rabs ?y + 1) / ?s1 + (Rabs ?y2 + 1) / ?s2) <= _ => change y with x; change s1 with (spread (INR 4) (slice (o_B o) 2) 0); change s2 with (spread (INR 4) (slice (o_Z o) 2) 0) end.
      apply Rle_trans with (17 * (INR 4 * u) * (65536 * (Rabs x + 1))); [apply Rmult_le_compat_l; [unfold u; cbn; lra|lra]|]. replace (INR 4) with 4 by (cbn; ring). unfold u. lra.
  Qed.
End W.
