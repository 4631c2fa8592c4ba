(** C89: in the stochastic mode nearby problems have nearby forward flows (same noise). *)
From Coq Require Import String List ZArith Reals Bool Lia Lra.
From Verif Require Import Base.Num Base.Py Base.Arr Lib.ArrLemmas Lib.RBase Model.Ext Model.Score Model.DPFC Model.TDPFC Spec.FlowSpec Spec.NearbySpec.
From Verif Require Import Lib.FlowLemmas Lib.StepLemmas Props.Flows Props.Torch.
Import ListNotations.
Local Open Scope R_scope.

Lemma Rabs_bounds a e : Rabs a <= e -> - e <= a <= e.
Proof. unfold Rabs. destruct (Rcase_abs a); lra. Qed.

Section Nearby.
  Context {S : Type} (E : Ext R S) (L eta delta : R) (HL : 0 <= L) (Heta : 0 <= eta) (Hdelta : 0 <= delta).
  Definition apart (n : nat) : R := (delta + INR n * eta / 1000) * exp (L / 1000 * INR n).
  Lemma apart_pos n : 0 <= apart n.
  Proof.
    unfold apart. apply Rmult_le_pos; [|left; apply exp_pos]. pose proof (pos_INR n). assert (0 <= INR n * eta) by (apply Rmult_le_pos; lra). lra.
  Qed.
  Lemma apart_step n : (1 + L / 1000) * apart n + eta / 1000 <= apart (Datatypes.S n).
  Proof.
    unfold apart. rewrite S_INR. set (a := L / 1000). assert (A : 0 <= a) by (unfold a; lra). replace (a * (INR n + 1)) with (a + a * INR n) by ring. rewrite exp_plus. pose proof (pos_INR n) as P.
    pose proof (exp_ineq1_le a) as E1. set (b := exp (a * INR n)).
    assert (B : 1 <= b). { unfold b. rewrite <- exp_0. assert (H : 0 <= a * INR n) by (apply Rmult_le_pos; lra). destruct H as [H|<-]; [left; now apply exp_increasing|lra]. }
    assert (Q : 0 <= delta + INR n * eta / 1000). { assert (0 <= INR n * eta) by (apply Rmult_le_pos; lra). lra. }
    assert (C1 : 1 <= exp a * b). { rewrite <- (Rmult_1_l 1). apply Rmult_le_compat; lra. }
    assert (C2 : (1 + a) * ((delta + INR n * eta / 1000) * b) <= exp a * ((delta + INR n * eta / 1000) * b)). { apply Rmult_le_compat_r; [|lra]. apply Rmult_le_pos; lra. }
    assert (C3 : eta / 1000 * 1 <= eta / 1000 * (exp a * b)) by (apply Rmult_le_compat_l; lra). lra.
  Qed.
  Lemma entry_nearby (x y f f' g w e : R) : 0 <= e -> Rabs (x - y) <= e -> Rabs (f - f') <= L * e + eta ->
    Rabs (nadd (nadd x (nmul nmilli f)) (nmul g w) - nadd (nadd y (nmul nmilli f')) (nmul g w)) <= (1 + L / 1000) * e + eta / 1000.
  Proof.
    intros He Hx Hf. replace (nadd (nadd x (nmul nmilli f)) (nmul g w) - nadd (nadd y (nmul nmilli f')) (nmul g w)) with ((x - y) + (f - f') / 1000) by (unfold nmilli; cbn; field).
    apply Rabs_bounds in Hx, Hf. apply Rabs_le. replace (L / 1000 * e) with (L * e / 1000) by field. rewrite Rmult_plus_distr_r. replace (L / 1000 * e) with (L * e / 1000) by field. lra.
  Qed.

  Section Obj.
    Context (p p' : params R) (s : S) (o o' : obj R) (s1 s2 : S) (Hc : construct E p s = (Ok o, s1)) (Hc' : construct E p' s = (Ok o', s2)).
    Context (HN : p_N p = p_N p') (Hdim : List.length (p_y1 p) = List.length (p_y1 p')) (Hk : List.length (o_grid o) = List.length (o_grid o')).
    Context (Hd : p_det p = false) (Hd' : p_det p' = false) (Hr : p_reweight p = false) (Hr' : p_reweight p' = false).
    Let dim := List.length (p_y1 p).
    Let k := List.length (o_grid o).
    Context (Hy1 : forall d, (d < dim)%nat -> Rabs (nth d (p_y1 p) 0 - nth d (p_y1 p') 0) <= delta).
    Context (Hf : nearby_drifts L eta (call1 (p_f p)) (call1 (p_f p'))) (Hg : equal_diffusions 1 dim (p_g p) (p_g p')).

    (** at every slice but the pinned last one *)
    Theorem C89_stochastic : (2 <= k)%nat -> forall d n t, (d < dim)%nat -> (n < p_N p)%nat -> (t + 1 < k)%nat ->
      Rabs (get3 (o_Z o) d n t - get3 (o_Z o') d n t) <= (delta + INR t * eta / 1000) * exp (L / 1000 * INR t).
    Proof.
      intros K2.
      destruct (C56_stochastic_recurrence E p s o s1 Hc Hd K2) as (sg & S0 & H). rewrite Hr in H. destruct (C56_stochastic_recurrence E p' s o' s2 Hc' Hd') as (sg' & S0' & H'); [rewrite <- Hk; exact K2|]. rewrite Hr' in H'.
      pose proof (Z_sh E p s o s1 Hc) as SZ. pose proof (Z_sh E p' s o' s2 Hc') as SZ'. fold dim k in SZ. rewrite <- Hdim, <- HN, <- Hk in SZ'. fold dim k in SZ'.
      assert (M : forall t, (t + 1 < k)%nat -> sg t = sg' t /\ forall d n, (d < dim)%nat -> (n < p_N p)%nat -> Rabs (get3 (o_Z o) d n t - get3 (o_Z o') d n t) <= apart t).
      2:{ intros d n t A B C. now apply M. }
      induction t as [|t IH]; intro Ht.
      - split; [congruence|]. intros d n Hdd Hnn. destruct (C14_stochastic_start E p s o s1 Hc Hd K2) as (_ & Z0). destruct (C14_stochastic_start E p' s o' s2 Hc' Hd') as (_ & Z0'); [rewrite <- Hk; exact K2|].
        rewrite Z0, Z0' by (rewrite <- ?Hdim, <- ?HN; auto). unfold apart. cbn [INR]. rewrite Rmult_0_r, exp_0. unfold Rdiv. rewrite Rmult_0_l, Rmult_0_l, Rplus_0_r, Rmult_1_r. destruct (d <? 2)%nat.
        + exact (Hy1 d Hdd).
        + cbn. rewrite Rminus_0_r, Rabs_R0. exact Hdelta.
      - destruct (IH ltac:(lia)) as (SG & IHt). specialize (H (Datatypes.S t) ltac:(fold k; lia)). specialize (H' (Datatypes.S t) ltac:(rewrite <- Hk; fold k; lia)). replace (Datatypes.S t - 1)%nat with t in H, H' by lia.
        destruct (sh_slice _ _ _ _ t SZ ltac:(lia)) as (_ & R1 & C1). destruct (sh_slice _ _ _ _ t SZ' ltac:(lia)) as (_ & R2 & C2).
        destruct H as (q & Q0 & Q1 & H). destruct H' as (q' & Q0' & Q1' & H').
        assert (ST : forall n, (n <= p_N p)%nat -> q n = q' n).
        { induction n as [|n IHn]; intro Hnn; [congruence|]. specialize (IHn ltac:(lia)). destruct (H n ltac:(rewrite C1; lia)) as (F & W & _ & HW & _). destruct (H' n ltac:(rewrite C2; lia)) as (F' & W' & _ & HW' & _).
          rewrite IHn, R1 in HW. rewrite R2 in HW'. rewrite HW in HW'. now injection HW'. }
        split; [rewrite <- Q1, <- Q1', C1, C2; now apply ST|].
        intros d n Hdd Hnn. destruct (H n ltac:(rewrite C1; lia)) as (F & W & HF & HW & Hx). destruct (H' n ltac:(rewrite C2; lia)) as (F' & W' & HF' & HW' & Hx').
        rewrite (ST n ltac:(lia)), R1 in HW. rewrite R2 in HW'. rewrite HW in HW'. injection HW' as <- _.
        specialize (Hx d ltac:(rewrite R1; lia)). specialize (Hx' d ltac:(rewrite R2; lia)).
        assert (NB : nearby (apart t) (vec (col (slice (o_Z o) t) n)) (vec (col (slice (o_Z o') t) n))).
        { split; [reflexivity|]. split; [cbn; rewrite !col_length; lia|]. intros i j Hi Hj. change (i < 1)%nat in Hi. match type of Hj with (_ < mc (vec ?l))%nat => change (j < List.length l)%nat in Hj end. rewrite col_length in Hj. assert (i = 0%nat) as -> by lia.
          rewrite !get_vec by (rewrite col_length; lia). rewrite !nth_col by lia. apply (IHt j n); lia. }
        pose proof (Hf _ _ _ _ _ (apart_pos t) NB HF HF' 0%nat d ltac:(cbn; lia) ltac:(cbn; rewrite ?col_length; lia)) as Fe.
        unfold get3 in *. rewrite Hx, Hx'. rewrite <- (Hg 0%nat d ltac:(lia) Hdd).
        eapply Rle_trans; [apply entry_nearby; [apply apart_pos|apply (IHt d n Hdd Hnn)|exact Fe]|apply apart_step].
    Qed.
  End Obj.

  Section TObj.
    Context (b b' : ykind) (p p' : params R) (s : S) (o o' : obj R) (s1 s2 : S) (Hc : t_construct E b p s = (Ok o, s1)) (Hc' : t_construct E b' p' s = (Ok o', s2)) (Hy : p_y1 p <> []).
    Context (HN : p_N p = p_N p') (Hdim : List.length (p_y1 p) = List.length (p_y1 p')) (Hk : List.length (o_grid o) = List.length (o_grid o')).
    Context (Hd : p_det p = false) (Hd' : p_det p' = false) (Hr : p_reweight p = false) (Hr' : p_reweight p' = false).
    Let dim := List.length (p_y1 p).
    Let k := List.length (o_grid o).
    Context (Hy1 : forall d, (d < dim)%nat -> Rabs (nth d (p_y1 p) 0 - nth d (p_y1 p') 0) <= delta).
    (** the drifts at every time the runs use them *)
    Context (Hf : forall i, (1 <= i < k)%nat -> nearby_drifts L eta (fun x => call2 (p_f p) x (nth i (o_grid o) 0 - 1 / 1000)) (fun x => call2 (p_f p') x (nth i (o_grid o') 0 - 1 / 1000))).
    Context (Hg : equal_diffusions dim (p_N p) (p_g p) (p_g p')).

    Theorem C89_torch_stochastic : forall d n t, (d < dim)%nat -> (n < p_N p)%nat -> (t < k)%nat ->
      Rabs (get3 (o_Z o) d n t - get3 (o_Z o') d n t) <= (delta + INR t * eta / 1000) * exp (L / 1000 * INR t).
    Proof.
      assert (Hy' : p_y1 p' <> []) by (destruct (p_y1 p), (p_y1 p'); cbn in Hdim; congruence).
      destruct (C59_torch_stochastic_recurrence E b p s o s1 Hc Hy Hd) as (sg & S0 & H). rewrite Hr in H. destruct (C59_torch_stochastic_recurrence E b' p' s o' s2 Hc' Hy' Hd') as (sg' & S0' & H'). rewrite Hr' in H'.
      pose proof (Torch.tZ_sh E b p s o s1 Hc) as SZ. pose proof (Torch.tZ_sh E b' p' s o' s2 Hc') as SZ'. fold dim k in SZ. rewrite <- Hdim, <- HN, <- Hk in SZ'. fold dim k in SZ'.
      assert (M : forall t, (t < k)%nat -> sg t = sg' t /\ forall d n, (d < dim)%nat -> (n < p_N p)%nat -> Rabs (get3 (o_Z o) d n t - get3 (o_Z o') d n t) <= apart t).
      2:{ intros d n t A B C. now apply M. }
      induction t as [|t IH]; intro Ht.
      - split; [congruence|]. intros d n Hdd Hnn. destruct (C49_torch_stochastic_start E b p s o s1 Hc Hy Hd) as (_ & Z0). destruct (C49_torch_stochastic_start E b' p' s o' s2 Hc' Hy' Hd') as (_ & Z0').
        rewrite Z0, Z0' by (rewrite <- ?Hdim, <- ?HN; auto). unfold apart. cbn [INR]. rewrite Rmult_0_r, exp_0. unfold Rdiv. rewrite Rmult_0_l, Rmult_0_l, Rplus_0_r, Rmult_1_r. destruct (d <? 2)%nat.
        + exact (Hy1 d Hdd).
        + cbn. rewrite Rminus_0_r, Rabs_R0. exact Hdelta.
      - destruct (IH ltac:(lia)) as (SG & IHt). specialize (H (Datatypes.S t) ltac:(fold k; lia)). specialize (H' (Datatypes.S t) ltac:(rewrite <- Hk; fold k; lia)). replace (Datatypes.S t - 1)%nat with t in H, H' by lia.
        destruct (sh_slice _ _ _ _ t SZ ltac:(lia)) as (_ & R1 & C1). destruct (sh_slice _ _ _ _ t SZ' ltac:(lia)) as (_ & R2 & C2).
        destruct H as (F & W & HF & HW & Hx). destruct H' as (F' & W' & HF' & HW' & Hx').
        rewrite SG, R1, C1 in HW. rewrite R2, C2 in HW'. rewrite HW in HW'. injection HW' as <- HS. split; [exact HS|].
        intros d n Hdd Hnn. specialize (Hx d n ltac:(rewrite R1; lia) ltac:(rewrite C1; lia)). specialize (Hx' d n ltac:(rewrite R2; lia) ltac:(rewrite C2; lia)).
        assert (NB : nearby (apart t) (slice (o_Z o) t) (slice (o_Z o') t)).
        { split; [congruence|]. split; [congruence|]. intros i j Hi Hj. rewrite R1 in Hi. rewrite C1 in Hj. apply (IHt i j); lia. }
        assert (MI : nmilli = 1 / 1000) by reflexivity. rewrite MI in HF, HF'.
        pose proof (Hf (Datatypes.S t) ltac:(lia) _ _ _ _ _ (apart_pos t) NB HF HF' d n ltac:(lia) ltac:(lia)) as Fe.
        unfold get3 in *. rewrite Hx, Hx'. rewrite <- (Hg d n Hdd Hnn).
        eapply Rle_trans; [apply entry_nearby; [apply apart_pos|apply (IHt d n Hdd Hnn)|exact Fe]|apply apart_step].
    Qed.
  End TObj.
End Nearby.
