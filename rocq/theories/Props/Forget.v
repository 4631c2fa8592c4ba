(** C90: in the stochastic mode a drift that pulls back forgets the start at a geometric rate, and a drift that keeps the order keeps the
    flows ordered (same noise). *)
From Coq Require Import String List ZArith Reals Bool Lia Lra.
From Verif Require Import Base.Num Base.Py Base.Arr Lib.ArrLemmas Lib.RBase Model.Ext Model.Score Model.DPFC Model.TDPFC Spec.FlowSpec Spec.NearbySpec Spec.ForgetSpec.
From Verif Require Import Lib.FlowLemmas Lib.StepLemmas Props.Flows Props.Torch Props.Nearby.
Import ListNotations.
Local Open Scope R_scope.

Definition pointwise (I : R -> R -> Prop) (x y : mat R) : Prop := same_dims x y /\ forall i j, (i < mr x)%nat -> (j < mc x)%nat -> I (get x i j) (get y i j).
(** a relation that every step keeps *)
Definition kept (I I' : R -> R -> Prop) (f f' : mat R -> res (mat R)) : Prop :=
  forall x y V W, pointwise I x y -> f x = Ok V -> f' y = Ok W -> forall i j w, (i < mr x)%nat -> (j < mc x)%nat ->
    I' (get x i j + elem V i j / 1000 + w) (get y i j + elem W i j / 1000 + w).

Section Relate.
  Context {S : Type} (E : Ext R S) (I : nat -> R -> R -> Prop) (I0 : I 0%nat 0 0).
  Lemma entry_kept t x f g w y f' : I t (x + f / 1000 + g * w) (y + f' / 1000 + g * w) ->
    I t (nadd (nadd x (nmul nmilli f)) (nmul g w)) (nadd (nadd y (nmul nmilli f')) (nmul g w)).
  Proof.
    intro H. replace (nadd (nadd x (nmul nmilli f)) (nmul g w)) with (x + f / 1000 + g * w) by (unfold nmilli; cbn; field).
    replace (nadd (nadd y (nmul nmilli f')) (nmul g w)) with (y + f' / 1000 + g * w) by (unfold nmilli; cbn; field). exact H.
  Qed.
  Section Obj.
    Context (p p' : params R) (s : S) (o o' : obj R) (s1 s2 : S) (Hc : construct E p s = (Ok o, s1)) (Hc' : construct E p' s = (Ok o', s2)).
    Context (HN : p_N p = p_N p') (Hdim : List.length (p_y1 p) = List.length (p_y1 p')) (Hk : List.length (o_grid o) = List.length (o_grid o')).
    Context (Hd : p_det p = false) (Hd' : p_det p' = false) (Hr : p_reweight p = false) (Hr' : p_reweight p' = false).
    Let dim := List.length (p_y1 p).
    Let k := List.length (o_grid o).
    Context (Hy1 : forall d, (d < dim)%nat -> I 0%nat (nth d (p_y1 p) 0) (nth d (p_y1 p') 0)).
    Context (Hf : forall t, (t + 2 < k)%nat -> kept (I t) (I (Datatypes.S t)) (call1 (p_f p)) (call1 (p_f p'))) (Hg : equal_diffusions 1 dim (p_g p) (p_g p')).

    (** at every slice but the pinned last one *)
    Lemma relate : (2 <= k)%nat -> forall d n t, (d < dim)%nat -> (n < p_N p)%nat -> (t + 1 < k)%nat ->
      I t (get3 (o_Z o) d n t) (get3 (o_Z o') d n t).
    Proof.
      intros K2.
      destruct (C56_stochastic_recurrence E p s o s1 Hc Hd K2) as (sg & S0 & H). rewrite Hr in H. destruct (C56_stochastic_recurrence E p' s o' s2 Hc' Hd') as (sg' & S0' & H'); [rewrite <- Hk; exact K2|]. rewrite Hr' in H'.
      pose proof (Z_sh E p s o s1 Hc) as SZ. pose proof (Z_sh E p' s o' s2 Hc') as SZ'. fold dim k in SZ. rewrite <- Hdim, <- HN, <- Hk in SZ'. fold dim k in SZ'.
      assert (M : forall t, (t + 1 < k)%nat -> sg t = sg' t /\ forall d n, (d < dim)%nat -> (n < p_N p)%nat -> I t (get3 (o_Z o) d n t) (get3 (o_Z o') d n t)).
      2:{ intros d n t A B C. now apply M. }
      induction t as [|t IH]; intro Ht.
      - split; [congruence|]. intros d n Hdd Hnn. destruct (C14_stochastic_start E p s o s1 Hc Hd K2) as (_ & Z0). destruct (C14_stochastic_start E p' s o' s2 Hc' Hd') as (_ & Z0'); [rewrite <- Hk; exact K2|].
        rewrite Z0, Z0' by (rewrite <- ?Hdim, <- ?HN; auto). destruct (d <? 2)%nat.
        + exact (Hy1 d Hdd).
        + exact I0.
      - destruct (IH ltac:(lia)) as (SG & IHt). specialize (H (Datatypes.S t) ltac:(fold k; lia)). specialize (H' (Datatypes.S t) ltac:(rewrite <- Hk; fold k; lia)). replace (Datatypes.S t - 1)%nat with t in H, H' by lia.
        destruct (sh_slice _ _ _ _ t SZ ltac:(lia)) as (_ & R1 & C1). destruct (sh_slice _ _ _ _ t SZ' ltac:(lia)) as (_ & R2 & C2).
        destruct H as (q & Q0 & Q1 & H). destruct H' as (q' & Q0' & Q1' & H').
        assert (ST : forall n, (n <= p_N p)%nat -> q n = q' n).
        { induction n as [|n IHn]; intro Hnn; [congruence|]. specialize (IHn ltac:(lia)). destruct (H n ltac:(rewrite C1; lia)) as (F & W & _ & HW & _). destruct (H' n ltac:(rewrite C2; lia)) as (F' & W' & _ & HW' & _).
          rewrite IHn, R1 in HW. rewrite R2 in HW'. rewrite HW in HW'. now injection HW'. }
        split; [rewrite <- Q1, <- Q1', C1, C2; now apply ST|].
        intros d n Hdd Hnn. destruct (H n ltac:(rewrite C1; lia)) as (F & W & HF & HW & Hx). destruct (H' n ltac:(rewrite C2; lia)) as (F' & W' & HF' & HW' & Hx').
        rewrite (ST n ltac:(lia)), R1 in HW. rewrite R2 in HW'. rewrite HW in HW'. injection HW' as <- _.
        specialize (Hx d ltac:(rewrite R1; lia)). specialize (Hx' d ltac:(rewrite R2; lia)).
        assert (NB : pointwise (I t) (vec (col (slice (o_Z o) t) n)) (vec (col (slice (o_Z o') t) n))).
        { split; [split; [reflexivity|cbn; rewrite !col_length; lia]|]. intros i j Hi Hj. change (i < 1)%nat in Hi. match type of Hj with (_ < mc (vec ?l))%nat => change (j < List.length l)%nat in Hj end. rewrite col_length in Hj. assert (i = 0%nat) as -> by lia.
          rewrite !get_vec by (rewrite col_length; lia). rewrite !nth_col by lia. apply (IHt j n); lia. }
        pose proof (fun w => Hf t ltac:(lia) _ _ _ _ NB HF HF' 0%nat d w ltac:(cbn; lia) ltac:(cbn; rewrite ?col_length; lia)) as Fe.
        unfold get3 in *. rewrite Hx, Hx'. rewrite <- (Hg 0%nat d ltac:(lia) Hdd).
        apply entry_kept. rewrite ?get_vec, ?nth_col in Fe by (rewrite ?col_length; lia). apply Fe.
    Qed.
  End Obj.

  Section TObj.
    Context (b b' : ykind) (p p' : params R) (s : S) (o o' : obj R) (s1 s2 : S) (Hc : t_construct E b p s = (Ok o, s1)) (Hc' : t_construct E b' p' s = (Ok o', s2)) (Hy : p_y1 p <> []).
    Context (HN : p_N p = p_N p') (Hdim : List.length (p_y1 p) = List.length (p_y1 p')) (Hk : List.length (o_grid o) = List.length (o_grid o')).
    Context (Hd : p_det p = false) (Hd' : p_det p' = false) (Hr : p_reweight p = false) (Hr' : p_reweight p' = false).
    Let dim := List.length (p_y1 p).
    Let k := List.length (o_grid o).
    Context (Hy1 : forall d, (d < dim)%nat -> I 0%nat (nth d (p_y1 p) 0) (nth d (p_y1 p') 0)).
    (** the drifts at every time the runs use them *)
    Context (Hf : forall i, (1 <= i < k)%nat -> kept (I (i-1)) (I i) (fun x => call2 (p_f p) x (nth i (o_grid o) 0 - 1 / 1000)) (fun x => call2 (p_f p') x (nth i (o_grid o') 0 - 1 / 1000))).
    Context (Hg : equal_diffusions dim (p_N p) (p_g p) (p_g p')).

    Lemma t_relate : forall d n t, (d < dim)%nat -> (n < p_N p)%nat -> (t < k)%nat ->
      I t (get3 (o_Z o) d n t) (get3 (o_Z o') d n t).
    Proof.
      assert (Hy' : p_y1 p' <> []) by (destruct (p_y1 p), (p_y1 p'); cbn in Hdim; congruence).
      destruct (C59_torch_stochastic_recurrence E b p s o s1 Hc Hy Hd) as (sg & S0 & H). rewrite Hr in H. destruct (C59_torch_stochastic_recurrence E b' p' s o' s2 Hc' Hy' Hd') as (sg' & S0' & H'). rewrite Hr' in H'.
      pose proof (Torch.tZ_sh E b p s o s1 Hc) as SZ. pose proof (Torch.tZ_sh E b' p' s o' s2 Hc') as SZ'. fold dim k in SZ. rewrite <- Hdim, <- HN, <- Hk in SZ'. fold dim k in SZ'.
      assert (M : forall t, (t < k)%nat -> sg t = sg' t /\ forall d n, (d < dim)%nat -> (n < p_N p)%nat -> I t (get3 (o_Z o) d n t) (get3 (o_Z o') d n t)).
      2:{ intros d n t A B C. now apply M. }
      induction t as [|t IH]; intro Ht.
      - split; [congruence|]. intros d n Hdd Hnn. destruct (C49_torch_stochastic_start E b p s o s1 Hc Hy Hd) as (_ & Z0). destruct (C49_torch_stochastic_start E b' p' s o' s2 Hc' Hy' Hd') as (_ & Z0').
        rewrite Z0, Z0' by (rewrite <- ?Hdim, <- ?HN; auto). destruct (d <? 2)%nat.
        + exact (Hy1 d Hdd).
        + exact I0.
      - destruct (IH ltac:(lia)) as (SG & IHt). specialize (H (Datatypes.S t) ltac:(fold k; lia)). specialize (H' (Datatypes.S t) ltac:(rewrite <- Hk; fold k; lia)). replace (Datatypes.S t - 1)%nat with t in H, H' by lia.
        destruct (sh_slice _ _ _ _ t SZ ltac:(lia)) as (_ & R1 & C1). destruct (sh_slice _ _ _ _ t SZ' ltac:(lia)) as (_ & R2 & C2).
        destruct H as (F & W & HF & HW & Hx). destruct H' as (F' & W' & HF' & HW' & Hx').
        rewrite SG, R1, C1 in HW. rewrite R2, C2 in HW'. rewrite HW in HW'. injection HW' as <- HS. split; [exact HS|].
        intros d n Hdd Hnn. specialize (Hx d n ltac:(rewrite R1; lia) ltac:(rewrite C1; lia)). specialize (Hx' d n ltac:(rewrite R2; lia) ltac:(rewrite C2; lia)).
        assert (NB : pointwise (I t) (slice (o_Z o) t) (slice (o_Z o') t)).
        { split; [split; congruence|]. intros i j Hi Hj. rewrite R1 in Hi. rewrite C1 in Hj. apply (IHt i j); lia. }
        assert (MI : nmilli = 1 / 1000) by reflexivity. rewrite MI in HF, HF'.
        pose proof (Hf (Datatypes.S t) ltac:(lia)) as Hft. replace (Datatypes.S t - 1)%nat with t in Hft by lia.
        pose proof (fun w => Hft _ _ _ _ NB HF HF' d n w ltac:(lia) ltac:(lia)) as Fe.
        unfold get3 in *. rewrite Hx, Hx'. rewrite <- (Hg d n Hdd Hnn).
        apply entry_kept. rewrite ?get_vec, ?nth_col in Fe by (rewrite ?col_length; lia). apply Fe.
    Qed.
  End TObj.
End Relate.

(** ** the two relations *)
Definition within (r delta eta lam : R) (t : nat) (x y : R) : Prop := Rabs (x - y) <= r ^ t * delta + eta / lam.
Lemma within_kept lam eta delta t f f' : 0 < lam <= 1000 -> 0 <= eta -> 0 <= delta -> pulls_back lam eta f f' ->
  kept (within (1 - lam / 1000) delta eta lam t) (within (1 - lam / 1000) delta eta lam (Datatypes.S t)) f f'.
Proof.
  intros Hl He Hdl HF x y V W (SD & HI) HV HW i j w Hi Hj. specialize (HI i j Hi Hj). destruct (HF x y V W SD HV HW i j Hi Hj) as (c & Hc & Q).
  unfold within in *. set (r := 1 - lam / 1000) in *. set (D := r ^ t * delta + eta / lam) in *. set (u := get x i j - get y i j) in *.
  replace (get x i j + elem V i j / 1000 + w - (get y i j + elem W i j / 1000 + w)) with ((1 - c / 1000) * u + (elem V i j - elem W i j + c * u) / 1000) by (unfold u; field).
  assert (DD : 0 <= D) by (eapply Rle_trans; [apply Rabs_pos|exact HI]).
  assert (Hr : Rabs (1 - c / 1000) <= r) by (apply Rabs_le; unfold r; lra).
  cbn [pow]. replace (r * r ^ t * delta + eta / lam) with (r * D + eta / 1000) by (unfold D, r; field; lra).
  eapply Rle_trans; [apply Rabs_triang|]. apply Rplus_le_compat.
  - rewrite Rabs_mult. apply Rmult_le_compat; auto using Rabs_pos.
  - apply Rabs_bounds in Q. apply Rabs_le. lra.
Qed.
Lemma order_kept f f' : order_preserving f f' -> kept Rle Rle f f'.
Proof. intros H x y V W (SD & HI) HV HW i j w Hi Hj. specialize (H x y V W (conj SD HI) HV HW i j Hi Hj). lra. Qed.
Lemma within0 r delta eta lam x y : 0 <= eta -> 0 < lam -> Rabs (x - y) <= delta -> within r delta eta lam 0 x y.
Proof. intros He Hl H. unfold within. cbn [pow]. assert (0 <= eta / lam) by (apply Rmult_le_pos; [lra|left; apply Rinv_0_lt_compat; lra]). lra. Qed.
Lemma within00 r delta eta lam : 0 <= eta -> 0 < lam -> 0 <= delta -> within r delta eta lam 0 0 0.
Proof. intros. apply within0; auto. rewrite Rminus_0_r, Rabs_R0. auto. Qed.

Section Flows.
  Context {S : Type} (E : Ext R S) (p p' : params R) (s : S) (o o' : obj R) (s1 s2 : S) (Hc : construct E p s = (Ok o, s1)) (Hc' : construct E p' s = (Ok o', s2)).
  Context (HN : p_N p = p_N p') (Hdim : List.length (p_y1 p) = List.length (p_y1 p')) (Hk : List.length (o_grid o) = List.length (o_grid o')).
  Context (Hd : p_det p = false) (Hd' : p_det p' = false) (Hr : p_reweight p = false) (Hr' : p_reweight p' = false).
  Let dim := List.length (p_y1 p).
  Let k := List.length (o_grid o).
  Context (Hg : equal_diffusions 1 dim (p_g p) (p_g p')) (K2 : (2 <= k)%nat).

  (** at every slice but the pinned last one *)
  Theorem C90_forget lam eta delta : 0 < lam <= 1000 -> 0 <= eta -> 0 <= delta ->
    (forall d, (d < dim)%nat -> Rabs (nth d (p_y1 p) 0 - nth d (p_y1 p') 0) <= delta) ->
    pulls_back lam eta (call1 (p_f p)) (call1 (p_f p')) ->
    forall d n t, (d < dim)%nat -> (n < p_N p)%nat -> (t + 1 < k)%nat ->
      Rabs (get3 (o_Z o) d n t - get3 (o_Z o') d n t) <= (1 - lam / 1000) ^ t * delta + eta / lam.
  Proof.
    intros Hl He Hdl Hy HF. apply (relate E (within (1 - lam / 1000) delta eta lam) (within00 _ _ _ _ He (proj1 Hl) Hdl) p p' s o o' s1 s2 Hc Hc' HN Hdim Hk Hd Hd' Hr Hr'); auto.
    - intros d H. apply within0; [auto|lra|]. now apply Hy.
    - intros t _. now apply within_kept.
  Qed.
  Theorem C90_order : (forall d, (d < dim)%nat -> nth d (p_y1 p) 0 <= nth d (p_y1 p') 0) -> order_preserving (call1 (p_f p)) (call1 (p_f p')) ->
    forall d n t, (d < dim)%nat -> (n < p_N p)%nat -> (t + 1 < k)%nat -> get3 (o_Z o) d n t <= get3 (o_Z o') d n t.
  Proof.
    intros Hy HF. apply (relate E (fun _ => Rle) (Rle_refl 0) p p' s o o' s1 s2 Hc Hc' HN Hdim Hk Hd Hd' Hr Hr'); auto.
    intros t _. now apply order_kept.
  Qed.
End Flows.

Section TFlows.
  Context {S : Type} (E : Ext R S) (b b' : ykind) (p p' : params R) (s : S) (o o' : obj R) (s1 s2 : S).
  Context (Hc : t_construct E b p s = (Ok o, s1)) (Hc' : t_construct E b' p' s = (Ok o', s2)) (Hy : p_y1 p <> []).
  Context (HN : p_N p = p_N p') (Hdim : List.length (p_y1 p) = List.length (p_y1 p')) (Hk : List.length (o_grid o) = List.length (o_grid o')).
  Context (Hd : p_det p = false) (Hd' : p_det p' = false) (Hr : p_reweight p = false) (Hr' : p_reweight p' = false).
  Let dim := List.length (p_y1 p).
  Let k := List.length (o_grid o).
  Context (Hg : equal_diffusions dim (p_N p) (p_g p) (p_g p')).

  Theorem C90_torch_forget lam eta delta : 0 < lam <= 1000 -> 0 <= eta -> 0 <= delta ->
    (forall d, (d < dim)%nat -> Rabs (nth d (p_y1 p) 0 - nth d (p_y1 p') 0) <= delta) ->
    (forall i, (1 <= i < k)%nat -> pulls_back lam eta (fun x => call2 (p_f p) x (nth i (o_grid o) 0 - 1 / 1000)) (fun x => call2 (p_f p') x (nth i (o_grid o') 0 - 1 / 1000))) ->
    forall d n t, (d < dim)%nat -> (n < p_N p)%nat -> (t < k)%nat ->
      Rabs (get3 (o_Z o) d n t - get3 (o_Z o') d n t) <= (1 - lam / 1000) ^ t * delta + eta / lam.
  Proof.
    intros Hl He Hdl Hy1 HF. apply (t_relate E (within (1 - lam / 1000) delta eta lam) (within00 _ _ _ _ He (proj1 Hl) Hdl) b b' p p' s o o' s1 s2 Hc Hc' Hy HN Hdim Hk Hd Hd' Hr Hr'); auto.
    - intros d H. apply within0; [auto|lra|]. now apply Hy1.
    - intros i Hi. replace i with (Datatypes.S (i - 1)) at 2 by lia. apply within_kept; auto.
  Qed.
  Theorem C90_torch_order : (forall d, (d < dim)%nat -> nth d (p_y1 p) 0 <= nth d (p_y1 p') 0) ->
    (forall i, (1 <= i < k)%nat -> order_preserving (fun x => call2 (p_f p) x (nth i (o_grid o) 0 - 1 / 1000)) (fun x => call2 (p_f p') x (nth i (o_grid o') 0 - 1 / 1000))) ->
    forall d n t, (d < dim)%nat -> (n < p_N p)%nat -> (t < k)%nat -> get3 (o_Z o) d n t <= get3 (o_Z o') d n t.
  Proof.
    intros Hy1 HF. apply (t_relate E (fun _ => Rle) (Rle_refl 0) b b' p p' s o o' s1 s2 Hc Hc' Hy HN Hdim Hk Hd Hd' Hr Hr'); auto.
    intros i Hi. apply order_kept, HF, Hi.
  Qed.
End TFlows.
