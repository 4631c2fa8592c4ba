(** Lemmas about loops that fill a flow slice by slice (no modelling content). *)
From Coq Require Import String List ZArith Lia Bool.
From Verif Require Import Base.Num Base.Py Base.Arr Lib.ArrLemmas Model.Ext Model.Score Model.DPFC.
Import ListNotations.

Section Flow.
  Context {T S : Type} {O : NumOps T} (E : Ext T S).
  Notation mat := (mat T). Notation arr3 := (arr3 T).

  Definition sh (A : arr3) (d n k : nat) : Prop := wf3 A /\ a_d A = d /\ a_n A = n /\ a_k A = k.

  Lemma sh_zeros d n k : sh (zeros3 d n k) d n k.
  Proof. split; [apply wf3_zeros|]. auto. Qed.
  Lemma sh_slice A d n k t : sh A d n k -> t < k -> wf (slice A t) /\ mr (slice A t) = d /\ mc (slice A t) = n.
  Proof. intros (W & <- & <- & <-) Ht. apply W; auto. Qed.
  Lemma sh_set A d n k j m : sh A d n k -> j < k -> wf m -> mr m = d -> mc m = n -> sh (setslice A j m) d n k.
  Proof. intros (W & <- & <- & <-) ? ? ? ?. split; [apply wf3_set; auto|]. auto. Qed.

  (** broadcasting composes *)
  Lemma bget_bc2 op (A B C : mat) i j : bc2 op A B = Ok C ->
    (mr C = 1 \/ i < mr C) -> (mc C = 1 \/ j < mc C) -> bget C i j = op (bget A i j) (bget B i j).
  Proof.
    intros H Hi Hj. apply bc2_ok in H. destruct H as (Br & Bc & W & Hr & Hc & Hg).
    apply bok_spec in Br, Bc.
    unfold bget at 1.
    assert (Ei : bidx (mr C) i < mr C \/ mr C = 0).
    { unfold bidx. destruct (Nat.eqb_spec (mr C) 1); lia. }
    assert (Ej : bidx (mc C) j < mc C \/ mc C = 0).
    { unfold bidx. destruct (Nat.eqb_spec (mc C) 1); lia. }
    destruct Ei as [Ei|Ei]; [|lia]. destruct Ej as [Ej|Ej]; [|lia].
    rewrite Hg by auto. unfold bget. unfold bdim in *.
    f_equal; f_equal; unfold bidx in *;
    repeat match goal with |- context[?a =? 1] => destruct (Nat.eqb_spec a 1)
                      | H : context[?a =? 1] |- _ => destruct (Nat.eqb_spec a 1) end; lia.
  Qed.

  Lemma bget_mmap1 f (A : mat) i j : (mr A = 1 \/ i < mr A) -> (mc A = 1 \/ j < mc A) ->
    bget (mmap1 f A) i j = f (bget A i j).
  Proof.
    intros. unfold bget. simpl. apply get_mmap1; unfold bidx;
      [destruct (Nat.eqb_spec (mr A) 1)|destruct (Nat.eqb_spec (mc A) 1)]; lia.
  Qed.

  (** shapes in a broadcast whose result must fit dim x n *)
  Lemma bdim_fit a b r : bok a b = true -> (bdim a b = r \/ bdim a b = 1) ->
    (a = r \/ a = 1) /\ (b = r \/ b = 1).
  Proof. intros H. apply bok_spec in H. unfold bdim. destruct (Nat.eqb_spec a 1); lia. Qed.

  (** for di in range(dim): A[di,:,t] = y[di] *)
  Lemma pin_ok dim n k y t (A A' : arr3) : sh A dim n k -> pin dim y t A = Ok A' ->
    sh A' dim n k /\ dim <= length y /\
    (0 < dim -> exists j, pyidx k t = Some j) /\
    (forall j, pyidx k t = Some j -> slice A' j = mk dim n (fun a _ => nth a y nzero)) /\
    (forall t', pyidx k t <> Some t' -> slice A' t' = slice A t').
  Proof.
    intros HA H. unfold pin in H.
    apply (rfold_seq_inv _ (fun i B => sh B dim n k /\ i <= length y /\
       (0 < i -> exists j, pyidx k t = Some j) /\
       (forall j, pyidx k t = Some j -> forall a b, a < dim -> b < n ->
            get (slice B j) a b = if a <? i then nth a y nzero else get (slice A j) a b) /\
       (forall t', pyidx k t <> Some t' -> slice B t' = slice A t'))) in H.
    - destruct H as (H1 & H2 & H3 & H4 & H5). split; [exact H1|]. split; [exact H2|]. split; [exact H3|].
      split; [|exact H5].
      intros j Hj. assert (j < k) by now apply pyidx_some in Hj.
      destruct (sh_slice _ _ _ _ j H1 H) as (W & Hr & Hc).
      apply wf_eq; auto. { apply wf_mk. } rewrite Hr, Hc. intros a b Ha Hb.
      rewrite get_mk by auto. rewrite (H4 j Hj a b Ha Hb).
      destruct (Nat.ltb_spec a dim); [reflexivity|lia].
    - split; [exact HA|]. split; [lia|]. split; [lia|]. split; [|auto]. intros; destruct (Nat.ltb_spec a 0); [lia|auto].
    - intros i B B' Hi (HB & Hl & Hx & Hj & Hn) Hs. invok.
      apply (pyget_nat_ok _ _ _ nzero) in E0. destruct E0 as (Hiy & ->).
      destruct HB as (WB & Dd & Dn & Dk).
      apply setrow3_ok in Hs; auto. destruct Hs as (j & Pj & Jk & Id & W' & ->).
      rewrite Dk in Pj, Jk.
      assert (HB : sh B dim n k) by (split; auto).
      assert (HB' : sh (setslice B j (rowset (slice B j) i (nth i y nzero))) dim n k) by (split; auto).
      split; [exact HB'|]. split; [lia|]. split; [eauto|]. split.
      + intros j' Hj'. assert (j' = j) by congruence. subst j'. intros a b Ha Hb.
        rewrite slice_set_same by (auto; lia). unfold rowset.
        destruct (sh_slice _ _ _ _ j HB Jk) as (_ & Hr & Hc). rewrite Hr, Hc, get_mk by auto.
        destruct (Nat.eqb_spec a i) as [Hai|Hai]; destruct (Nat.ltb_spec a (Datatypes.S i)); try lia.
        * now rewrite Hai.
        * rewrite (Hj j Pj) by auto. destruct (Nat.ltb_spec a i); [reflexivity|lia].
        * rewrite (Hj j Pj) by auto. destruct (Nat.ltb_spec a i); [lia|reflexivity].
      + intros t' Ht'. rewrite slice_set_other by congruence. auto.
  Qed.

  (** A loop body that, at iteration i, writes slice [w i] reading slice [r i] *)
  Lemma flow_fold (body : arr3 -> nat * T -> M S arr3) (g : nat -> nat * T) (w r : nat -> nat)
    (step : nat -> mat -> mat -> S -> S -> Prop) d n k m (A0 A : arr3) s0 s :
    sh A0 d n k ->
    (forall i j, i < m -> j < m -> i <> j -> w i <> w j) ->
    (forall i j, i < m -> j < m -> i <= j -> r i <> w j) ->
    (forall i B s B' s', i < m -> sh B d n k -> body B (g i) s = (Ok B', s') ->
        sh B' d n k /\ step i (slice B (r i)) (slice B' (w i)) s s' /\
        forall t, t <> w i -> slice B' t = slice B t) ->
    mfold body (map g (seq 0 m)) A0 s0 = (Ok A, s) ->
    sh A d n k /\
    (forall t, (forall i, i < m -> t <> w i) -> slice A t = slice A0 t) /\
    exists sg : nat -> S, sg 0 = s0 /\ sg m = s /\
      forall i, i < m -> step i (slice A (r i)) (slice A (w i)) (sg i) (sg (Datatypes.S i)).
  Proof.
    intros HA Hw Hr Hb H.
    apply (mfold_seq_inv _ _ (fun i B s => sh B d n k /\
       (forall t, (forall j, j < i -> t <> w j) -> slice B t = slice A0 t) /\
       exists sg : nat -> S, sg 0 = s0 /\ sg i = s /\
         forall j, j < i -> step j (slice B (r j)) (slice B (w j)) (sg j) (sg (Datatypes.S j)))) in H; auto.
    - split; [exact HA|]. split; [auto|]. exists (fun _ => s0). repeat split; auto. intros; lia.
    - intros i B s1 B' s1' Hi (HB & Hs & sg & S0 & Si & Hst) Hbd.
      destruct (Hb _ _ _ _ _ Hi HB Hbd) as (HB' & Hstep & Hfr).
      split; auto. split.
      + intros t Ht. rewrite Hfr by (apply Ht; lia). apply Hs. intros; apply Ht; lia.
      + exists (fun x => if x <=? i then sg x else s1'). repeat split.
        * simpl. exact S0.
        * destruct (Nat.leb_spec (Datatypes.S i) i); [lia|reflexivity].
        * intros j Hj. destruct (Nat.leb_spec j i); [|lia].
          destruct (Nat.eq_dec j i) as [->|Hne].
          -- destruct (Nat.leb_spec (Datatypes.S i) i); [lia|]. rewrite Si.
             rewrite (Hfr (r i)) by (apply Hr; lia). exact Hstep.
          -- destruct (Nat.leb_spec (Datatypes.S j) i); [|lia].
             rewrite (Hfr (r j)) by (apply Hr; lia). rewrite (Hfr (w j)) by (apply Hw; lia).
             apply Hst. lia.
  Qed.

  (** the same without tracking anything but success and shape *)
  Lemma flow_fold_total (body : arr3 -> nat * T -> M S arr3) (g : nat -> nat * T) d n k m (A0 : arr3) s0 :
    sh A0 d n k ->
    (forall i B s, i < m -> sh B d n k -> exists B' s', body B (g i) s = (Ok B', s') /\ sh B' d n k) ->
    exists A s, mfold body (map g (seq 0 m)) A0 s0 = (Ok A, s) /\ sh A d n k.
  Proof.
    intros HA Hb. apply (mfold_seq_total _ _ (fun _ B _ => sh B d n k)); auto.
  Qed.

  Lemma assign_fit (A : arr3) d n k i src A' : sh A d n k -> setsl A (Z.of_nat i) src = Ok A' ->
    i < k /\ sh A' d n k /\ (mr src = d \/ mr src = 1) /\ (mc src = n \/ mc src = 1) /\
    (forall a b, a < d -> b < n -> get (slice A' i) a b = bget src a b) /\
    (forall t, t <> i -> slice A' t = slice A t).
  Proof.
    intros (W & Hd & Hn & Hk) H. apply setsl_nat_ok in H; auto.
    destruct H as (Hi & W' & D' & N' & K' & Ha & Hf). subst d n k.
    apply assign_shape_ok in Ha. destruct Ha as (_ & _ & _ & Hr & Hc & Hg).
    split; [auto|]. split; [split; auto|]. auto.
  Qed.

  (** fill_rows: out[ii,:] = v(ii) for each ii *)
  Lemma fill_rows_ok dim n v (G : mat) : fill_rows dim n v = Ok G ->
    wf G /\ mr G = dim /\ mc G = n /\
    forall i, i < dim -> exists l, v i = Ok l /\ (length l = n \/ length l = 1) /\
      forall j, j < n -> get G i j = nth (bidx (length l) j) l nzero.
  Proof.
    unfold fill_rows. intro H.
    apply (rfold_seq_inv _ (fun i B => wf B /\ mr B = dim /\ mc B = n /\
       forall a, a < i -> exists l, v a = Ok l /\ (length l = n \/ length l = 1) /\
         forall j, j < n -> get B a j = nth (bidx (length l) j) l nzero)) in H; auto.
    - repeat split; try lia. apply wf_mk.
    - intros i B B' Hi (W & Hr & Hc & Hv) Hs. invok.
      pose proof Hs as Hs0. unfold setrow in Hs0.
      apply setrow_nat_ok in Hs. destruct Hs as (Hi' & Hr' & Hc' & W' & Hs1 & Hs2).
      rewrite pyidx_nat in Hs0 by lia. invok. apply assign_shape_ok in E1.
      destruct E1 as (_ & _ & _ & _ & Hfit & _). cbn in Hfit.
      split; [auto|]. split; [congruence|]. split; [congruence|].
      intros a' Ha'. destruct (Nat.eq_dec a' i) as [->|].
      + exists a. split; auto. rewrite Hc in Hfit. split. { intuition. }
        intros j Hj. rewrite Hs1 by lia. unfold bget, vec. cbn [mr mc mk]. rewrite bidx_1.
        rewrite get_mk; auto. unfold bidx. destruct (Nat.eqb_spec (length a) 1); lia.
      + destruct (Hv a') as (l & Hl1 & Hl2 & Hl3); [lia|]. exists l. repeat split; auto.
        intros j Hj. rewrite Hs2 by lia. auto.
  Qed.
End Flow.
