(** Evaluating a batch of points row by row. *)
From Coq Require Import String List ZArith Lia Bool.
From Verif Require Import Base.Num Base.Py Base.Arr Lib.ArrLemmas Model.Ext Model.Cdist Model.Score Model.DPFC.
From Verif Require Import Spec.FlowSpec Spec.QuerySpec Lib.FlowLemmas Lib.ScoreLemmas Lib.StepLemmas Lib.TotalLemmas Lib.QueryLemmas.
Import ListNotations.

Section Pointwise.
  Context {T S : Type} {O : NumOps T} (E : Ext T S).
  Notation mat := (mat T).

  (** a is row i of A *)
  Definition rowof (A : mat) (i : nat) (a : mat) : Prop :=
    i < mr A /\ mr a = 1 /\ mc a = mc A /\ forall j, j < mc A -> get a 0 j = get A i j.

  Lemma rowof_point (A : mat) i : i < mr A -> rowof A i (point A i).
  Proof. intro H. split; [auto|]. split; [reflexivity|]. split; [reflexivity|]. intros. unfold point. now rewrite get_mk by (cbn; lia). Qed.

  Lemma rowof_mk r c (f : nat -> nat -> T) i (g : nat -> nat -> T) : i < r -> (forall j, j < c -> g 0 j = f i j) ->
    rowof (mk r c f) i (mk 1 c g).
  Proof.
    intros Hi H. split; [auto|]. split; [reflexivity|]. split; [reflexivity|]. intros j Hj. cbn in Hj.
    rewrite !get_mk by lia. auto.
  Qed.

  (** two batches with matching rows *)
  Lemma bc2_rowof op (A B C : mat) i a b : rowof A i a -> rowof B i b -> mr A = mr B -> bc2 op A B = Ok C ->
    exists c, bc2 op a b = Ok c /\ rowof C i c.
  Proof.
    intros (HiA & Ra & Ca & Ha) (HiB & Rb & Cb & Hb) HR H. unfold bc2 in *. rewrite Ra, Rb, Ca, Cb. rewrite HR, bok_refl in H.
    cbn [bok Nat.eqb orb andb] in *. destruct (bok (mc A) (mc B)) eqn:Bk; [|discriminate]. injection H as <-.
    cbn [andb]. eexists. split; [reflexivity|]. rewrite bdim_refl. change (bdim 1 1) with 1. apply rowof_mk; [lia|].
    apply bok_spec in Bk.
    intros j Hj. unfold bget. rewrite Ra, Rb, Ca, Cb. cbn [bidx Nat.eqb].
    rewrite (bidx_lt (mr A)) by lia. rewrite (bidx_lt (mr B)) by lia.
    assert (JA : bidx (mc A) j < mc A). { unfold bidx, bdim in *. destruct (Nat.eqb_spec (mc A) 1); lia. }
    assert (JB : bidx (mc B) j < mc B). { unfold bidx, bdim in *. destruct (Nat.eqb_spec (mc B) 1), (Nat.eqb_spec (mc A) 1); lia. }
    now rewrite Ha, Hb by auto.
  Qed.
  (** a batch against a single row *)
  Lemma bc2_row1 op (A B C : mat) i a : rowof A i a -> mr B = 1 -> bc2 op A B = Ok C ->
    exists c, bc2 op a B = Ok c /\ rowof C i c.
  Proof.
    intros (HiA & Ra & Ca & Ha) RB H. unfold bc2 in *. rewrite Ra, Ca, RB in *. rewrite bok_1_r in H.
    cbn [bok Nat.eqb orb andb] in *. destruct (bok (mc A) (mc B)) eqn:Bk; [|discriminate]. injection H as <-.
    cbn [andb]. eexists. split; [reflexivity|]. rewrite bdim_1_r. change (bdim 1 1) with 1. apply rowof_mk; [lia|].
    apply bok_spec in Bk.
    intros j Hj. unfold bget. rewrite Ra, RB, Ca. cbn [bidx Nat.eqb].
    rewrite (bidx_lt (mr A)) by lia.
    assert (JA : bidx (mc A) j < mc A). { unfold bidx, bdim in *. destruct (Nat.eqb_spec (mc A) 1); lia. }
    now rewrite Ha by auto.
  Qed.
  Lemma mmul_rowof (A B C : mat) i a : rowof A i a -> mmul A B = Ok C -> exists c, mmul a B = Ok c /\ rowof C i c.
  Proof.
    intros (HiA & Ra & Ca & Ha) H. unfold mmul in *. rewrite Ca, Ra. destruct (mc A =? mr B); [|discriminate]. injection H as <-.
    eexists. split; [reflexivity|]. apply rowof_mk; auto. intros j Hj. f_equal. apply map_seq_ext. intros l Hl. now rewrite Ha.
  Qed.
  Lemma mmap1_rowof f (A : mat) i a : rowof A i a -> rowof (mmap1 f A) i (mmap1 f a).
  Proof.
    intros (HiA & Ra & Ca & Ha). unfold mmap1. rewrite Ra, Ca. apply rowof_mk; auto. intros. now rewrite Ha.
  Qed.
  Lemma column_rowof (A C : mat) i a d : rowof A i a -> column A d = Ok C -> exists c, column a d = Ok c /\ rowof C i c.
  Proof.
    intros (HiA & Ra & Ca & Ha) H. unfold column in *. rewrite Ca, Ra. destruct (Nat.ltb_spec d (mc A)); [|discriminate].
    injection H as <-. eexists. split; [reflexivity|]. apply rowof_mk; auto.
  Qed.
  Lemma sqdist_rowof (A Zp : mat) i a j : rowof A i a -> sqdist a Zp 0 j = sqdist A Zp i j.
  Proof. intros (HiA & Ra & Ca & Ha). unfold sqdist. rewrite Ca. f_equal. apply map_seq_ext. intros. now rewrite Ha. Qed.
  Lemma cdist_sq_rowof (A Zp C : mat) i a : rowof A i a -> cdist_sq A Zp = Ok C -> exists c, cdist_sq a Zp = Ok c /\ rowof C i c.
  Proof.
    intros Hr H. pose proof Hr as (HiA & Ra & Ca & Ha). unfold cdist_sq in *. rewrite Ca, Ra. destruct (mc A =? mc Zp); [|discriminate].
    injection H as <-. eexists. split; [reflexivity|]. apply rowof_mk; auto. intros. now apply sqdist_rowof.
  Qed.
  Lemma cdist_l2_rowof (A Zp C : mat) i a : rowof A i a -> cdist_l2 A Zp = Ok C -> exists c, cdist_l2 a Zp = Ok c /\ rowof C i c.
  Proof.
    intros Hr H. pose proof Hr as (HiA & Ra & Ca & Ha). unfold cdist_l2 in *. rewrite Ca, Ra. destruct (mc A =? mc Zp); [|discriminate].
    injection H as <-. eexists. split; [reflexivity|]. apply rowof_mk; auto. intros. f_equal. now apply sqdist_rowof.
  Qed.
  Lemma cdist_l1_rowof (A Zp C : mat) i a : rowof A i a -> cdist_l1 A Zp = Ok C -> exists c, cdist_l1 a Zp = Ok c /\ rowof C i c.
  Proof.
    intros Hr H. pose proof Hr as (HiA & Ra & Ca & Ha). unfold cdist_l1 in *. rewrite Ca, Ra. destruct (mc A =? mc Zp); [|discriminate].
    injection H as <-. eexists. split; [reflexivity|]. apply rowof_mk; auto. intros. f_equal. apply map_seq_ext. intros. now rewrite Ha.
  Qed.

  Lemma Ksz_vec_rowof Zp ls (A C : mat) i a : rowof A i a -> Ksz_vec Zp ls A = Ok C -> exists c, Ksz_vec Zp ls a = Ok c /\ rowof C i c.
  Proof.
    intros Hr H. pose proof Hr as (HiA & Ra & Ca & Ha). unfold Ksz_vec in *. rewrite Ca. apply rbind_ok in H. destruct H as (fs & Hfs & H).
    set (F := fun (X : mat) iii => let! xi := column X iii in let! zi := column Zp iii in let! c := cdist_sq xi zi in
                 let! li := pyget ls (Z.of_nat iii) in Ok (rbf_of_sq li c)) in *.
    change (rmapM (F A) (seq 0 (mc A)) = Ok fs) in Hfs. 
    assert (HF : forall iii f, F A iii = Ok f -> exists g, F a iii = Ok g /\ rowof f i g /\ mr f = mr A).
    { intros iii f Hf. unfold F in Hf |- *. invok. destruct (column_rowof _ _ _ _ _ Hr E0) as (c1 & C1 & R1). rewrite C1. cbn [rbind].
      rewrite E1. cbn [rbind]. destruct (cdist_sq_rowof _ _ _ _ _ R1 E2) as (c2 & C2 & R2). rewrite C2. cbn [rbind]. rewrite E3. cbn [rbind].
      eexists. split; [reflexivity|]. split; [now apply mmap1_rowof|]. cbn. apply is_cdist_sq in E2. destruct E2 as (_ & E2 & _).
      apply is_column in E0. destruct E0 as (_ & E0 & _). congruence. }
    assert (HM : forall l fs, rmapM (F A) l = Ok fs -> exists gs, rmapM (F a) l = Ok gs /\ Forall2 (fun f g => rowof f i g /\ mr f = mr A) fs gs).
    { clear Hfs H fs. induction l; simpl; intros fs Hl; invok. { eexists. split; [reflexivity|constructor]. }
      destruct (HF _ _ E0) as (g & G1 & G2). destruct (IHl _ E1) as (gs & G3 & G4). rewrite G1, G3. cbn. eexists. split; [reflexivity|].
      constructor; auto. }
    destruct (HM _ _ Hfs) as (gs & G1 & G2).
    change (exists c, (let! fs0 := rmapM (F a) (seq 0 (mc A)) in match fs0 with [] => Err TypeError | f0 :: fr => rfold (fun acc f => bc2 nmul acc f) fr f0 end) = Ok c /\ rowof C i c).
    rewrite G1. cbn [rbind].
    destruct G2 as [|f0 g0 fr gr (R0 & M0) Hrest]; [discriminate|].
    clear - R0 M0 Hrest H. revert f0 g0 R0 M0 H. induction Hrest as [|f g fr gr (R1 & M1) Hrest IH]; simpl; intros f0 g0 R0 M0 H; invok.
    { eexists. split; [reflexivity|]. auto. }
    destruct (bc2_rowof nmul _ _ _ _ _ _ R0 R1 ltac:(congruence) E) as (c & C1 & C2). rewrite C1. cbn [rbind]. apply IH with (f0 := a); auto.
    apply bc2_ok in E. destruct E as (_ & _ & _ & Q & _). rewrite Q, M0, M1. apply bdim_refl.
  Qed.

  Lemma Ksz_rowof Zp l (A C : mat) i a : rowof A i a -> Ksz Zp l A = Ok C -> exists c, Ksz Zp l a = Ok c /\ rowof C i c.
  Proof.
    destruct l as [l0|ls]; simpl; intros Hr H.
    - unfold Ksz_scal in *. invok. destruct (cdist_sq_rowof _ _ _ _ _ Hr E0) as (c & C1 & C2). rewrite C1. cbn.
      eexists. split; [reflexivity|]. now apply mmap1_rowof.
    - eapply Ksz_vec_rowof; eauto.
  Qed.
  Lemma Ksz_per_rowof Zp l (A C : mat) i a : rowof A i a -> Ksz_per Zp l A = Ok C -> exists c, Ksz_per Zp l a = Ok c /\ rowof C i c.
  Proof.
    destruct l as [l0|ls]; unfold Ksz_per; cbv zeta; intros Hr H.
    - invok. destruct (cdist_l1_rowof _ _ _ _ _ Hr E0) as (c & C1 & C2). rewrite C1. cbn.
      eexists. split; [reflexivity|]. now apply mmap1_rowof.
    - invok. destruct (column_rowof _ _ _ _ _ Hr E6) as (c1 & C1 & R1). rewrite C1. cbn [rbind]. rewrite E7. cbn [rbind].
      destruct (cdist_l2_rowof _ _ _ _ _ R1 E8) as (c2 & C2 & R2). rewrite C2. cbn [rbind]. rewrite E9. cbn [rbind].
      destruct (column_rowof _ _ _ _ _ Hr E2) as (c3 & C3 & R3). rewrite C3. cbn [rbind]. rewrite E3. cbn [rbind].
      destruct (cdist_sq_rowof _ _ _ _ _ R3 E4) as (c4 & C4 & R4). rewrite C4. cbn [rbind]. rewrite E5. cbn [rbind].
      eapply bc2_rowof; [| | |exact H]; try now apply mmap1_rowof.
      cbn. apply is_cdist_l2 in E8. apply is_cdist_sq in E4. apply is_column in E6. apply is_column in E2. unfold is in *. intuition congruence.
  Qed.
  Lemma Ksz_of_rowof kern Zp l (A C : mat) i a : rowof A i a -> Ksz_of kern Zp l A = Ok C -> exists c, Ksz_of kern Zp l a = Ok c /\ rowof C i c.
  Proof.
    unfold Ksz_of. destruct (String.eqb kern "RBF"); [apply Ksz_rowof|]. destruct (String.eqb kern "periodic"); [apply Ksz_per_rowof|discriminate].
  Qed.

  (** the estimated score function, point by point *)
  Lemma score_fun_rowof X Zp C kern l w fn gx i a v : rowof gx i a ->
    score_function_multid_seperate_fun E X Zp C kern l w = Ok fn -> fn gx = Ok v -> fn a = Ok [nth i v nzero].
  Proof.
    intros Hr H Hv. unfold score_function_multid_seperate_fun in H. apply rbind_ok in H.
    destruct H as ([[[K_xz Ksinv] A] s] & E0 & H). injection H as <-. apply rmap_ok in Hv. destruct Hv as (R & E1 & ->).
    unfold eval_fun in *. apply rbind_ok in E1. destruct E1 as (k & Hk & H).
    destruct (Ksz_of_rowof _ _ _ _ _ _ _ Hr Hk) as (c & C1 & R1). rewrite C1. cbn [rbind].
    apply rbind_ok in H. destruct H as (inn & Hi & H). rewrite Hi. cbn [rbind].
    apply rbind_ok in H. destruct H as (x1 & H1 & H). destruct (mmul_rowof _ _ _ _ _ R1 H1) as (y1 & Y1 & R2). rewrite Y1. cbn [rbind].
    apply rbind_ok in H. destruct H as (x2 & H2 & H). destruct (mmul_rowof _ _ _ _ _ R2 H2) as (y2 & Y2 & R3). rewrite Y2. cbn [rbind].
    destruct (mmul_rowof _ _ _ _ _ R3 H) as (y3 & Y3 & R4). rewrite Y3. cbn [rmap]. f_equal. unfold flat, col.
    destruct R4 as (Hi' & Rr & Rc & Hg). rewrite Rr. cbn [seq map]. f_equal. rewrite nth_map_seq by auto.
    destruct (Nat.eq_dec (mc R) 0) as [Z0|].
    - apply mmul_ok in H, Y3. unfold get. destruct H as (_ & W & _ & Cc & _), Y3 as (_ & W' & _ & Cc' & _).
      fold (get y3 0 0). fold (get R i 0). unfold wf in W, W'.
      rewrite W, W'. rewrite !get_mk_out by lia. reflexivity.
    - apply Hg. lia.
  Qed.
End Pointwise.
