(** Loop bodies as functions of one slice, and runs compared with each other (no modelling content). *)
From Coq Require Import String List ZArith Lia Bool.
From Verif Require Import Base.Num Base.Py Base.Arr Lib.ArrLemmas Model.Ext Model.Cdist Model.Reweight Model.Score Model.DPFC.
From Verif Require Import Lib.FlowLemmas Lib.StepLemmas Lib.RunLemmas.
Import ListNotations.

Lemma upd_upd {A} (l : list A) i a b : upd (upd l i a) i b = upd l i b.
Proof.
  revert i. induction l as [|x l IH]; intros i.
  - unfold upd. now rewrite firstn_nil, skipn_nil, firstn_nil, skipn_nil.
  - destruct i; [reflexivity|]. rewrite !upd_cons. now rewrite IH.
Qed.

Lemma bind_ext {S A B} (m m' : M S A) (k k' : A -> M S B) s :
  m s = m' s -> (forall a s1, m s = (Ok a, s1) -> k a s1 = k' a s1) -> bind m k s = bind m' k' s.
Proof. intros H Hk. unfold bind. rewrite <- H. destruct (m s) as [[a|e] s1] eqn:Q; auto. Qed.
Lemma bind_lift {S A B} (r : res A) (k : A -> M S B) s :
  bind (lift r) k s = match r with Ok a => k a s | Err e => (Err e, s) end.
Proof. unfold bind, lift. destruct r; reflexivity. Qed.
Lemma bind_ret {S A B} (r : A) (k : A -> M S B) s : bind (ret r) k s = k r s.
Proof. reflexivity. Qed.
Lemma bind_assoc {S A B C} (m : M S A) (f : A -> M S B) (g : B -> M S C) s :
  bind (bind m f) g s = bind m (fun a => bind (f a) g) s.
Proof. unfold bind. destruct (m s) as [[a|e] s1]; reflexivity. Qed.
Lemma bind_of_ok {S A B} (m : M S A) (k : A -> M S B) s a s1 : m s = (Ok a, s1) -> bind m k s = k a s1.
Proof. intro H. unfold bind. now rewrite H. Qed.
Lemma bind_of_err {S A B} (m : M S A) (k : A -> M S B) s e s1 : m s = (Err e, s1) -> bind m k s = (Err e, s1).
Proof. intro H. unfold bind. now rewrite H. Qed.

Section Core.
  Context {T S : Type} {O : NumOps T} (E : Ext T S).
  Notation mat := (mat T). Notation arr3 := (arr3 T).

  Lemma setslice_setslice (A : arr3) i m m' : setslice (setslice A i m) i m' = setslice A i m'.
  Proof. unfold setslice. cbn. now rewrite upd_upd. Qed.

  Lemma arr3_ext (A B : arr3) d n k : sh A d n k -> sh B d n k -> (forall t, t < k -> slice A t = slice B t) -> A = B.
  Proof.
    intros ((LA & _) & DA & NA & KA) ((LB & _) & DB & NB & KB) H.
    destruct A as [d1 n1 k1 sa], B as [d2 n2 k2 sb]. cbn in *. subst d1 n1 k1 d2 n2 k2.
    assert (sa = sb); [|congruence].
    apply (nth_ext _ _ (mzeros d n) (mzeros d n)); [lia|]. intros t Ht. apply H. lia.
  Qed.

  Definition otto_core (p : params T) (kern : string) (i : nat) (t : T) (x : mat) : M S mat :=
    let dim := List.length (p_y1 p) in
    let* y := (if i =? 1 then em_step E (p_g p) (call2 (p_f p)) dim (p_N p) x t
               else det_step (f_seperate E kern (p_M p) (p_g p) (call2 (p_f p)) true) x t) in
    let* m := lift (assign_shape dim (p_N p) y) in
    if p_reweight p then
      lift (let! u := ocall2 (p_U p) m t in
            let! y := reweight_slice E (p_N p) (muls u dt) m in assign_shape dim (p_N p) y)
    else ret m.

  Definition shaped (m : mat) d n : Prop := wf m /\ mr m = d /\ mc m = n.
  Lemma assign_shaped d n src m : assign_shape d n src = Ok m -> shaped m d n.
  Proof. intro H. apply assign_shape_ok in H. unfold shaped. tauto. Qed.

  Lemma setsl_eq (Zf : arr3) d n k i y : sh Zf d n k -> i < k ->
    setsl Zf (Z.of_nat i) y = rmap (setslice Zf i) (assign_shape d n y).
  Proof.
    intros (W & D & N & K) Hi. unfold setsl. rewrite pyidx_nat by lia. rewrite D, N.
    destruct (assign_shape d n y); cbn; auto. unfold setslice. now rewrite D, N.
  Qed.

  Lemma otto_core_shaped p kern i t x s m s' : otto_core p kern i t x s = (Ok m, s') ->
    shaped m (List.length (p_y1 p)) (p_N p).
  Proof.
    unfold otto_core. intro H. apply bind_ok in H. destruct H as (y & s1 & _ & H).
    apply bind_ok in H. destruct H as (m1 & s2 & Hm & H). apply lift_ok in Hm. destruct Hm as (Hm & _).
    destruct (p_reweight p).
    - apply lift_ok in H. destruct H as (H & _). invok. eapply assign_shaped; eauto.
    - apply ret_ok in H. destruct H as (-> & _). eapply assign_shaped; eauto.
  Qed.

  Lemma otto_body_core p kern (Zf : arr3) i t s k : sh Zf (List.length (p_y1 p)) (p_N p) k -> 1 <= i < k ->
    otto_body E p kern Zf (i, t) s = bind (otto_core p kern i t (slice Zf (i-1))) (fun m => ret (setslice Zf i m)) s.
  Proof.
    intros HZ Hi. unfold otto_body, otto_core. destruct (Nat.eqb_spec i 0); [lia|].
    rewrite !bind_assoc. rewrite bind_lift. replace (Z.of_nat i - 1)%Z with (Z.of_nat (i-1)) by lia.
    rewrite getsl_nat by (destruct HZ as (_ & _ & _ & ->); lia).
    rewrite bind_assoc. apply bind_ext; [reflexivity|]. intros y s1 _.
    rewrite bind_lift, bind_assoc, bind_lift. rewrite (setsl_eq _ _ _ _ _ _ HZ) by lia.
    destruct (assign_shape (List.length (p_y1 p)) (p_N p) y) as [m|e] eqn:Hm; cbn [rmap]; [|reflexivity].
    apply assign_shaped in Hm. destruct Hm as (Wm & Rm & Cm).
    assert (HZ1 : sh (setslice Zf i m) (List.length (p_y1 p)) (p_N p) k) by (apply sh_set; auto; lia).
    destruct (p_reweight p); cbn [andb]; [|reflexivity].
    destruct (Nat.ltb_spec 0 i); [|lia]. rewrite bind_lift.
    rewrite getsl_nat by (destruct HZ1 as (_ & _ & _ & ->); lia). cbn [rbind].
    rewrite slice_set_same by (try apply HZ; destruct HZ as (_ & _ & _ & ->); lia).
    unfold lift. destruct (ocall2 (p_U p) m t) as [u|e]; cbn [rbind]; [|reflexivity].
    destruct (reweight_slice E (p_N p) (muls u dt) m) as [y'|e]; cbn [rbind]; [|reflexivity].
    rewrite (setsl_eq _ _ _ _ _ _ HZ1) by lia.
    destruct (assign_shape (List.length (p_y1 p)) (p_N p) y'); cbn [rmap]; [|reflexivity].
    now rewrite setslice_setslice.
  Qed.

  (** two runs of a loop that fills slices 1..m from slice 0 *)
  Lemma core_fold_agree (body1 body2 : arr3 -> nat * T -> M S arr3) (g : nat -> nat * T)
    (core : nat -> mat -> M S mat) d n k m : m < k ->
    (forall i A s, i < m -> sh A d n k ->
       body1 A (g i) s = bind (core i (slice A i)) (fun x => ret (setslice A (Datatypes.S i) x)) s) ->
    (forall i A s, i < m -> sh A d n k ->
       body2 A (g i) s = bind (core i (slice A i)) (fun x => ret (setslice A (Datatypes.S i) x)) s) ->
    (forall i x s y s', core i x s = (Ok y, s') -> shaped y d n) ->
    forall A B s, sh A d n k -> sh B d n k -> slice A 0 = slice B 0 ->
    match mfold body1 (map g (seq 0 m)) A s, mfold body2 (map g (seq 0 m)) B s with
    | (Ok A', s1), (Ok B', s2) => s1 = s2 /\ sh A' d n k /\ sh B' d n k /\ forall t, t <= m -> slice A' t = slice B' t
    | (Err e1, s1), (Err e2, s2) => e1 = e2 /\ s1 = s2
    | _, _ => False
    end.
  Proof.
    intros Hmk Hb1 Hb2 Hc A B s HA HB H0. induction m as [|m IH].
    - cbn. split; [auto|]. split; [auto|]. split; [auto|]. intros t Ht. now replace t with 0 by lia.
    - rewrite seq_S, map_app, !mfold_app. cbn [map mfold plus].
      assert (Hb1' : forall i A s, i < m -> sh A d n k ->
         body1 A (g i) s = bind (core i (slice A i)) (fun x => ret (setslice A (Datatypes.S i) x)) s) by (intros; apply Hb1; [lia|assumption]).
      assert (Hb2' : forall i A s, i < m -> sh A d n k ->
         body2 A (g i) s = bind (core i (slice A i)) (fun x => ret (setslice A (Datatypes.S i) x)) s) by (intros; apply Hb2; [lia|assumption]).
      specialize (IH ltac:(lia) Hb1' Hb2').
      assert (U : forall (m : M S arr3) (k : arr3 -> M S arr3) s,
         bind m k s = match m s with (Ok a, s') => k a s' | (Err e, s') => (Err e, s') end) by reflexivity.
      rewrite (U (mfold body1 _ A)), (U (mfold body2 _ B)).
      destruct (mfold body1 (map g (seq 0 m)) A s) as [[A1|e1] s1], (mfold body2 (map g (seq 0 m)) B s) as [[B1|e2] s2];
        try contradiction; auto.
      destruct IH as (-> & HA1 & HB1 & Hag). 
      assert (E1 : bind (body1 A1 (g m)) (fun b' => ret b') s2 = body1 A1 (g m) s2) by
        (unfold bind, ret; destruct (body1 A1 (g m) s2) as [[?|?] ?]; reflexivity).
      assert (E2 : bind (body2 B1 (g m)) (fun b' => ret b') s2 = body2 B1 (g m) s2) by
        (unfold bind, ret; destruct (body2 B1 (g m) s2) as [[?|?] ?]; reflexivity).
      rewrite E1, E2. rewrite Hb1, Hb2 by auto. rewrite <- (Hag m) by lia.
      unfold bind, ret. destruct (core m (slice A1 m) s2) as [[x|e] s3] eqn:Q; [|auto].
      destruct (Hc _ _ _ _ _ Q) as (Wx & Rx & Cx).
      assert (sh (setslice A1 (Datatypes.S m) x) d n k) by (apply sh_set; auto).
      assert (sh (setslice B1 (Datatypes.S m) x) d n k) by (apply sh_set; auto).
      split; [auto|]. split; [auto|]. split; [auto|].
      intros t Ht. destruct (Nat.eq_dec t (Datatypes.S m)) as [->|Hne].
      + destruct HA1 as (WA1 & _ & _ & KA1), HB1 as (WB1 & _ & _ & KB1).
        rewrite !slice_set_same by (auto; lia). reflexivity.
      + rewrite !slice_set_other by auto. apply Hag. lia.
  Qed.
End Core.
