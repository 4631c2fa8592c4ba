(** Lemmas about the array model and the monad (no modelling content). *)
From Coq Require Import List ZArith Lia Bool.
From Verif Require Import Base.Num Base.Py Base.Arr.
Import ListNotations.

(** ** Inversion of the result and state monads *)
Lemma rbind_ok {A B} (m : res A) (k : A -> res B) b :
  rbind m k = Ok b -> exists a, m = Ok a /\ k a = Ok b.
Proof. destruct m; simpl; intro H; [eauto|discriminate]. Qed.

Lemma rmap_ok {A B} (f : A -> B) (m : res A) b : rmap f m = Ok b -> exists a, m = Ok a /\ b = f a.
Proof. destruct m; simpl; intro H; [inversion H; eauto|discriminate]. Qed.

Lemma bind_ok {S A B} (m : M S A) (k : A -> M S B) s b s' :
  bind m k s = (Ok b, s') -> exists a s1, m s = (Ok a, s1) /\ k a s1 = (Ok b, s').
Proof. unfold bind; destruct (m s) as [[a|e] s1]; intro H; [eauto|discriminate]. Qed.

Lemma lift_ok {S A} (r : res A) (s : S) a s' : lift r s = (Ok a, s') -> r = Ok a /\ s' = s.
Proof. unfold lift; intro H; inversion H; auto. Qed.

Lemma ret_ok {S A} (r : A) (s : S) a s' : ret r s = (Ok a, s') -> a = r /\ s' = s.
Proof. unfold ret; intro H; inversion H; auto. Qed.

Ltac substeq H := match type of H with ?x = ?y => first [subst y | subst x | idtac] end.
Ltac invok :=
  repeat match goal with
  | H : rbind _ _ = Ok _ |- _ =>
      let a := fresh "a" in let E := fresh "E" in
      apply rbind_ok in H; destruct H as (a & E & H)
  | H : rmap _ _ = Ok _ |- _ =>
      let a := fresh "a" in let E := fresh "E" in apply rmap_ok in H; destruct H as (a & E & H)
  | H : bind _ _ _ = (Ok _, _) |- _ =>
      let a := fresh "a" in let s := fresh "s" in let E := fresh "E" in
      apply bind_ok in H; destruct H as (a & s & E & H)
  | H : lift _ _ = (Ok _, _) |- _ => let Q := fresh "Q" in apply lift_ok in H; destruct H as (H & Q); substeq Q
  | H : ret _ _ = (Ok _, _) |- _ => let Q := fresh "Q" in let Q' := fresh "Q" in apply ret_ok in H; destruct H as (Q & Q'); substeq Q; substeq Q'
  | H : Ok _ = Ok _ |- _ => let Q := fresh "Q" in injection H as Q; substeq Q
  | H : Err _ = Ok _ |- _ => discriminate H
  | H : (Err _, _) = (Ok _, _) |- _ => discriminate H
  | H : (Ok _, _) = (Ok _, _) |- _ => let Q := fresh "Q" in let Q' := fresh "Q" in injection H as Q Q'; substeq Q; substeq Q'
  end.

(** ** Python indices *)
Lemma pyidx_nat n i : i < n -> pyidx n (Z.of_nat i) = Some i.
Proof.
  intro. unfold pyidx. destruct (Z.leb_spec 0 (Z.of_nat i)); try lia.
  destruct (Z.ltb_spec (Z.of_nat i) (Z.of_nat n)); try lia. now rewrite Nat2Z.id.
Qed.
Lemma pyidx_nat_none n i : n <= i -> pyidx n (Z.of_nat i) = None.
Proof.
  intro. unfold pyidx. destruct (Z.leb_spec 0 (Z.of_nat i)); try lia.
  destruct (Z.ltb_spec (Z.of_nat i) (Z.of_nat n)); try lia. reflexivity.
Qed.
Lemma pyidx_some n i j : pyidx n i = Some j -> j < n /\ (i = Z.of_nat j \/ i = Z.of_nat j - Z.of_nat n)%Z.
Proof.
  unfold pyidx. destruct (Z.leb_spec 0 i).
  - destruct (Z.ltb_spec i (Z.of_nat n)); intro E; inversion E; subst; clear E. lia.
  - destruct (Z.leb_spec (- Z.of_nat n) i); intro E; inversion E; subst; clear E. lia.
Qed.
Lemma pyidx_m1 n : 0 < n -> pyidx n (-1) = Some (n - 1).
Proof.
  intro. unfold pyidx. simpl. destruct (Z.leb_spec (- Z.of_nat n) (-1)); try lia.
  f_equal. lia.
Qed.
Lemma pyidx_0 n : 0 < n -> pyidx n 0 = Some 0.
Proof. intro. apply (pyidx_nat n 0 H). Qed.
Lemma pyidx_neg n i : (- Z.of_nat n <= i < 0)%Z -> pyidx n i = Some (Z.to_nat (Z.of_nat n + i)).
Proof.
  intro. unfold pyidx. destruct (Z.leb_spec 0 i); try lia.
  destruct (Z.leb_spec (- Z.of_nat n) i); try lia. reflexivity.
Qed.
Lemma pyidx_pos n i : (0 <= i < Z.of_nat n)%Z -> pyidx n i = Some (Z.to_nat i).
Proof.
  intro. unfold pyidx. destruct (Z.leb_spec 0 i); try lia.
  destruct (Z.ltb_spec i (Z.of_nat n)); try lia. reflexivity.
Qed.
Lemma pyidx_out n i : (i < - Z.of_nat n \/ Z.of_nat n <= i)%Z -> pyidx n i = None.
Proof.
  intro. unfold pyidx. destruct (Z.leb_spec 0 i).
  - destruct (Z.ltb_spec i (Z.of_nat n)); try lia. reflexivity.
  - destruct (Z.leb_spec (- Z.of_nat n) i); try lia. reflexivity.
Qed.

Lemma pyget_ok {A} (l : list A) i a : pyget l i = Ok a ->
  exists j, pyidx (length l) i = Some j /\ nth_error l j = Some a.
Proof.
  unfold pyget. destruct (pyidx (length l) i); [|discriminate].
  destruct (nth_error l n) eqn:E; [|discriminate]. intro H; inversion H; subst. eauto.
Qed.
Lemma pyget_nat {A} (l : list A) i d : i < length l -> pyget l (Z.of_nat i) = Ok (nth i l d).
Proof.
  intro. unfold pyget. rewrite pyidx_nat by auto.
  rewrite (nth_error_nth' l d) by auto. reflexivity.
Qed.
Lemma pyget_nat_ok {A} (l : list A) i a d : pyget l (Z.of_nat i) = Ok a -> i < length l /\ a = nth i l d.
Proof.
  intro H. destruct (Nat.lt_ge_cases i (length l)).
  - rewrite (pyget_nat _ _ d) in H by auto. inversion H; auto.
  - unfold pyget in H. rewrite pyidx_nat_none in H by lia. discriminate.
Qed.

(** ** Lists *)
Lemma nth_map_seq {A} (f : nat -> A) n i d : i < n -> nth i (map f (seq 0 n)) d = f i.
Proof. intro. rewrite (nth_indep _ d (f 0)) by (rewrite map_length, seq_length; auto).
  rewrite map_nth. rewrite seq_nth by auto. reflexivity. Qed.
Lemma map_seq_ext {A} (f g : nat -> A) n : (forall i, i < n -> f i = g i) -> map f (seq 0 n) = map g (seq 0 n).
Proof. intro H. apply map_ext_in. intros a Ha. apply in_seq in Ha. apply H. lia. Qed.
Lemma map_nth_seq {A} (l : list A) d : map (fun i => nth i l d) (seq 0 (length l)) = l.
Proof.
  apply (nth_ext _ _ d d).
  - now rewrite map_length, seq_length.
  - intros i Hi. rewrite map_length, seq_length in Hi. now rewrite nth_map_seq.
Qed.

Lemma rmapM_ok {A B} (f : A -> res B) l r : rmapM f l = Ok r ->
  length r = length l /\ forall i a, nth_error l i = Some a -> exists b, nth_error r i = Some b /\ f a = Ok b.
Proof.
  revert r. induction l as [|x l IH]; simpl; intros r H.
  - inversion H; subst. split; auto. intros [|i] a Hi; discriminate.
  - invok. destruct (IH _ E0) as (Hl & Hn). split; [simpl; lia|].
    intros [|i] b Hb; simpl in *.
    + inversion Hb; subst. eauto.
    + apply Hn in Hb. exact Hb.
Qed.
Lemma rmapM_seq_ok {B} (f : nat -> res B) n r d : rmapM f (seq 0 n) = Ok r ->
  length r = n /\ forall i, i < n -> f i = Ok (nth i r d).
Proof.
  intro H. apply rmapM_ok in H. destruct H as (Hl & Hn). rewrite seq_length in Hl. split; auto.
  intros i Hi. destruct (Hn i i) as (b & Hb & Hf).
  - rewrite (nth_error_nth' _ 0) by (rewrite seq_length; auto). now rewrite seq_nth.
  - apply nth_error_nth with (d := d) in Hb. now rewrite Hb.
Qed.
Lemma rmapM_intro {A B} (f : A -> res B) (g : A -> B) l :
  (forall a, In a l -> f a = Ok (g a)) -> rmapM f l = Ok (map g l).
Proof.
  induction l; simpl; intro H; [reflexivity|].
  rewrite H by auto. simpl. rewrite IHl by auto. reflexivity.
Qed.
Lemma rmapM_ext {A B} (f g : A -> res B) l : (forall a, In a l -> f a = g a) -> rmapM f l = rmapM g l.
Proof.
  induction l; simpl; intro H; [reflexivity|]. rewrite H by auto. now rewrite IHl by auto.
Qed.
Lemma rfold_ext {A B} (f g : B -> A -> res B) l b : (forall b a, In a l -> f b a = g b a) -> rfold f l b = rfold g l b.
Proof.
  revert b. induction l; simpl; intros b H; [reflexivity|]. rewrite H by auto.
  destruct (g b a); simpl; [|reflexivity]. apply IHl; auto.
Qed.
Lemma rfold_app {A B} (f : B -> A -> res B) l1 l2 b :
  rfold f (l1 ++ l2) b = rbind (rfold f l1 b) (rfold f l2).
Proof. revert b. induction l1; simpl; intro b; [reflexivity|]. destruct (f b a); simpl; auto. Qed.
Lemma mfold_app {S A B} (f : B -> A -> M S B) l1 l2 b s :
  mfold f (l1 ++ l2) b s = bind (mfold f l1 b) (mfold f l2) s.
Proof.
  revert b s. induction l1; intros b s; [reflexivity|].
  cbn [app mfold]. unfold bind at 1 2. unfold bind. destruct (f b a s) as [[b1|e] s1]; [|reflexivity].
  rewrite IHl1. reflexivity.
Qed.

(** invariant rule for a successful fold over 0..n-1 *)
Lemma rfold_seq_inv {B} (f : B -> nat -> res B) (P : nat -> B -> Prop) n b0 b :
  P 0 b0 ->
  (forall i b b', i < n -> P i b -> f b i = Ok b' -> P (S i) b') ->
  rfold f (seq 0 n) b0 = Ok b -> P n b.
Proof.
  intros H0 Hs. revert b. induction n; intros b H.
  - simpl in H. now inversion H; subst.
  - rewrite seq_S in H. simpl in H. rewrite rfold_app in H. invok.
    simpl in H. invok. eapply Hs; [|eapply IHn|]; eauto.
Qed.
Lemma rfold_seq_total {B} (f : B -> nat -> res B) (P : nat -> B -> Prop) n b0 :
  P 0 b0 ->
  (forall i b, i < n -> P i b -> exists b', f b i = Ok b' /\ P (S i) b') ->
  exists b, rfold f (seq 0 n) b0 = Ok b /\ P n b.
Proof.
  intros H0 Hs. induction n.
  - simpl. eauto.
  - destruct IHn as (b & Hb & Pb). { intros; apply Hs; auto. }
    rewrite seq_S. simpl. rewrite rfold_app, Hb. simpl.
    destruct (Hs n b) as (b' & Hb' & Pb'); auto. rewrite Hb'. simpl. eauto.
Qed.

Lemma enumerate_length {A} (l : list A) : length (enumerate l) = length l.
Proof. unfold enumerate. rewrite combine_length, seq_length. lia. Qed.
Lemma enumerate_nth {A} (l : list A) i d : i < length l -> nth i (enumerate l) (0, d) = (i, nth i l d).
Proof. intro. unfold enumerate. rewrite combine_nth by now rewrite seq_length. now rewrite seq_nth. Qed.
Lemma enumerate_map {A} (l : list A) d : enumerate l = map (fun i => (i, nth i l d)) (seq 0 (length l)).
Proof.
  apply (nth_ext _ _ (0,d) (0,d)).
  - now rewrite enumerate_length, map_length, seq_length.
  - intros i Hi. rewrite enumerate_length in Hi. rewrite enumerate_nth by auto. now rewrite nth_map_seq.
Qed.

(** invariant rules for the monadic fold over enumerate *)
Lemma mfold_seq_inv {S A B} (f : B -> A -> M S B) (g : nat -> A) (P : nat -> B -> S -> Prop) n b0 s0 b s :
  P 0 b0 s0 ->
  (forall i b s b' s', i < n -> P i b s -> f b (g i) s = (Ok b', s') -> P (Datatypes.S i) b' s') ->
  mfold f (map g (seq 0 n)) b0 s0 = (Ok b, s) -> P n b s.
Proof.
  intros H0 Hs. revert b s. induction n; intros b s H.
  - simpl in H. invok. auto.
  - rewrite seq_S, map_app, mfold_app in H. simpl in H. invok.
    eapply Hs; [|eapply IHn|]; eauto.
Qed.
Lemma mfold_seq_total {S A B} (f : B -> A -> M S B) (g : nat -> A) (P : nat -> B -> S -> Prop) n b0 s0 :
  P 0 b0 s0 ->
  (forall i b s, i < n -> P i b s -> exists b' s', f b (g i) s = (Ok b', s') /\ P (Datatypes.S i) b' s') ->
  exists b s, mfold f (map g (seq 0 n)) b0 s0 = (Ok b, s) /\ P n b s.
Proof.
  intros H0 Hs. induction n.
  - simpl. unfold ret. eauto.
  - destruct IHn as (b & s & Hb & Pb). { intros; apply Hs; auto. }
    rewrite seq_S, map_app, mfold_app. unfold bind. rewrite Hb. simpl.
    destruct (Hs n b s) as (b' & s' & Hb' & Pb'); auto. unfold bind. rewrite Hb'. unfold ret. eauto.
Qed.

Section ArrLemmas.
  Context {T : Type} {O : NumOps T}.
  Notation mat := (mat T). Notation arr3 := (arr3 T).

  Lemma get_mk r c (f : nat -> nat -> T) i j : i < r -> j < c -> get (mk r c f) i j = f i j.
  Proof. intros. unfold get, mk; simpl. rewrite nth_map_seq by auto. now rewrite nth_map_seq. Qed.
  Lemma get_mk_out r c (f : nat -> nat -> T) i j : (r <= i \/ c <= j) -> get (mk r c f) i j = nzero.
  Proof.
    intros [H|H]; unfold get, mk; simpl.
    - rewrite (nth_overflow _ _ (n:=i)) by (rewrite map_length, seq_length; auto).
      destruct j; reflexivity.
    - destruct (Nat.lt_ge_cases i r).
      + rewrite nth_map_seq by auto. apply nth_overflow. now rewrite map_length, seq_length.
      + rewrite (nth_overflow _ _ (n:=i)) by (rewrite map_length, seq_length; auto). destruct j; reflexivity.
  Qed.
  Lemma mk_ext r c (f g : nat -> nat -> T) : (forall i j, i < r -> j < c -> f i j = g i j) -> mk r c f = mk r c g.
  Proof. intro H. unfold mk. f_equal. apply map_seq_ext. intros. apply map_seq_ext. auto. Qed.

  (** A is what numpy would hold: rows and columns as declared *)
  Definition wf (A : mat) : Prop := A = mk (mr A) (mc A) (get A).
  Lemma wf_mk r c (f : nat -> nat -> T) : wf (mk r c f).
  Proof. unfold wf; simpl. apply mk_ext. intros. now rewrite get_mk. Qed.
  Lemma wf_eq A B : wf A -> wf B -> mr A = mr B -> mc A = mc B ->
    (forall i j, i < mr A -> j < mc A -> get A i j = get B i j) -> A = B.
  Proof. intros HA HB Hr Hc H. rewrite HA, HB, <- Hr, <- Hc. now apply mk_ext. Qed.
  Lemma mk_inj r c (f g : nat -> nat -> T) : mk r c f = mk r c g -> forall i j, i < r -> j < c -> f i j = g i j.
  Proof. intros H i j Hi Hj. rewrite <- (get_mk r c f i j), <- (get_mk r c g i j) by auto. now rewrite H. Qed.

  Lemma row_length (A : mat) i : length (row A i) = mc A.
  Proof. unfold row. now rewrite map_length, seq_length. Qed.
  Lemma col_length (A : mat) j : length (col A j) = mr A.
  Proof. unfold col. now rewrite map_length, seq_length. Qed.
  Lemma nth_row (A : mat) i j d : j < mc A -> nth j (row A i) d = get A i j.
  Proof. intro. unfold row. now rewrite nth_map_seq. Qed.
  Lemma nth_col (A : mat) i j d : i < mr A -> nth i (col A j) d = get A i j.
  Proof. intro. unfold col. now rewrite nth_map_seq. Qed.
  Lemma row_mk r c (f : nat -> nat -> T) i : i < r -> row (mk r c f) i = map (f i) (seq 0 c).
  Proof. intro. unfold row; simpl. apply map_seq_ext. intros. now rewrite get_mk. Qed.
  Lemma col_mk r c (f : nat -> nat -> T) j : j < c -> col (mk r c f) j = map (fun i => f i j) (seq 0 r).
  Proof. intro. unfold col; simpl. apply map_seq_ext. intros. now rewrite get_mk. Qed.
  Lemma row_vec l : row (vec l) 0 = l.
  Proof. unfold vec. rewrite row_mk by lia. apply map_nth_seq. Qed.
  Lemma get_vec l j : j < length l -> get (vec l) 0 j = nth j l nzero.
  Proof. intro. unfold vec. now rewrite get_mk by lia. Qed.
  Lemma wf_vec l : wf (vec l). Proof. apply wf_mk. Qed.

  Lemma mT_mk r c (f : nat -> nat -> T) : mT (mk r c f) = mk c r (fun i j => f j i).
  Proof. unfold mT; simpl. apply mk_ext. intros. now rewrite get_mk. Qed.
  Lemma get_mT A i j : i < mc A -> j < mr A -> get (mT A) i j = get A j i.
  Proof. intros. unfold mT. now rewrite get_mk. Qed.
  Lemma mT_mT A : wf A -> mT (mT A) = A.
  Proof. intro H. unfold mT at 2. rewrite mT_mk. symmetry. exact H. Qed.
  Lemma wf_mT A : wf (mT A). Proof. apply wf_mk. Qed.

  Lemma mmap1_mk f r c (h : nat -> nat -> T) : mmap1 f (mk r c h) = mk r c (fun i j => f (h i j)).
  Proof. unfold mmap1; simpl. apply mk_ext. intros. now rewrite get_mk. Qed.
  Lemma get_mmap1 f A i j : i < mr A -> j < mc A -> get (mmap1 f A) i j = f (get A i j).
  Proof. intros. unfold mmap1. now rewrite get_mk. Qed.
  Lemma wf_mmap1 f A : wf (mmap1 f A). Proof. apply wf_mk. Qed.

  (** broadcasting *)
  Lemma bok_refl n : bok n n = true. Proof. unfold bok. now rewrite Nat.eqb_refl. Qed.
  Lemma bdim_refl n : bdim n n = n. Proof. unfold bdim. now destruct (n =? 1). Qed.
  Lemma bok_1_l n : bok 1 n = true. Proof. unfold bok. simpl. now rewrite orb_true_r. Qed.
  Lemma bok_1_r n : bok n 1 = true. Proof. unfold bok. simpl. now rewrite orb_true_r. Qed.
  Lemma bdim_1_l n : bdim 1 n = n. Proof. reflexivity. Qed.
  Lemma bdim_1_r n : bdim n 1 = n. Proof. unfold bdim. destruct (Nat.eqb_spec n 1); auto. Qed.
  Lemma bidx_lt n i : i < n -> bidx n i = i.
  Proof. unfold bidx. destruct (Nat.eqb_spec n 1); intros; subst; lia. Qed.
  Lemma bidx_1 i : bidx 1 i = 0. Proof. reflexivity. Qed.
  Lemma bget_in A i j : i < mr A -> j < mc A -> bget A i j = get A i j.
  Proof. intros. unfold bget. now rewrite !bidx_lt. Qed.
  Lemma bok_spec a b : bok a b = true <-> (a = b \/ a = 1 \/ b = 1).
  Proof. unfold bok. rewrite !orb_true_iff, !Nat.eqb_eq. tauto. Qed.

  Lemma bc2_ok op A B C : bc2 op A B = Ok C ->
    bok (mr A) (mr B) = true /\ bok (mc A) (mc B) = true /\ wf C /\
    mr C = bdim (mr A) (mr B) /\ mc C = bdim (mc A) (mc B) /\
    forall i j, i < mr C -> j < mc C -> get C i j = op (bget A i j) (bget B i j).
  Proof.
    unfold bc2. destruct (bok (mr A) (mr B)); simpl; [|discriminate].
    destruct (bok (mc A) (mc B)); simpl; [|discriminate]. intro H; inversion H; subst; clear H.
    repeat split; auto. { apply wf_mk. } simpl. intros. now rewrite get_mk.
  Qed.
  Lemma bc2_same op A B r c : mr A = r -> mc A = c -> mr B = r -> mc B = c ->
    bc2 op A B = Ok (mk r c (fun i j => op (get A i j) (get B i j))).
  Proof.
    intros; unfold bc2. subst r c. rewrite H1, H2, !bok_refl, !bdim_refl. simpl. f_equal.
    apply mk_ext. intros. now rewrite !bget_in by lia.
  Qed.
  Lemma bc2_mk op r c (f g : nat -> nat -> T) : bc2 op (mk r c f) (mk r c g) = Ok (mk r c (fun i j => op (f i j) (g i j))).
  Proof.
    rewrite (bc2_same op _ _ r c) by reflexivity. f_equal. apply mk_ext. intros. now rewrite !get_mk.
  Qed.

  Lemma assign_shape_ok r c src v : assign_shape r c src = Ok v ->
    wf v /\ mr v = r /\ mc v = c /\ (mr src = r \/ mr src = 1) /\ (mc src = c \/ mc src = 1) /\
    forall i j, i < r -> j < c -> get v i j = bget src i j.
  Proof.
    unfold assign_shape. destruct (((mr src =? r) || (mr src =? 1)) && ((mc src =? c) || (mc src =? 1))) eqn:E;
      [|discriminate]. intro H; inversion H; subst; clear H.
    rewrite andb_true_iff, !orb_true_iff, !Nat.eqb_eq in E. repeat split; try tauto. { apply wf_mk. }
    intros. now rewrite get_mk.
  Qed.
  Lemma assign_shape_same r c src : mr src = r -> mc src = c -> assign_shape r c src = Ok (mk r c (get src)).
  Proof.
    intros. unfold assign_shape. rewrite H, H0, !Nat.eqb_refl. simpl. f_equal. apply mk_ext.
    intros. rewrite bget_in; auto; lia.
  Qed.
  Lemma assign_shape_wf r c src : wf src -> mr src = r -> mc src = c -> assign_shape r c src = Ok src.
  Proof. intros. rewrite assign_shape_same by auto. f_equal. subst. symmetry; exact H. Qed.

  Lemma setrow_nat_ok A i v A' : setrow A (Z.of_nat i) v = Ok A' ->
    i < mr A /\ mr A' = mr A /\ mc A' = mc A /\ wf A' /\
    (forall j, j < mc A -> get A' i j = bget v 0 j) /\
    (forall a b, a < mr A -> b < mc A -> a <> i -> get A' a b = get A a b).
  Proof.
    unfold setrow. destruct (pyidx (mr A) (Z.of_nat i)) as [i'|] eqn:E; [|discriminate].
    destruct (Nat.lt_ge_cases i (mr A)) as [Hi|Hi]; [|rewrite pyidx_nat_none in E by auto; discriminate].
    rewrite pyidx_nat in E by auto. inversion E; subst i'; clear E. intro H. invok.
    apply assign_shape_ok in E. destruct E as (_ & _ & _ & _ & _ & Hg).
    repeat split; auto. { apply wf_mk. }
    - intros. rewrite get_mk, Nat.eqb_refl by auto. apply Hg; lia.
    - intros. rewrite get_mk by auto. apply Nat.eqb_neq in H1. now rewrite H1.
  Qed.
  Lemma setrow_nat A i v : i < mr A -> mr v = 1 -> mc v = mc A ->
    setrow A (Z.of_nat i) v = Ok (mk (mr A) (mc A) (fun a b => if a =? i then get v 0 b else get A a b)).
  Proof.
    intros. unfold setrow. rewrite pyidx_nat by auto. rewrite assign_shape_same by auto. simpl. f_equal.
    apply mk_ext. intros. destruct (i0 =? i); auto. rewrite get_mk; auto.
  Qed.

  Lemma mmul_ok A B C : mmul A B = Ok C ->
    mc A = mr B /\ wf C /\ mr C = mr A /\ mc C = mc B /\
    forall i j, i < mr A -> j < mc B ->
      get C i j = nsum (map (fun k => nmul (get A i k) (get B k j)) (seq 0 (mc A))).
  Proof.
    unfold mmul. destruct (Nat.eqb_spec (mc A) (mr B)); [|discriminate]. intro H; inversion H; subst; clear H.
    repeat split; auto. { apply wf_mk. } intros. now rewrite get_mk.
  Qed.
  Lemma mmul_dim A B : mc A = mr B ->
    mmul A B = Ok (mk (mr A) (mc B) (fun i j => nsum (map (fun k => nmul (get A i k) (get B k j)) (seq 0 (mc A))))).
  Proof. intro. unfold mmul. apply Nat.eqb_eq in H. now rewrite H. Qed.

  (** ** flows *)
  Lemma upd_length {A} (l : list A) i a : length (upd l i a) = length l.
  Proof.
    unfold upd. rewrite app_length. destruct (Nat.lt_ge_cases i (length l)).
    - rewrite firstn_length_le by lia. destruct (skipn i l) eqn:E.
      + assert (length (skipn i l) = 0) by now rewrite E. rewrite skipn_length in H0. lia.
      + assert (length (skipn i l) = S (length l0)) by now rewrite E. rewrite skipn_length in H0. simpl. lia.
    - rewrite firstn_all2 by lia. rewrite skipn_all2 by lia. simpl. lia.
  Qed.
  Lemma upd_nth_same {A} (l : list A) i a d : i < length l -> nth i (upd l i a) d = a.
  Proof.
    intro. unfold upd. rewrite app_nth2; rewrite firstn_length_le by lia; [|lia].
    rewrite Nat.sub_diag. destruct (skipn i l) eqn:E; [|reflexivity].
    assert (length (skipn i l) = 0) by now rewrite E. rewrite skipn_length in H0. lia.
  Qed.
  Lemma upd_cons {A} (x : A) l i a : upd (x :: l) (S i) a = x :: upd l i a.
  Proof. reflexivity. Qed.
  Lemma upd_nth_other {A} (l : list A) i j a d : i <> j -> nth j (upd l i a) d = nth j l d.
  Proof.
    revert i j. induction l as [|x l IH]; intros i j H.
    - unfold upd. rewrite firstn_nil, skipn_nil. reflexivity.
    - destruct i as [|i].
      + destruct j; [lia|]. reflexivity.
      + rewrite upd_cons. destruct j; [reflexivity|]. simpl. apply IH. lia.
  Qed.

  Definition wf3 (A : arr3) : Prop :=
    length (a_s A) = a_k A /\ forall t, t < a_k A -> wf (slice A t) /\ mr (slice A t) = a_d A /\ mc (slice A t) = a_n A.

  Lemma slice_nth A t : slice A t = nth t (a_s A) (mzeros (a_d A) (a_n A)). Proof. reflexivity. Qed.
  Lemma wf3_zeros d n k : wf3 (zeros3 d n k).
  Proof.
    split; simpl. { apply repeat_length. } intros t Ht.
    unfold slice, zeros3; simpl. rewrite nth_repeat. repeat split. apply wf_mk.
  Qed.
  Lemma slice_zeros d n k t : slice (zeros3 d n k) t = mzeros d n.
  Proof. unfold slice, zeros3; simpl. apply nth_repeat. Qed.

  Definition setslice (A : arr3) (j : nat) (m : mat) : arr3 := Arr3 (a_d A) (a_n A) (a_k A) (upd (a_s A) j m).
  Lemma slice_set_same A j m : wf3 A -> j < a_k A -> slice (setslice A j m) j = m.
  Proof. intros [H _] Hj. unfold slice, setslice; simpl. apply upd_nth_same. lia. Qed.
  Lemma slice_set_other A j m t : t <> j -> slice (setslice A j m) t = slice A t.
  Proof. intros. unfold slice, setslice; simpl. apply upd_nth_other. auto. Qed.
  Lemma wf3_set A j m : wf3 A -> j < a_k A -> wf m -> mr m = a_d A -> mc m = a_n A -> wf3 (setslice A j m).
  Proof.
    intros H Hj Hm Hr Hc. split; simpl. { rewrite upd_length. apply H. }
    intros t Ht. destruct (Nat.eq_dec t j) as [->|Ht'].
    - rewrite slice_set_same by auto. auto.
    - rewrite slice_set_other by auto. apply H; auto.
  Qed.

  Lemma getsl_nat A i : i < a_k A -> getsl A (Z.of_nat i) = Ok (slice A i).
  Proof. intro. unfold getsl. now rewrite pyidx_nat. Qed.
  Lemma getsl_ok A t m : getsl A t = Ok m -> exists j, pyidx (a_k A) t = Some j /\ m = slice A j /\ j < a_k A.
  Proof.
    unfold getsl. destruct (pyidx (a_k A) t) eqn:E; [|discriminate]. intro H; inversion H; subst.
    exists n. repeat split; auto. now apply pyidx_some in E.
  Qed.

  Lemma setsl_ok A t src A' : setsl A t src = Ok A' ->
    exists j m, pyidx (a_k A) t = Some j /\ j < a_k A /\ assign_shape (a_d A) (a_n A) src = Ok m /\ A' = setslice A j m.
  Proof.
    unfold setsl. destruct (pyidx (a_k A) t) eqn:E; [|discriminate]. intro H. invok.
    exists n, a. repeat split; auto. now apply pyidx_some in E.
  Qed.
  Lemma setsl_nat_ok A i src A' : wf3 A -> setsl A (Z.of_nat i) src = Ok A' ->
    i < a_k A /\ wf3 A' /\ a_d A' = a_d A /\ a_n A' = a_n A /\ a_k A' = a_k A /\
    assign_shape (a_d A) (a_n A) src = Ok (slice A' i) /\
    forall t, t <> i -> slice A' t = slice A t.
  Proof.
    intros HA H. apply setsl_ok in H. destruct H as (j & m & Hj & Hjk & Hm & ->).
    destruct (Nat.lt_ge_cases i (a_k A)) as [Hi|Hi]; [|rewrite pyidx_nat_none in Hj by auto; discriminate].
    rewrite pyidx_nat in Hj by auto. inversion Hj; subst j; clear Hj.
    destruct (assign_shape_ok _ _ _ _ Hm) as (W & R & C & _).
    rewrite slice_set_same by auto. repeat split; auto.
    - simpl. rewrite upd_length. apply HA.
    - apply (wf3_set A i m); auto.
    - apply (wf3_set A i m); auto.
    - apply (wf3_set A i m); auto.
    - intros. apply slice_set_other; auto.
  Qed.
  Lemma setsl_nat A i src : i < a_k A -> wf src -> mr src = a_d A -> mc src = a_n A ->
    setsl A (Z.of_nat i) src = Ok (setslice A i src).
  Proof. intros. unfold setsl. rewrite pyidx_nat by auto. now rewrite assign_shape_wf. Qed.

  (** the slice after A[d, :, t] = v *)
  Definition rowset (m : mat) (d : nat) (v : T) : mat :=
    mk (mr m) (mc m) (fun a b => if a =? d then v else get m a b).
  Lemma setrow3_ok A d t v A' : wf3 A -> setrow3 A (Z.of_nat d) t v = Ok A' ->
    exists j, pyidx (a_k A) t = Some j /\ j < a_k A /\ d < a_d A /\ wf3 A' /\
      A' = setslice A j (rowset (slice A j) d v).
  Proof.
    intros HA. unfold setrow3. destruct (pyidx (a_d A) (Z.of_nat d)) as [d'|] eqn:Ed; [|discriminate].
    destruct (pyidx (a_k A) t) as [j|] eqn:Ej; [|discriminate].
    intro H; inversion H; subst; clear H.
    destruct (Nat.lt_ge_cases d (a_d A)) as [Hd|Hd]; [|rewrite pyidx_nat_none in Ed by auto; discriminate].
    rewrite pyidx_nat in Ed by auto. inversion Ed; subst d'; clear Ed.
    exists j. assert (j < a_k A) by now apply pyidx_some in Ej.
    assert (Arr3 (a_d A) (a_n A) (a_k A) (upd (a_s A) j (mk (a_d A) (a_n A) (fun a b => if a =? d then v else get (slice A j) a b)))
            = setslice A j (rowset (slice A j) d v)) as ->.
    { unfold setslice, rowset. destruct HA as [_ HA]. destruct (HA j H) as (_ & -> & ->). reflexivity. }
    repeat split; auto.
    - simpl. rewrite upd_length. apply HA.
    - destruct (wf3_set A j (rowset (slice A j) d v) HA H (wf_mk _ _ _)) as [_ Hw]; simpl; try (apply HA; auto). apply Hw; auto.
    - destruct (wf3_set A j (rowset (slice A j) d v) HA H (wf_mk _ _ _)) as [_ Hw]; simpl; try (apply HA; auto). apply Hw; auto.
    - destruct (wf3_set A j (rowset (slice A j) d v) HA H (wf_mk _ _ _)) as [_ Hw]; simpl; try (apply HA; auto). apply Hw; auto.
  Qed.
End ArrLemmas.
