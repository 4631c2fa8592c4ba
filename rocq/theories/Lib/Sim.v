(** Two runs side by side: same exceptions, same generator states, related results (no modelling content). *)
From Coq Require Import String List ZArith Reals Lra Lia Bool.
From Verif Require Import Base.Num Base.Py Base.Arr Lib.ArrLemmas Model.Ext Spec.FlowSpec Spec.AffineSpec.
Import ListNotations.
Local Open Scope R_scope.

Lemma so_bind {A A' B B'} (P : A -> A' -> Prop) (Q : B -> B' -> Prop) r r' k k' :
  same_outcome P r r' -> (forall a a', P a a' -> same_outcome Q (k a) (k' a')) -> same_outcome Q (rbind r k) (rbind r' k').
Proof. intros H1 H2. destruct r, r'; cbn in *; try contradiction; auto. Qed.
Lemma so_rmap {A A' B B'} (P : A -> A' -> Prop) (Q : B -> B' -> Prop) r r' f f' :
  same_outcome P r r' -> (forall a a', P a a' -> Q (f a) (f' a')) -> same_outcome Q (rmap f r) (rmap f' r').
Proof. intros H1 H2. destruct r, r'; cbn in *; try contradiction; auto. Qed.
Lemma so_weaken {A A'} (P Q : A -> A' -> Prop) r r' : same_outcome P r r' -> (forall a a', P a a' -> Q a a') -> same_outcome Q r r'.
Proof. intros H1 H2. destruct r, r'; cbn in *; try contradiction; auto. Qed.
Lemma so_eq {A} (r r' : res A) : r = r' -> same_outcome eq r r'.
Proof. intros <-. destruct r; cbn; auto. Qed.
Lemma so_eq_inv {A} (r r' : res A) : same_outcome eq r r' -> r' = r.
Proof. destruct r, r'; cbn; try contradiction; congruence. Qed.
Lemma so_rmapM {A A' B B'} (P : A -> A' -> Prop) (Q : B -> B' -> Prop) f f' l l' :
  Forall2 P l l' -> (forall a a', In a l -> P a a' -> same_outcome Q (f a) (f' a')) -> same_outcome (Forall2 Q) (rmapM f l) (rmapM f' l').
Proof.
  intros H. induction H as [|a a' l l' Ha Hl IH]; intro K; cbn [rmapM]. { cbn. constructor. }
  eapply so_bind; [apply K; [now left|auto]|]. intros b b' Hb. eapply so_bind; [apply IH; intros; apply K; auto; now right|].
  intros. cbn. constructor; auto.
Qed.
Lemma so_rfold {A A' B B'} (P : A -> A' -> Prop) (Q : B -> B' -> Prop) f f' l l' b b' :
  Forall2 P l l' -> Q b b' -> (forall b b' a a', In a l -> P a a' -> Q b b' -> same_outcome Q (f b a) (f' b' a')) ->
  same_outcome Q (rfold f l b) (rfold f' l' b').
Proof.
  intros H. revert b b'. induction H as [|a a' l l' Ha Hl IH]; intros b b' Hb K; cbn [rfold]. { exact Hb. }
  eapply so_bind; [apply K; auto; now left|]. intros. apply IH; auto. intros. apply K; auto. now right.
Qed.
(** counted loops, with the loop counter in the invariant *)
Lemma so_rfold_seq {B B'} (Q : nat -> B -> B' -> Prop) f f' n b b' :
  Q 0%nat b b' -> (forall i b b', (i < n)%nat -> Q i b b' -> same_outcome (Q (Datatypes.S i)) (f b i) (f' b' i)) ->
  same_outcome (Q n) (rfold f (seq 0 n) b) (rfold f' (seq 0 n) b').
Proof.
  intros H0 K. assert (G : forall m, (m <= n)%nat -> same_outcome (Q m) (rfold f (seq 0 m) b) (rfold f' (seq 0 m) b')).
  { induction m; intro Hm; [exact H0|]. rewrite seq_S, !rfold_app. cbn [Nat.add]. eapply so_bind; [apply IHm; lia|].
    intros a a' Ha. cbn [rfold]. eapply so_bind; [apply K; [lia|exact Ha]|]. intros. cbn. auto. }
  now apply G.
Qed.
Lemma Forall2_refl {A} (P : A -> A -> Prop) l : (forall a, In a l -> P a a) -> Forall2 P l l.
Proof. induction l; intro H; constructor; [apply H; now left|]. apply IHl. intros. apply H. now right. Qed.
Lemma Forall2_seq {A A'} (P : A -> A' -> Prop) f f' n : (forall i, (i < n)%nat -> P (f i) (f' i)) -> Forall2 P (map f (seq 0 n)) (map f' (seq 0 n)).
Proof.
  intro H. assert (G : forall k m, (k + m <= n)%nat -> Forall2 P (map f (seq k m)) (map f' (seq k m))).
  { intros k m. revert k. induction m; intros k Hk; cbn; constructor; [apply H; lia|]. apply IHm. lia. }
  apply G. lia.
Qed.
Lemma Forall2_length {A A'} (P : A -> A' -> Prop) l l' : Forall2 P l l' -> List.length l = List.length l'.
Proof. induction 1; cbn; congruence. Qed.
Lemma Forall2_nth' {A A'} (P : A -> A' -> Prop) l l' d d' i : Forall2 P l l' -> (i < List.length l)%nat -> P (nth i l d) (nth i l' d').
Proof. intro H. revert i. induction H; intros i Hi; cbn in *; [lia|]. destruct i; [auto|]. apply IHForall2. lia. Qed.
Lemma Forall2_intro {A A'} (P : A -> A' -> Prop) l l' d d' : List.length l = List.length l' ->
  (forall i, (i < List.length l)%nat -> P (nth i l d) (nth i l' d')) -> Forall2 P l l'.
Proof.
  intros HL H. rewrite <- (map_nth_seq l d), <- (map_nth_seq l' d'), <- HL. now apply Forall2_seq.
Qed.
Lemma so_pyget {A A'} (P : A -> A' -> Prop) l l' i : Forall2 P l l' -> same_outcome P (pyget l i) (pyget l' i).
Proof.
  intro H. unfold pyget. rewrite <- (Forall2_length P l l' H). destruct (pyidx (List.length l) i) as [j|] eqn:J; [|reflexivity].
  apply pyidx_some in J. destruct J as (J & _).
  destruct l as [|a l0]; [cbn in J; lia|]. destruct l' as [|a' l0']; [inversion H|].
  rewrite (nth_error_nth' (a :: l0) a J), (nth_error_nth' (a' :: l0') a') by (change (a' :: l0') with (a' :: l0'); rewrite <- (Forall2_length P _ _ H); exact J).
  cbn [same_outcome]. now apply Forall2_nth'.
Qed.

Section M.
  Context {S : Type}.
  Definition sim {A B} (P : A -> B -> Prop) (m : M S A) (m' : M S B) : Prop :=
    forall s, same_outcome P (fst (m s)) (fst (m' s)) /\ snd (m' s) = snd (m s).
  Lemma sim_ret {A B} (P : A -> B -> Prop) a b : P a b -> sim P (ret a) (ret b).
  Proof. intros H s. cbn. auto. Qed.
  Lemma sim_lift {A B} (P : A -> B -> Prop) r r' : same_outcome P r r' -> sim P (lift r) (lift r').
  Proof. intros H s. cbn. auto. Qed.
  Lemma sim_bind {A B C D} (P : A -> B -> Prop) (Q : C -> D -> Prop) m m' k k' :
    sim P m m' -> (forall a b, P a b -> sim Q (k a) (k' b)) -> sim Q (bind m k) (bind m' k').
  Proof.
    intros H1 H2 s. unfold bind. destruct (H1 s) as (H3 & H4). destruct (m s) as [r1 s1], (m' s) as [r2 s2]. cbn [fst snd] in *. subst s2.
    destruct r1, r2; cbn [same_outcome] in H3; try contradiction; [now apply H2|]. cbn. auto.
  Qed.
  Lemma sim_weaken {A B} (P Q : A -> B -> Prop) m m' : sim P m m' -> (forall a b, P a b -> Q a b) -> sim Q m m'.
  Proof. intros H K s. destruct (H s). split; auto. eapply so_weaken; eauto. Qed.
  Lemma sim_mmap {A A' B B'} (P : A -> A' -> Prop) (Q : B -> B' -> Prop) f f' l l' :
    Forall2 P l l' -> (forall a a', In a l -> P a a' -> sim Q (f a) (f' a')) -> sim (Forall2 Q) (mmap f l) (mmap f' l').
  Proof.
    intro H. induction H as [|a a' l l' Ha Hl IH]; intro K; cbn [mmap]. { apply sim_ret. constructor. }
    eapply sim_bind; [apply K; [now left|auto]|]. intros b b' Hb. eapply sim_bind; [apply IH; intros; apply K; auto; now right|].
    intros. apply sim_ret. constructor; auto.
  Qed.
  (** a loop over the same number of elements, with the loop counter in the invariant *)
  Lemma sim_mfold {A A' B B'} (Q : nat -> B -> B' -> Prop) (f : B -> A -> M S B) (f' : B' -> A' -> M S B') g g' n b b' :
    Q 0%nat b b' -> (forall i b b', (i < n)%nat -> Q i b b' -> sim (Q (Datatypes.S i)) (f b (g i)) (f' b' (g' i))) ->
    sim (Q n) (mfold f (map g (seq 0 n)) b) (mfold f' (map g' (seq 0 n)) b').
  Proof.
    intros H0 K. assert (G : forall k m b b', (k + m <= n)%nat -> Q k b b' -> sim (Q (k + m)%nat) (mfold f (map g (seq k m)) b) (mfold f' (map g' (seq k m)) b')).
    { intros k m. revert k. induction m; intros k c c' Hk HQ; cbn [seq map mfold].
      - rewrite Nat.add_0_r. now apply sim_ret.
      - eapply sim_bind; [apply K; [lia|exact HQ]|]. intros d d' Hd. replace (k + Datatypes.S m)%nat with (Datatypes.S k + m)%nat by lia.
        apply IHm; [lia|exact Hd]. }
    apply (G 0%nat n); [lia|auto].
  Qed.
End M.
