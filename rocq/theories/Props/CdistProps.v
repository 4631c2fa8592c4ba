(** C38: my_cdist. *)
From Coq Require Import String List ZArith Lia Bool Reals Lra Permutation.
From Verif Require Import Base.Num Base.Py Base.Arr Lib.ArrLemmas Model.Cdist Spec.RealSpec Lib.RSum.
Import ListNotations.

Local Open Scope nat_scope.
Lemma pair_dec (p q : nat * nat) : {p = q} + {p <> q}.
Proof. decide equality; apply Nat.eq_dec. Qed.
Section Gen.
  Context {T : Type} {O : NumOps T}.

  Lemma write_shape (val : nat -> nat -> T) l : forall out, mr (fold_left (write val) l out) = mr out /\ mc (fold_left (write val) l out) = mc out.
  Proof. induction l as [|ij l IH]; intro out; cbn; [auto|]. destruct (IH (write val out ij)) as (-> & ->). auto. Qed.
  Lemma write_in (val : nat -> nat -> T) l : forall out a b, a < mr out -> b < mc out -> In (a, b) l -> get (fold_left (write val) l out) a b = val a b.
  Proof.
    induction l as [|ij l IH]; intros out a b Ha Hb Hin; [destruct Hin|]. cbn.
    destruct (in_dec pair_dec (a, b) l) as [Hl|Hl].
    - apply IH; auto.
    - destruct Hin as [->|Hin]; [|contradiction].
      assert (N : forall out, a < mr out -> b < mc out -> get (fold_left (write val) l out) a b = get out a b).
      { clear - Hl. induction l as [|ij l IH]; intros out Ha Hb; cbn; [auto|].
        rewrite IH; [| |exact Ha|exact Hb]. 2:{ intro. apply Hl. now right. }
        unfold write. rewrite get_mk by auto. destruct ij as (i, j). cbn. destruct (Nat.eqb_spec a i), (Nat.eqb_spec b j); cbn; auto.
        exfalso. apply Hl. left. congruence. }
      rewrite N by auto. unfold write. rewrite get_mk by auto. cbn. now rewrite !Nat.eqb_refl.
  Qed.
  Lemma write_out (val : nat -> nat -> T) l : forall out a b, a < mr out -> b < mc out -> ~ In (a, b) l -> get (fold_left (write val) l out) a b = get out a b.
  Proof.
    induction l as [|ij l IH]; intros out a b Ha Hb Hl; cbn; [auto|].
    rewrite IH; [| exact Ha|exact Hb|intro; apply Hl; now right].
    unfold write. rewrite get_mk by auto. destruct ij as (i, j). cbn. destruct (Nat.eqb_spec a i), (Nat.eqb_spec b j); cbn; auto.
    exfalso. apply Hl. left. congruence.
  Qed.
  Lemma in_pairs n m i j : In (i, j) (pairs n m) <-> i < n /\ j < m.
  Proof.
    unfold pairs. rewrite in_flat_map. split.
    - intros (a & Ha & H). apply in_map_iff in H. destruct H as (b & Q & Hb). apply in_seq in Ha, Hb. injection Q as <- <-. lia.
    - intros (H1 & H2). exists i. split; [apply in_seq; lia|]. apply in_map_iff. exists j. split; [auto|apply in_seq; lia].
  Qed.

  (** every execution order of the iterations: any list that contains exactly the pairs of the two ranges *)
  Definition schedule (order : nat -> nat -> list (nat * nat)) : Prop := forall n m, Permutation (order n m) (pairs n m).

  (** C38: whatever the order, every cell (i,j) of the output receives the distance of row i of r and row j of y, the
      other cells of a larger output keep their value, and the shape is unchanged.
      'l1' computes the same numbers as 'euclidean'; an unknown name changes nothing. *)
  Theorem C38_cdist order r y out : schedule order -> mc r <= mc y -> mr r <= mr out -> mr y <= mc out ->
    let sq i j := nsum (map (fun k => nsq (nsub (get r i k) (get y j k))) (seq 0 (mc r))) in
    (forall name, name = "euclidean"%string \/ name = "l1"%string ->
       exists D, my_cdist_sched order r y out name = Ok D /\ mr D = mr out /\ mc D = mc out /\
         (forall i j, i < mr r -> j < mr y -> get D i j = nsqrt (sq i j)) /\
         (forall i j, i < mr out -> j < mc out -> mr r <= i \/ mr y <= j -> get D i j = get out i j)) /\
    (exists D, my_cdist_sched order r y out "sqeuclidean" = Ok D /\ mr D = mr out /\ mc D = mc out /\
         (forall i j, i < mr r -> j < mr y -> get D i j = sq i j) /\
         (forall i j, i < mr out -> j < mc out -> mr r <= i \/ mr y <= j -> get D i j = get out i j)) /\
    (forall name, name <> "euclidean"%string -> name <> "sqeuclidean"%string -> name <> "l1"%string ->
       my_cdist_sched order r y out name = Ok out).
  Proof.
    intros HS H1 H2 H3 sq.
    assert (HI : forall i j, In (i, j) (order (mr r) (mr y)) <-> i < mr r /\ j < mr y).
    { intros i j. rewrite <- in_pairs. split; apply Permutation_in; [|apply Permutation_sym]; apply HS. }
    assert (HG : (mc r <=? mc y) && (mr r <=? mr out) && (mr y <=? mc out) = true).
    { rewrite !andb_true_iff. repeat split; now apply Nat.leb_le. }
    assert (G : forall val : nat -> nat -> T, let D := fold_left (write val) (order (mr r) (mr y)) out in mr D = mr out /\ mc D = mc out /\
         (forall i j, i < mr r -> j < mr y -> get D i j = val i j) /\
         (forall i j, i < mr out -> j < mc out -> mr r <= i \/ mr y <= j -> get D i j = get out i j)).
    { intros val D. split; [apply write_shape|]. split; [apply write_shape|]. split.
      - intros. apply write_in; try lia. now apply HI.
      - intros. apply write_out; auto. rewrite HI. lia. }
    split; [|split].
    - intros name Hn. destruct (G (fun i j => nsqrt (sqdist r y i j))) as (G1 & G2 & G3 & G4). eexists. split.
      { unfold my_cdist_sched. cbv zeta. rewrite HG. destruct Hn as [->| ->]; cbn; reflexivity. } auto.
    - destruct (G (fun i j => sqdist r y i j)) as (G1 & G2 & G3 & G4). eexists. split.
      { unfold my_cdist_sched. cbv zeta. rewrite HG. cbn. reflexivity. } auto.
    - intros name N1 N2 N3. unfold my_cdist_sched. apply String.eqb_neq in N1, N2, N3. now rewrite N1, N2, N3.
  Qed.
  (** two orders give the same array *)
  Theorem C38_schedule_independent o1 o2 r y out name : schedule o1 -> schedule o2 -> wf out ->
    my_cdist_sched o1 r y out name = my_cdist_sched o2 r y out name.
  Proof.
    intros H1 H2 W. unfold my_cdist_sched. cbv zeta.
    assert (G : forall val : nat -> nat -> T, (if (mc r <=? mc y) && (mr r <=? mr out) && (mr y <=? mc out) then Ok (fold_left (write val) (o1 (mr r) (mr y)) out) else Err OutOfBounds)
       = (if (mc r <=? mc y) && (mr r <=? mr out) && (mr y <=? mc out) then Ok (fold_left (write val) (o2 (mr r) (mr y)) out) else Err OutOfBounds)).
    { intro val. destruct (_ && _); [|reflexivity]. f_equal.
      assert (WF : forall l o, wf o -> wf (fold_left (write val) l o)). { induction l; cbn; auto. intros o Ho. apply IHl. apply wf_mk. }
      apply wf_eq; auto; try (destruct (write_shape val (o1 (mr r) (mr y)) out) as (A1 & A2), (write_shape val (o2 (mr r) (mr y)) out) as (B1 & B2); congruence).
      intros i j Hi Hj. destruct (write_shape val (o1 (mr r) (mr y)) out) as (A1 & A2). rewrite A1 in Hi. rewrite A2 in Hj.
      destruct (in_dec pair_dec (i, j) (pairs (mr r) (mr y))) as [Hl|Hl].
      - rewrite !write_in; auto.
        + exact (Permutation_in _ (Permutation_sym (H2 _ _)) Hl).
        + exact (Permutation_in _ (Permutation_sym (H1 _ _)) Hl).
      - rewrite !write_out; auto; intro Q; apply Hl.
        + exact (Permutation_in _ (H2 _ _) Q).
        + exact (Permutation_in _ (H1 _ _) Q). }
    rewrite (G (fun i j => nsqrt (sqdist r y i j))), (G (fun i j => sqdist r y i j)). reflexivity.
  Qed.
  Lemma my_cdist_sq r y : mc r <= mc y -> my_cdist r y (mzeros (mr r) (mr y)) "sqeuclidean" = Ok (mk (mr r) (mr y) (sqdist r y)).
  Proof.
    intro H. unfold my_cdist, my_cdist_sched. cbv zeta. change (String.eqb "sqeuclidean" "euclidean") with false. change (String.eqb "sqeuclidean" "sqeuclidean") with true. cbv iota.
    change (mr (mzeros (mr r) (mr y))) with (mr r). change (mc (mzeros (mr r) (mr y))) with (mr y). apply Nat.leb_le in H. rewrite H, !Nat.leb_refl. cbn [andb]. f_equal. change (fun i j => sqdist r y i j) with (sqdist r y).
    destruct (write_shape (sqdist r y) (pairs (mr r) (mr y)) (mzeros (mr r) (mr y))) as (A1 & A2).
    apply wf_eq; auto; try apply wf_mk.
    - assert (WF : forall l o, wf o -> wf (fold_left (write (sqdist r y)) l o)). { induction l; cbn; auto. intros o Ho. apply IHl. apply wf_mk. }
      apply WF. apply wf_mk.
    - intros i j Hi Hj. rewrite A1 in Hi. rewrite A2 in Hj. cbn in Hi, Hj. rewrite get_mk by auto. apply write_in; auto. now apply in_pairs.
  Qed.
End Gen.

Local Open Scope R_scope.
Lemma sqdist_R (r y : mat R) i j : sqdist r y i j = sumn (mc r) (fun k => (get r i k - get y j k) ^ 2).
Proof. unfold sqdist. rewrite nsum_seq. apply sumn_ext. intros. unfold nsq. cbn. ring. Qed.

(** over the reals: the Euclidean distance, and 'l1' is not the L1 distance *)
Theorem C38_euclidean order (r y out : mat R) : schedule order -> (mc r <= mc y)%nat -> (mr r <= mr out)%nat -> (mr y <= mc out)%nat ->
  exists D, my_cdist_sched order r y out "l1" = Ok D /\
    forall i j, (i < mr r)%nat -> (j < mr y)%nat -> get D i j = sqrt (sumn (mc r) (fun k => (get r i k - get y j k) ^ 2)).
Proof.
  intros HS H1 H2 H3. destruct (C38_cdist order r y out HS H1 H2 H3) as (H & _). destruct (H "l1"%string (or_intror eq_refl)) as (D & D1 & _ & _ & D2 & _).
  exists D. split; [auto|]. intros i j Hi Hj. rewrite D2 by auto. fold (sqdist r y i j). now rewrite sqdist_R.
Qed.
(** the points 0 and (1,1) of the plane have L1 distance 2 *)
Theorem C38_l1_is_not_l1 : exists (r y D : mat R), my_cdist r y (mzeros (mr r) (mr y)) "l1" = Ok D /\
  get D 0 0 <> sumn (mc r) (fun k => Rabs (get r 0 k - get y 0 k)).
Proof.
  set (r := mk 1 2 (fun _ _ => 0)). set (y := mk 1 2 (fun _ _ => 1)).
  destruct (C38_euclidean pairs r y (mzeros 1 1)) as (D & D1 & D2); try (cbn; lia). { intros n m. apply Permutation_refl. }
  exists r, y, D. split; [exact D1|]. rewrite D2 by (cbn; lia). cbn. intro H.
  replace (0 - 1) with (-1) in H by ring. rewrite Rabs_left in H by lra.
  assert (Q : sqrt (0 + -1 * (-1 * 1) + -1 * (-1 * 1)) * sqrt (0 + -1 * (-1 * 1) + -1 * (-1 * 1)) = 4). { rewrite H. ring. }
  rewrite sqrt_sqrt in Q by lra. lra.
Qed.
(** a 2 x 1 and a 3 x 1 argument, iterations in reverse order *)
Example C38_reverse_order : schedule (fun n m => rev (pairs n m)).
Proof. intros n m. apply Permutation_sym, Permutation_rev. Qed.
