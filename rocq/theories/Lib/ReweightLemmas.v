(** Transport plans between a weighted and a uniform histogram (no modelling content). *)
From Coq Require Import String List ZArith Lia Bool Reals Lra.
From Verif Require Import Base.Num Base.Py Base.Arr Lib.ArrLemmas Model.Ext Spec.RealSpec Spec.Contracts Spec.ReweightSpec Spec.FlowSpec.
From Verif Require Import Lib.RBase Lib.RSum.
Import ListNotations.
Local Open Scope R_scope.

(** *** softmax *)
Lemma softmax_den N e : (1 <= N)%nat -> 0 < sumn N (fun j => exp (e j)).
Proof. intro H. apply sumn_gt0; [lia|]. intros. apply exp_pos. Qed.
Lemma softmax_pos N e i : (1 <= N)%nat -> 0 < softmax N e i.
Proof. intro H. unfold softmax. apply Rdiv_lt_0_compat; [apply exp_pos|now apply softmax_den]. Qed.
Lemma softmax_sum N e : (1 <= N)%nat -> sumn N (softmax N e) = 1.
Proof.
  intro H. unfold softmax. rewrite sumn_div. pose proof (softmax_den N e H). field. lra.
Qed.
Lemma softmax_shift N e c i : (1 <= N)%nat -> softmax N (fun j => e j + c) i = softmax N e i.
Proof.
  intro H. unfold softmax. rewrite exp_plus.
  rewrite (sumn_ext N _ (fun j => exp (e j) * exp c)) by (intros; apply exp_plus). rewrite sumn_scal_r.
  pose proof (softmax_den N e H). pose proof (exp_pos c). field. split; lra.
Qed.
Lemma softmax_const N e c i : (1 <= N)%nat -> (forall j, (j < N)%nat -> e j = c) -> (i < N)%nat -> softmax N e i = / INR N.
Proof.
  intros H He Hi. unfold softmax. rewrite (sumn_ext N _ (fun _ => exp c)) by (intros; now rewrite He). rewrite sumn_const, He by auto.
  pose proof (exp_pos c). assert (INR N <> 0) by (apply not_0_INR; lia). field. split; lra.
Qed.
Lemma softmax_lt N e i j : (1 <= N)%nat -> e i < e j <-> softmax N e i < softmax N e j.
Proof.
  intro H. unfold softmax, Rdiv. pose proof (Rinv_0_lt_compat _ (softmax_den N e H)) as Hi. split; intro L.
  - apply Rmult_lt_compat_r; [auto|]. now apply exp_increasing.
  - apply Rmult_lt_reg_r in L; [|auto]. now apply exp_lt_inv.
Qed.
Lemma softmax_ext N e e' i : (forall j, (j < N)%nat -> e j = e' j) -> (i < N)%nat -> softmax N e i = softmax N e' i.
Proof. intros H Hi. unfold softmax. rewrite H by auto. rewrite (sumn_ext N _ (fun j => exp (e' j))) by (intros; now rewrite H). reflexivity. Qed.

(** *** plans *)
Lemma plan_ext n a a' b b' P : (forall i, (i < n)%nat -> a i = a' i) -> (forall i, (i < n)%nat -> b i = b' i) -> plan n a b P -> plan n a' b' P.
Proof. intros Ha Hb (H1 & H2 & H3). split; [auto|]. split; intros; [rewrite H2|rewrite H3]; auto. Qed.
Lemma plan_cost_ext n c c' P : (forall i j, (i < n)%nat -> (j < n)%nat -> c i j = c' i j) -> plan_cost n c P = plan_cost n c' P.
Proof. intro H. unfold plan_cost. apply sumn_ext. intros. apply sumn_ext. intros. now rewrite H. Qed.
Lemma optimal_ext n a a' b b' c c' P : (forall i, (i < n)%nat -> a i = a' i) -> (forall i, (i < n)%nat -> b i = b' i) ->
  (forall i j, (i < n)%nat -> (j < n)%nat -> c i j = c' i j) -> optimal n a b c P -> optimal n a' b' c' P.
Proof.
  intros Ha Hb Hc (H1 & H2). split. { now apply (plan_ext n a a' b b'). }
  intros Q HQ. rewrite <- !(plan_cost_ext n c c') by auto. apply H2. apply (plan_ext n a' a b' b); auto; intros; symmetry; auto.
Qed.

(** particles moved by N times a plan *)
Definition moved (y x' : mat R) (P : nat -> nat -> R) : Prop :=
  forall d n, (d < mr y)%nat -> (n < mc y)%nat -> get x' d n = sumn (mc y) (fun m => get y d m * (P m n * INR (mc y))).

Lemma moved_convex y x' a P : (1 <= mc y)%nat -> plan (mc y) a (fun _ => / INR (mc y)) P -> moved y x' P ->
  forall n, (n < mc y)%nat -> convex_combination y (fun d => get x' d n).
Proof.
  intros HN (H1 & H2 & H3) Hm n Hn. assert (0 < INR (mc y)) by (apply lt_0_INR; lia).
  exists (fun m => P m n * INR (mc y)). split. { intros. apply Rmult_le_pos; [auto|lra]. } split.
  - rewrite sumn_scal_r, H3 by auto. field. lra.
  - intros d Hd. rewrite Hm by auto. apply sumn_ext. intros. ring.
Qed.
Lemma moved_average y x' a P : (1 <= mc y)%nat -> mc x' = mc y -> plan (mc y) a (fun _ => / INR (mc y)) P -> moved y x' P ->
  forall d, (d < mr y)%nat -> average x' d = sumn (mc y) (fun m => a m * get y d m).
Proof.
  intros HN Hx (H1 & H2 & H3) Hm d Hd. assert (INR (mc y) <> 0) by (apply not_0_INR; lia).
  unfold average, mean. rewrite Hx.
  rewrite (sumn_ext _ _ (fun n => sumn (mc y) (fun m => get y d m * (P m n * INR (mc y))))) by (intros; now apply Hm).
  rewrite sumn_swap. rewrite (sumn_ext _ _ (fun m => (a m * get y d m) * INR (mc y))).
  - rewrite sumn_scal_r. field. auto.
  - intros m Hmm. rewrite sumn_scal. rewrite sumn_scal_r, H2 by auto. ring.
Qed.

(** convex combinations stay in the bounding box *)
Lemma convex_lower y pt d : (1 <= mc y)%nat -> (d < mr y)%nat -> convex_combination y pt -> exists n, (n < mc y)%nat /\ get y d n <= pt d.
Proof.
  intros HN Hd (c & Hc & Hs & Hp).
  destruct (Rle_dec (get y d 0) (pt d)) as [|Hno]; [exists O; split; auto; lia|].
  assert (D : forall k, (k <= mc y)%nat -> (exists n, (n < k)%nat /\ get y d n <= pt d) \/ (forall n, (n < k)%nat -> pt d < get y d n)).
  { induction k; intro Hk. { right. intros; lia. }
    destruct (IHk ltac:(lia)) as [(n & ? & ?)|IH]; [left; exists n; split; auto; lia|].
    destruct (Rle_dec (get y d k) (pt d)). { left. exists k. split; [lia|auto]. }
    right. intros q Hq. destruct (Nat.eq_dec q k) as [->|]; [lra|apply IH; lia]. }
  destruct (D (mc y) (le_n _)) as [|Hall]; [auto|exfalso].
  assert (exists m, (m < mc y)%nat /\ 0 < c m) as (m & Hm & Hcm).
  { assert (F : forall k, (k <= mc y)%nat -> (exists m, (m < k)%nat /\ 0 < c m) \/ sumn k c = 0).
    { induction k; intro Hk; [now right|]. destruct (IHk ltac:(lia)) as [(m & ? & ?)|IH]; [left; exists m; split; auto; lia|].
      destruct (Rle_lt_or_eq_dec 0 (c k) (Hc k ltac:(lia))). { left. exists k. split; [lia|auto]. }
      right. cbn. lra. }
    destruct (F (mc y) (le_n _)) as [|H0]; [auto|lra]. }
  assert (Hlt : 0 < sumn (mc y) (fun m => c m * (get y d m - pt d))).
  { assert (T1 : c m * (get y d m - pt d) <= sumn (mc y) (fun m => c m * (get y d m - pt d))).
    { apply (sumn_term _ (fun m => c m * (get y d m - pt d))); [|auto]. intros i Hi. apply Rmult_le_pos; [auto|]. specialize (Hall i Hi). lra. }
    assert (0 < c m * (get y d m - pt d)). { apply Rmult_lt_0_compat; [auto|]. specialize (Hall m Hm). lra. } lra. }
  rewrite (sumn_ext _ _ (fun m => c m * get y d m - c m * pt d)) in Hlt by (intros; ring).
  rewrite sumn_minus, sumn_scal_r, Hs in Hlt. rewrite (Hp d Hd) in Hlt. lra.
Qed.
Lemma convex_neg y pt : convex_combination y pt -> convex_combination (mmap1 Ropp y) (fun d => - pt d).
Proof.
  intros (c & Hc & Hs & Hp). exists c. cbn [mmap1 mk mr mc]. split; [auto|]. split; [auto|]. intros d Hd. rewrite Hp by auto.
  rewrite <- sumn_opp. apply sumn_ext. intros m Hm. fold (mmap1 Ropp y). rewrite get_mmap1 by auto. ring.
Qed.
Lemma convex_upper y pt d : (1 <= mc y)%nat -> (d < mr y)%nat -> convex_combination y pt -> exists n, (n < mc y)%nat /\ pt d <= get y d n.
Proof.
  intros HN Hd H. apply convex_neg in H. destruct (convex_lower (mmap1 Ropp y) _ d HN Hd H) as (n & Hn & L).
  cbn [mmap1 mk mc] in Hn. exists n. split; [auto|]. rewrite get_mmap1 in L by auto. lra.
Qed.

(** *** equal weights: the optimal plan moves no particle *)
Lemma distance_0 y i j : distance y i j = 0 -> forall d, (d < mr y)%nat -> get y d i = get y d j.
Proof.
  intros H d Hd. unfold distance in H. apply sqrt_eq_0 in H; [|apply sumn_ge0; intros; apply pow2_ge_0].
  pose proof (sumn_0_inv _ _ (fun k _ => pow2_ge_0 (get y k i - get y k j)) H d Hd) as Q. cbn beta in Q.
  assert (get y d i - get y d j = 0); [|lra]. rewrite <- Rsqr_pow2 in Q. now apply Rsqr_0_uniq.
Qed.
Lemma optimal_identity n (c P : nat -> nat -> R) : (1 <= n)%nat ->
  (forall i j, (i < n)%nat -> (j < n)%nat -> 0 <= c i j) -> (forall i, (i < n)%nat -> c i i = 0) ->
  optimal n (fun _ => / INR n) (fun _ => / INR n) c P ->
  forall i j, (i < n)%nat -> (j < n)%nat -> c i j * P i j = 0.
Proof.
  intros Hn Hc Hd (HP & Hopt) i j Hi Hj. assert (0 < INR n) by (apply lt_0_INR; lia).
  set (Q := fun i j : nat => if (i =? j)%nat then / INR n else 0).
  assert (HQ : plan n (fun _ => / INR n) (fun _ => / INR n) Q).
  { split; [|split].
    - intros. unfold Q. destruct (_ =? _)%nat; [|lra]. apply Rlt_le, Rinv_0_lt_compat. auto.
    - intros a Ha. unfold Q. rewrite (sumn_ext _ _ (fun j => if (j =? a)%nat then / INR n else 0)) by (intros; now rewrite Nat.eqb_sym).
      now rewrite (sumn_delta n a (fun _ => / INR n)).
    - intros b Hb. unfold Q. now rewrite (sumn_delta n b (fun _ => / INR n)). }
  specialize (Hopt Q HQ).
  assert (C0 : plan_cost n c Q = 0).
  { unfold plan_cost. apply sumn_0. intros a Ha. apply sumn_0. intros b Hb. unfold Q. destruct (Nat.eqb_spec a b) as [->|]; [rewrite Hd by auto|]; ring. }
  rewrite C0 in Hopt. unfold plan_cost in Hopt. destruct HP as (HP & _).
  assert (Hnn : forall a, (a < n)%nat -> 0 <= sumn n (fun j => c a j * P a j)).
  { intros a Ha. apply sumn_ge0. intros b Hb. apply Rmult_le_pos; auto. }
  pose proof (sumn_ge0 n _ Hnn) as Hge.
  assert (H0 : sumn n (fun i => sumn n (fun j => c i j * P i j)) = 0) by lra.
  pose proof (sumn_0_inv _ _ Hnn H0 i Hi) as Hi0. cbn beta in Hi0.
  apply (sumn_0_inv n (fun j => c i j * P i j)); auto. intros b Hb. apply Rmult_le_pos; auto.
Qed.
Lemma moved_identity y x' P (c : nat -> nat -> R) : (1 <= mc y)%nat ->
  (forall i j, (i < mc y)%nat -> (j < mc y)%nat -> 0 <= c i j) -> (forall i, (i < mc y)%nat -> c i i = 0) ->
  (forall i j, (i < mc y)%nat -> (j < mc y)%nat -> c i j = 0 -> forall d, (d < mr y)%nat -> get y d i = get y d j) ->
  optimal (mc y) (fun _ => / INR (mc y)) (fun _ => / INR (mc y)) c P -> moved y x' P ->
  forall d n, (d < mr y)%nat -> (n < mc y)%nat -> get x' d n = get y d n.
Proof.
  intros HN Hc Hd H0 HP Hm d n Hdd Hn. pose proof (optimal_identity _ _ _ HN Hc Hd HP) as Z.
  rewrite Hm by auto. rewrite (sumn_ext _ _ (fun m => (get y d n * INR (mc y)) * P m n)).
  - rewrite sumn_scal. destruct HP as ((_ & _ & H3) & _). rewrite H3 by auto. field. apply not_0_INR. lia.
  - intros m Hmm. specialize (Z m n Hmm Hn). apply Rmult_integral in Z. destruct Z as [Z|Z].
    + rewrite (H0 m n Hmm Hn Z d Hdd). ring.
    + rewrite Z. ring.
Qed.

(** *** Chebyshev: weights increasing with a coordinate raise its average *)
Lemma chebyshev n (w v : nat -> R) :
  INR n * sumn n (fun i => w i * v i) - sumn n w * sumn n v = / 2 * sumn n (fun i => sumn n (fun j => (w i - w j) * (v i - v j))).
Proof.
  rewrite (sumn_ext n (fun i => sumn n (fun j => (w i - w j) * (v i - v j)))
     (fun i => (INR n * (w i * v i) + sumn n (fun j => w j * v j)) - (w i * sumn n v + sumn n w * v i))).
  - rewrite sumn_minus, !sumn_plus, sumn_const, sumn_scal, sumn_scal_r, sumn_scal. lra.
  - intros i _. rewrite (sumn_ext n _ (fun j => (w i * v i + w j * v j) - (w i * v j + w j * v i))) by (intros; ring).
    rewrite sumn_minus, !sumn_plus, sumn_const, sumn_scal, sumn_scal_r. ring.
Qed.
Lemma weighted_mean_ge n (w v : nat -> R) : (1 <= n)%nat -> sumn n w = 1 ->
  (forall i j, (i < n)%nat -> (j < n)%nat -> v i < v j -> w i < w j) -> mean n v <= sumn n (fun i => w i * v i).
Proof.
  intros Hn Hw Hm. assert (0 < INR n) by (apply lt_0_INR; lia). pose proof (chebyshev n w v) as C. rewrite Hw in C.
  assert (0 <= sumn n (fun i => sumn n (fun j => (w i - w j) * (v i - v j)))).
  { apply sumn_ge0. intros i Hi. apply sumn_ge0. intros j Hj. destruct (Rtotal_order (v i) (v j)) as [L|[->|L]]; [| |].
    - specialize (Hm i j Hi Hj L). replace ((w i - w j) * (v i - v j)) with ((w j - w i) * (v j - v i)) by ring. apply Rmult_le_pos; lra.
    - right. ring.
    - specialize (Hm j i Hj Hi L). apply Rmult_le_pos; lra. }
  unfold mean. apply (Rmult_le_reg_l (INR n)); [auto|]. replace (INR n * (sumn n v / INR n)) with (sumn n v) by (field; lra). lra.
Qed.
Lemma weighted_mean_gt n (w v : nat -> R) : (1 <= n)%nat -> sumn n w = 1 ->
  (forall i j, (i < n)%nat -> (j < n)%nat -> v i < v j -> w i < w j) ->
  (exists i j, (i < n)%nat /\ (j < n)%nat /\ v i <> v j) -> mean n v < sumn n (fun i => w i * v i).
Proof.
  intros Hn Hw Hm (i & j & Hi & Hj & Hne). assert (0 < INR n) by (apply lt_0_INR; lia). pose proof (chebyshev n w v) as C. rewrite Hw in C.
  assert (Hp : forall i j, (i < n)%nat -> (j < n)%nat -> 0 <= (w i - w j) * (v i - v j)).
  { intros a b Ha Hb. destruct (Rtotal_order (v a) (v b)) as [L|[->|L]]; [| |].
    - specialize (Hm a b Ha Hb L). replace ((w a - w b) * (v a - v b)) with ((w b - w a) * (v b - v a)) by ring. apply Rmult_le_pos; lra.
    - right. ring.
    - specialize (Hm b a Hb Ha L). apply Rmult_le_pos; lra. }
  assert (P : 0 < (w i - w j) * (v i - v j)).
  { destruct (Rtotal_order (v i) (v j)) as [L|[|L]]; [|contradiction|].
    - specialize (Hm i j Hi Hj L). replace ((w i - w j) * (v i - v j)) with ((w j - w i) * (v j - v i)) by ring. apply Rmult_lt_0_compat; lra.
    - specialize (Hm j i Hj Hi L). apply Rmult_lt_0_compat; lra. }
  assert ((w i - w j) * (v i - v j) <= sumn n (fun j => (w i - w j) * (v i - v j))) by
    (apply (sumn_term n (fun j => (w i - w j) * (v i - v j))); auto).
  assert (sumn n (fun j => (w i - w j) * (v i - v j)) <= sumn n (fun i => sumn n (fun j => (w i - w j) * (v i - v j)))).
  { apply (sumn_term n (fun i => sumn n (fun j => (w i - w j) * (v i - v j)))); auto. intros a Ha. apply sumn_ge0. auto. }
  unfold mean. apply (Rmult_lt_reg_l (INR n)); [auto|]. replace (INR n * (sumn n v / INR n)) with (sumn n v) by (field; lra). lra.
Qed.

(** *** the specification of one reweighting over the reals *)
Section Rw.
  Context {S : Type} (E : Ext R S).

  Lemma emd_spec_plans emd : emd_spec emd -> emd_plans emd.
  Proof. intros H n a b C Ha Hb Hr Hc H1 H2 H3 H4. apply (H n a b C); auto. Qed.

  Lemma weights_R N (e : nat -> R) : (1 <= N)%nat ->
    let ws := map (fun n => nexp (e n)) (seq 0 N) in
    map (fun v => ndiv v (nsum ws)) ws = map (softmax N e) (seq 0 N).
  Proof.
    intros HN. cbv zeta. rewrite nsum_seq, map_map. apply map_seq_ext. intros i Hi. reflexivity.
  Qed.
  Lemma hist_map N (f : nat -> R) i : (i < N)%nat -> hist (map f (seq 0 N)) i = f i.
  Proof. intro H. unfold hist. now rewrite nth_map_seq. Qed.
  Lemma hist_repeat N (v : R) i : (i < N)%nat -> hist (repeat v N) i = v.
  Proof. intro H. unfold hist. revert i H. induction N; intros i H; [lia|]. destruct i; cbn; [auto|apply IHN; lia]. Qed.

  Definition uniform_hist (N : nat) : list R := repeat (ndiv none1 (nofnat N)) N.
  Lemma uniform_at N i : (i < N)%nat -> hist (uniform_hist N) i = / INR N.
  Proof. intro H. unfold uniform_hist. rewrite hist_repeat by auto. rewrite nofnat_R. cbn. unfold Rdiv. ring. Qed.

  (** the hypotheses of the transport solver hold for every call the code makes *)
  Lemma call_pre N e : (1 <= N)%nat ->
    let a := map (softmax N e) (seq 0 N) in let b := uniform_hist N in
    length a = N /\ length b = N /\ (forall i, (i < N)%nat -> 0 <= hist a i) /\ (forall i, (i < N)%nat -> 0 <= hist b i) /\
    sumn N (hist a) = sumn N (hist b).
  Proof.
    intros HN. cbv zeta. assert (0 < INR N) by (apply lt_0_INR; lia).
    split. { now rewrite map_length, seq_length. } split. { unfold uniform_hist. apply repeat_length. }
    split. { intros i Hi. rewrite hist_map by auto. left. now apply softmax_pos. }
    split. { intros i Hi. rewrite uniform_at by auto. left. now apply Rinv_0_lt_compat. }
    rewrite (sumn_ext N (hist (map _ _)) (softmax N e)) by (intros; now apply hist_map). rewrite softmax_sum by auto.
    rewrite (sumn_ext N _ (fun _ => / INR N)) by (intros; now apply uniform_at). rewrite sumn_const. field. lra.
  Qed.

  Lemma cost_distance (y cost : mat R) : (forall i j, (i < mc y)%nat -> (j < mc y)%nat -> get cost i j =
         if (i =? j)%nat then nzero else
           let a := Nat.min i j in let b := Nat.max i j in
           nsqrt (nsum (map (fun d => nsq (nsub (get y d a) (get y d b))) (seq 0 (mr y))))) ->
    forall i j, (i < mc y)%nat -> (j < mc y)%nat -> get cost i j = distance y i j.
  Proof.
    intros H i j Hi Hj. rewrite H by auto. unfold distance. destruct (Nat.eqb_spec i j) as [->|Hne].
    - cbn. rewrite sumn_0 by (intros; ring). now rewrite sqrt_0.
    - cbv zeta. rewrite nsum_seq. cbn [nsqrt ROps]. f_equal. apply sumn_ext. intros d _. unfold nsq. cbn.
      destruct (Nat.le_ge_cases i j); [rewrite Nat.min_l, Nat.max_r by lia|rewrite Nat.min_r, Nat.max_l by lia]; ring.
  Qed.

  Lemma reweighted_plan e y x' : emd_plans (x_emd E) -> (1 <= mc y)%nat -> reweighted E e y x' ->
    exists P, plan (mc y) (softmax (mc y) e) (fun _ => / INR (mc y)) P /\ moved y x' P.
  Proof.
    intros HE HN (cost & flow & _ & Hr & Hc & Hcost & -> & Hx). cbv zeta in *. rewrite (weights_R _ _ HN) in Hx.
    pose proof (cost_distance _ _ Hcost) as Hd. destruct (call_pre (mc y) e HN) as (L1 & L2 & P1 & P2 & P3).
    eexists. split; [|].
    - eapply plan_ext; [| |apply (HE (mc y) _ _ cost L1 L2 Hr Hc P1 P2 P3)].
      + intros i Hi. now apply hist_map.
      + intros i Hi. now apply uniform_at.
      + intros i j Hi Hj. rewrite Hd by auto. apply sqrt_pos.
    - intros d n Hdd Hn. rewrite Hx by auto. rewrite nsum_seq. apply sumn_ext. intros m _. rewrite <- nofnat_R. reflexivity.
  Qed.
  Lemma reweighted_optimal e y x' : emd_contract E -> (1 <= mc y)%nat -> reweighted E e y x' ->
    exists P, optimal (mc y) (softmax (mc y) e) (fun _ => / INR (mc y)) (distance y) P /\ moved y x' P.
  Proof.
    intros HE HN (cost & flow & _ & Hr & Hc & Hcost & -> & Hx). cbv zeta in *. rewrite (weights_R _ _ HN) in Hx.
    pose proof (cost_distance _ _ Hcost) as Hd. destruct (call_pre (mc y) e HN) as (L1 & L2 & P1 & P2 & P3).
    eexists. split; [|].
    - eapply optimal_ext; [| |exact Hd|apply (HE (mc y) _ _ cost L1 L2 Hr Hc P1 P2 P3)].
      + intros i Hi. now apply hist_map.
      + intros i Hi. now apply uniform_at.
      + intros i j Hi Hj. rewrite Hd by auto. apply sqrt_pos.
    - intros d n Hdd Hn. rewrite Hx by auto. rewrite nsum_seq. apply sumn_ext. intros m _. rewrite <- nofnat_R. reflexivity.
  Qed.
  Lemma reweighted_const e y x' c : emd_contract E -> (1 <= mc y)%nat -> (forall n, (n < mc y)%nat -> e n = c) -> reweighted E e y x' ->
    forall d n, (d < mr y)%nat -> (n < mc y)%nat -> get x' d n = get y d n.
  Proof.
    intros HE HN He H. destruct (reweighted_optimal e y x' HE HN H) as (P & HP & Hm).
    apply (moved_identity y x' P (distance y)); auto.
    - intros. apply sqrt_pos.
    - intros i Hi. unfold distance. rewrite sumn_0 by (intros; ring). apply sqrt_0.
    - intros i j Hi Hj. apply distance_0.
    - eapply optimal_ext; [| | |exact HP]; auto. intros i Hi. now apply (softmax_const _ e c).
  Qed.
End Rw.
