(** C33-C37: importance weights and optimal-transport reweighting, over the exact reals.  The transport solver is any
    function that meets the stated contract ([emd_plans]: a plan with the requested marginals; [emd_contract]: one of
    minimal cost). *)
From Coq Require Import String List ZArith Lia Bool Reals Lra.
From Verif Require Import Base.Num Base.Py Base.Arr Lib.ArrLemmas Model.Ext Model.Cdist Model.Reweight Model.Score Model.DPFC.
From Verif Require Import Spec.FlowSpec Spec.RunSpec Spec.RealSpec Spec.RangeSpec Spec.Contracts Spec.ReweightSpec.
From Verif Require Import Lib.FlowLemmas Lib.ScoreLemmas Lib.StepLemmas Lib.RunLemmas Lib.StochLemmas Lib.CoreLemmas Lib.RBase Lib.RSum Lib.ReweightLemmas.
From Verif Require Import Props.Flows Props.Runs.
Import ListNotations.
Local Open Scope R_scope.

(** *** two loops that agree on the arrays they meet *)
Lemma mfold_ext_inv {S A B} (f g : B -> A -> M S B) (P : B -> Prop) l : forall b s, P b ->
  (forall b a s, P b -> In a l -> f b a s = g b a s) ->
  (forall b a s b' s', P b -> In a l -> f b a s = (Ok b', s') -> P b') -> mfold f l b s = mfold g l b s.
Proof.
  induction l as [|a l IH]; intros b s Hb He Hp; [reflexivity|]. cbn [mfold]. apply bind_ext.
  - apply He; [auto|now left].
  - intros b' s1 Q. apply IH.
    + eapply Hp; eauto. now left.
    + intros; apply He; auto. now right.
    + intros; eapply Hp; eauto. now right.
Qed.
Lemma in_enumerate {A} (l : list A) it : In it (enumerate l) -> (fst it < List.length l)%nat.
Proof. unfold enumerate. intro H. destruct it as [i t]. apply in_combine_l in H. apply in_seq in H. cbn. lia. Qed.

Section Ext2.
  Context {T S : Type} {O : NumOps T} (E : Ext T S).

  Lemma setsl_self (A : arr3 T) d n k i : sh A d n k -> (i < k)%nat -> setsl A (Z.of_nat i) (slice A i) = Ok A.
  Proof.
    intros HA Hi. rewrite (setsl_eq A d n k) by auto. destruct (sh_slice _ _ _ _ i HA Hi) as (W & R & C).
    rewrite assign_shape_wf by auto. cbn. f_equal.
    assert (HS : sh (setslice A i (slice A i)) d n k) by (apply sh_set; auto).
    apply (arr3_ext _ _ d n k HS HA). intros t Ht. destruct (Nat.eq_dec t i) as [->|Hne].
    - destruct HA as (WA & _ & _ & KA). apply slice_set_same; [auto|lia].
    - now apply slice_set_other.
  Qed.

  Definition rwpart (p : params T) (x : mat T) (t : T) : res (mat T) :=
    if p_reweight p then let! u := ocall2 (p_U p) x t in reweight_slice E (p_N p) (muls u dt) x else Ok x.
  Definition rwpart1 (p : params T) (x : mat T) : res (mat T) :=
    if p_reweight p then let! u := ocall1 (p_U p) x in reweight_slice E (p_N p) u x else Ok x.

  Lemma otto_body_sh p kern (A A' : arr3 T) it s s' k : (0 < k)%nat -> sh A (List.length (p_y1 p)) (p_N p) k -> (fst it < k)%nat ->
    otto_body E p kern A it s = (Ok A', s') -> sh A' (List.length (p_y1 p)) (p_N p) k.
  Proof.
    intros Hk HA Hi H. destruct it as [i t]. cbn in Hi. destruct (Nat.eq_dec i 0) as [->|Hne].
    - unfold otto_body in H. cbn [Nat.eqb] in H. rewrite andb_false_r in H. apply bind_ok in H.
      destruct H as (? & ? & H2 & H3). apply lift_ok in H2. apply ret_ok in H3. destruct H2 as (H2 & ->). destruct H3 as (-> & ->).
      apply (otto_init_ok _ _ _ _ _ _ _ _ HA Hk) in H2. apply H2.
    - rewrite (otto_body_core E p kern A i t s k HA) in H by lia. apply bind_ok in H. destruct H as (m & s1 & Hm & H).
      apply ret_ok in H. destruct H as (-> & _). apply otto_core_shaped in Hm. destruct Hm as (? & ? & ?). apply sh_set; auto.
  Qed.
  Lemma otto_rw p kern (A : arr3 T) i t s k : sh A (List.length (p_y1 p)) (p_N p) k -> (i < k)%nat ->
    otto_body E p kern A (i, t) s = if (i =? 0)%nat then otto_body E p kern A (i, t) s else
      bind (otto_body E (with_reweight p false) kern A (i, t))
           (fun Z1 => lift (let! y := rwpart p (slice Z1 i) t in setsl Z1 (Z.of_nat i) y)) s.
  Proof.
    intros HA Hi. destruct (Nat.eqb_spec i 0); [reflexivity|].
    unfold otto_body at 1 2. cbn [with_reweight p_reweight p_y1 p_y2 p_brown p_g p_f p_N p_M p_U andb].
    destruct (Nat.eqb_spec i 0); [lia|]. destruct (Nat.ltb_spec 0 i); [|lia]. rewrite andb_true_r.
    rewrite !bind_assoc. apply bind_ext; [reflexivity|]. intros x s1 Hx. rewrite !bind_assoc.
    apply bind_ext; [reflexivity|]. intros y s2 Hy. rewrite !bind_lift. rewrite (setsl_eq _ _ _ _ _ _ HA) by auto.
    destruct (assign_shape _ _ y) as [m|e] eqn:Hm; cbn [rmap]; [|reflexivity]. rewrite bind_ret.
    apply assign_shaped in Hm. destruct Hm as (W & R & C).
    assert (HZ : sh (setslice A i m) (List.length (p_y1 p)) (p_N p) k) by (apply sh_set; auto).
    unfold rwpart. destruct (p_reweight p).
    - rewrite getsl_nat by (destruct HZ as (_ & _ & _ & ->); lia). cbn [rbind]. unfold lift. f_equal.
      destruct (ocall2 (p_U p) _ t); reflexivity.
    - cbn [rbind]. rewrite (setsl_self _ _ _ _ _ HZ Hi). reflexivity.
  Qed.
  Lemma stoch_rw p (A : arr3 T) i t s k : sh A (List.length (p_y1 p)) (p_N p) k -> (i < k)%nat ->
    stoch_body E p A (i, t) s = if (i =? 0)%nat then stoch_body E p A (i, t) s else
      bind (stoch_body E (with_reweight p false) A (i, t))
           (fun Z1 => lift (let! y := rwpart1 p (slice Z1 i) in setsl Z1 (Z.of_nat i) y)) s.
  Proof.
    intros HA Hi. destruct (Nat.eqb_spec i 0); [reflexivity|].
    unfold stoch_body. cbn [with_reweight p_reweight p_y1 p_y2 p_brown p_g p_f p_N p_M p_U andb].
    destruct (Nat.eqb_spec i 0); [lia|]. rewrite !bind_assoc. apply bind_ext; [reflexivity|]. intros Z1 s1 H1. rewrite bind_ret.
    destruct (stoch_particles E p A Z1 i s s1 _ _ k eq_refl eq_refl HA ltac:(lia) H1) as (HZ & _).
    unfold rwpart1. destruct (p_reweight p).
    - rewrite getsl_nat by (destruct HZ as (_ & _ & _ & ->); lia). cbn [rbind]. unfold lift. f_equal.
      destruct (ocall1 (p_U p) _); reflexivity.
    - cbn [rbind]. rewrite (setsl_self _ _ _ _ _ HZ Hi). reflexivity.
  Qed.
  Lemma stoch_body_sh p (A A' : arr3 T) it s s' k : sh A (List.length (p_y1 p)) (p_N p) k -> (fst it < k)%nat ->
    stoch_body E p A it s = (Ok A', s') -> sh A' (List.length (p_y1 p)) (p_N p) k.
  Proof.
    intros HA Hi H. destruct it as [i t]. cbn in Hi. destruct (Nat.eq_dec i 0) as [->|Hne].
    - unfold stoch_body in H. cbn [Nat.eqb] in H. apply lift_ok in H. destruct H as (H & _).
      apply rbind_ok in H. destruct H as (v0 & _ & H). apply rbind_ok in H. destruct H as (A1 & H1 & H).
      apply rbind_ok in H. destruct H as (v1 & _ & H). pose proof HA as (WA & DA & NA & KA).
      apply (setrow3_ok _ 0) in H1; auto. destruct H1 as (j & _ & _ & _ & W1 & ->).
      apply (setrow3_ok _ 1) in H; auto. destruct H as (j' & _ & _ & _ & W2 & ->). split; [auto|]. cbn. auto.
    - destruct (stoch_step_ok E p A A' t i s s' _ _ k eq_refl eq_refl HA ltac:(lia) H) as (HS & _). exact HS.
  Qed.

  Definition with_rw_U (p : params T) (b : bool) (U : option (callable T)) : params T := with_U (with_reweight p b) U.

  (** forward passes that only differ in reweight and U agree if these act alike on every ensemble *)
  Lemma otto_same p b1 U1 b2 U2 kern grid s :
    let p1 := with_rw_U p b1 U1 in let p2 := with_rw_U p b2 U2 in
    let dim := List.length (p_y1 p) in
    (forall x t, shaped x dim (p_N p) -> rwpart p1 x t = rwpart p2 x t) ->
    forward_sampling_Otto E p1 kern grid (zeros3 dim (p_N p) (List.length grid)) s =
    forward_sampling_Otto E p2 kern grid (zeros3 dim (p_N p) (List.length grid)) s.
  Proof.
    intros p1 p2 dim H. unfold forward_sampling_Otto. destruct (Nat.eq_dec (List.length grid) 0) as [K|K].
    { destruct grid; [reflexivity|discriminate]. }
    apply (mfold_ext_inv _ _ (fun A => sh A dim (p_N p) (List.length grid))).
    - apply sh_zeros.
    - intros A [i t] sx HA Hin. apply in_enumerate in Hin. cbn in Hin.
      rewrite (otto_rw p1 kern A i t sx _ HA Hin), (otto_rw p2 kern A i t sx _ HA Hin). destruct (Nat.eqb_spec i 0) as [->|].
      + unfold otto_body. cbn [Nat.eqb Nat.ltb Nat.leb]. rewrite !andb_false_r. reflexivity.
      + apply bind_ext; [reflexivity|]. intros Z1 s1 HZ. apply otto_body_sh with (k := List.length grid) in HZ; auto; try lia.
        rewrite H; [reflexivity|]. apply (sh_slice _ _ _ _ i HZ Hin).
    - intros A it sx A' s' HA Hin HH. apply in_enumerate in Hin.
      eapply (otto_body_sh p1); eauto. lia.
  Qed.
  Lemma stoch_same p b1 U1 b2 U2 grid s :
    let p1 := with_rw_U p b1 U1 in let p2 := with_rw_U p b2 U2 in
    let dim := List.length (p_y1 p) in
    (forall x, shaped x dim (p_N p) -> rwpart1 p1 x = rwpart1 p2 x) ->
    forward_sampling E p1 grid (zeros3 dim (p_N p) (List.length grid)) s =
    forward_sampling E p2 grid (zeros3 dim (p_N p) (List.length grid)) s.
  Proof.
    intros p1 p2 dim H. unfold forward_sampling. apply bind_ext; [|reflexivity].
    apply (mfold_ext_inv _ _ (fun A => sh A dim (p_N p) (List.length grid))).
    - apply sh_zeros.
    - intros A [i t] sx HA Hin. apply in_enumerate in Hin. cbn in Hin.
      rewrite (stoch_rw p1 A i t sx _ HA Hin), (stoch_rw p2 A i t sx _ HA Hin). destruct (Nat.eqb_spec i 0) as [->|].
      + reflexivity.
      + apply bind_ext; [reflexivity|]. intros Z1 s1 HZ. apply stoch_body_sh with (k := List.length grid) in HZ; auto; try lia.
        rewrite H; [reflexivity|]. apply (sh_slice _ _ _ _ i HZ Hin).
    - intros A it sx A' s' HA Hin HH. apply in_enumerate in Hin.
      eapply (stoch_body_sh p1); eauto.
  Qed.
  (** whole runs *)
  Lemma run_same p b1 U1 b2 U2 s :
    let p1 := with_rw_U p b1 U1 in let p2 := with_rw_U p b2 U2 in
    b1 && p_brown p = b2 && p_brown p ->
    (if p_det p then forall x t, shaped x (List.length (p_y1 p)) (p_N p) -> rwpart p1 x t = rwpart p2 x t
     else forall x, shaped x (List.length (p_y1 p)) (p_N p) -> rwpart1 p1 x = rwpart1 p2 x) ->
    same_outcome (construct E p1 s) (construct E p2 s).
  Proof.
    intros p1 p2 Hb H. apply same_flows_outcome; try reflexivity.
    unfold flows_of. cbn [with_rw_U with_U with_reweight p1 p2 p_y1 p_t1 p_t2 p_N p_kern p_det p_reweight p_brown]. rewrite Hb.
    apply bind_ext.
    - destruct (p_det p).
      + apply bind_ext; [now apply otto_same|]. intros Z1 s1 _. reflexivity.
      + apply bind_ext; [now apply stoch_same|]. intros Z1 s1 _. reflexivity.
    - intros ZZ s1 _. reflexivity.
  Qed.
End Ext2.

(** ** C33 *)
(** the N weights computed from the exponents e (a 1-d array of length N, or one number) *)
Theorem C33_weights (N : nat) (e : mat R) w : (1 <= N)%nat -> weights_of N e = Ok w ->
  List.length w = N /\
  (forall i, (i < N)%nat -> nth i w 0 = softmax N (elem e 0) i) /\
  (forall i, (i < N)%nat -> 0 < nth i w 0) /\ sumn N (fun i => nth i w 0) = 1 /\
  (forall i j, (i < N)%nat -> (j < N)%nat -> (elem e 0 i < elem e 0 j <-> nth i w 0 < nth j w 0)) /\
  ((forall i j, (i < N)%nat -> (j < N)%nat -> elem e 0 i = elem e 0 j) -> forall i, (i < N)%nat -> nth i w 0 = / INR N).
Proof.
  intros HN H. apply weights_of_ok in H. destruct H as (F & Hw). cbv zeta in Hw.
  change (fun n => nexp (bget e 0 n)) with (fun n => nexp (elem e 0 n)) in Hw. rewrite (weights_R N (elem e 0) HN) in Hw.
  assert (Hn : forall i, (i < N)%nat -> nth i w 0 = softmax N (elem e 0) i) by (intros; subst w; now rewrite nth_map_seq).
  split. { subst w. now rewrite map_length, seq_length. } split; [auto|].
  split. { intros i Hi. rewrite Hn by auto. now apply softmax_pos. }
  split. { rewrite (sumn_ext N _ _ Hn). now apply softmax_sum. }
  split. { intros i j Hi Hj. rewrite !Hn by auto. now apply softmax_lt. }
  intros Hc i Hi. rewrite Hn by auto. apply (softmax_const N _ (elem e 0 0)); auto.
Qed.
Theorem C33_weights_exist (N : nat) (e : mat R) : mr e = 1%nat -> mc e = N \/ mc e = 1%nat -> exists w, weights_of N e = Ok w.
Proof.
  intros Hr Hc. unfold weights_of. assert (exists a, assign_shape 1 N (mexp e) = Ok a) as (a & ->); [|cbn; eauto].
  unfold assign_shape. cbn [mexp mmap1 mk mr mc]. rewrite Hr. cbn.
  assert ((mc e =? N)%nat || (mc e =? 1)%nat = true) as ->; [|eauto]. destruct Hc as [->| ->]; rewrite Nat.eqb_refl; auto. apply orb_true_r.
Qed.
Lemma weights_shift N (e : mat R) c : weights_of N (mmap1 (fun v => v + c) e) = weights_of N e.
Proof.
  destruct (Nat.eq_dec N 0) as [->|HN].
  - unfold weights_of, assign_shape. cbn [mexp mmap1 mk mr mc]. destruct (_ && _); reflexivity.
  - destruct (weights_of N e) as [w|x] eqn:H.
    + pose proof H as H'. apply weights_of_ok in H'. destruct H' as ((F1 & F2) & Hw).
      destruct (C33_weights_exist N (mmap1 (fun v => v + c) e)) as (w' & Hw').
      { cbn. tauto. } { cbn. tauto. } rewrite Hw'. f_equal.
      apply weights_of_ok in Hw'. destruct Hw' as (F' & Hw'). cbv zeta in *.
      rewrite Hw, Hw'. change (fun n => nexp (bget e 0 n)) with (fun n => nexp (bget e 0 n)).
      rewrite !weights_R by lia. apply map_seq_ext. intros i Hi.
      rewrite <- (softmax_shift N (bget e 0) c i) by lia. apply softmax_ext; [|auto]. intros j Hj. 
      unfold bget. cbn [mmap1 mk mr mc]. fold (mmap1 (fun v => v + c) e). destruct F1 as [F1|F1], F2 as [F2|F2]; rewrite get_mmap1; auto; rewrite ?F1, ?F2; cbn; try lia; unfold bidx; destruct (N =? 1)%nat; lia.
    + unfold weights_of in *. unfold assign_shape in *. cbn [mexp mmap1 mk mr mc] in *.
      destruct (_ && _); [discriminate|]. injection H as <-. reflexivity.
Qed.
(** adding a constant to the exponents does not change the weights *)
Theorem C33_weights_shift_invariant N (e e' : mat R) c : mr e' = mr e -> mc e' = mc e ->
  (forall i j, (i < mr e)%nat -> (j < mc e)%nat -> get e' i j = get e i j + c) -> weights_of N e' = weights_of N e.
Proof.
  intros Hr Hc H. rewrite <- (weights_shift N e c). unfold weights_of. f_equal. f_equal.
  unfold mexp, mmap1. rewrite Hr, Hc. apply mk_ext. intros i j Hi Hj. cbn [mr mc mk]. rewrite H, get_mk by auto. reflexivity.
Qed.

Section Rw.
  Context {S : Type} (E : Ext R S).

  (** the whole outcome of a run is unchanged when a number (which may depend on the time and the ensemble, but not on the
      particle) is added to the path constraint *)
  Theorem C33_shift_of_U_changes_nothing p s (U U' : callable R) (c : mat R -> R -> R) (c1 : mat R -> R) :
    (forall x t, call2 U' x t = rmap (mmap1 (fun v => v + c x t)) (call2 U x t)) ->
    (forall x, call1 U' x = rmap (mmap1 (fun v => v + c1 x)) (call1 U x)) ->
    same_outcome (construct E (with_U p (Some U')) s) (construct E (with_U p (Some U)) s).
  Proof.
    intros H2 H1. 
    assert (Hp : forall V, with_U p V = with_rw_U p (p_reweight p) V) by (destruct p; reflexivity). rewrite !Hp.
    apply run_same; [reflexivity|]. destruct (p_det p).
    - intros x t _. unfold rwpart. cbn [with_rw_U with_U with_reweight p_reweight p_N p_U ocall2]. destruct (p_reweight p); [|reflexivity].
      rewrite H2. destruct (call2 U x t) as [u|er]; [|reflexivity]. cbn [rmap rbind]. unfold reweight_slice.
      rewrite (C33_weights_shift_invariant (p_N p) (muls u dt) (muls (mmap1 (fun v => v + c x t) u) dt) (c x t * dt)); try reflexivity.
      intros i j Hi Hj. unfold muls in *. cbn [mmap1 mk mr mc] in Hi, Hj. rewrite !get_mmap1 by (auto; cbn; auto). cbn. ring.
    - intros x _. unfold rwpart1. cbn [with_rw_U with_U with_reweight p_reweight p_N p_U ocall1]. destruct (p_reweight p); [|reflexivity].
      rewrite H1. destruct (call1 U x) as [u|er]; [|reflexivity]. cbn [rmap rbind]. unfold reweight_slice.
      rewrite (C33_weights_shift_invariant (p_N p) u (mmap1 (fun v => v + c1 x) u) (c1 x)); try reflexivity.
      intros i j Hi Hj. now rewrite get_mmap1.
  Qed.

  (** ** C34, C35 : the public function reweight_optimal_transport_multidim *)
  Theorem C34_transport_matrix (X : mat R) (w : list R) Tm : emd_plans (x_emd E) ->
    (1 <= mr X)%nat -> (forall i, (i < mr X)%nat -> 0 <= nth i w 0) -> sumn (mr X) (fun i => nth i w 0) = 1 ->
    reweight_optimal_transport_multidim E X w = Ok Tm ->
    mr Tm = mr X /\ mc Tm = mr X /\
    (forall i j, (i < mr X)%nat -> (j < mr X)%nat -> 0 <= get Tm i j) /\
    (forall j, (j < mr X)%nat -> sumn (mr X) (fun i => get Tm i j) = 1) /\
    (forall i, (i < mr X)%nat -> sumn (mr X) (fun j => get Tm i j) = INR (mr X) * nth i w 0).
  Proof.
    intros HE HN Hw Hs H. unfold reweight_optimal_transport_multidim in H. destruct (Nat.eqb_spec (List.length w) (mr X)) as [Lw|]; [|discriminate].
    injection H as <-. split; [reflexivity|]. split; [reflexivity|]. unfold muls. set (N := mr X) in *.
    assert (HI : 0 < INR N) by (apply lt_0_INR; lia).
    destruct (HE N w (uniform_hist N) (square_pdist X) Lw) as (P1 & P2 & P3); try reflexivity.
    { unfold uniform_hist. apply repeat_length. }
    { exact Hw. } { intros i Hi. rewrite uniform_at by auto. left. now apply Rinv_0_lt_compat. }
    { rewrite (sumn_ext N (hist (uniform_hist N)) (fun _ => / INR N)) by (intros; now apply uniform_at). rewrite sumn_const.
      unfold hist. rewrite Hs. field. lra. }
    { intros i j Hi Hj. unfold square_pdist. rewrite get_mk by auto. destruct (i <? j)%nat; [apply sqrt_pos|]. destruct (j <? i)%nat; [apply sqrt_pos|cbn; lra]. }
    assert (G : forall i j, (i < N)%nat -> (j < N)%nat ->
       get (mmap1 (fun x => nmul x (nofnat N)) (mk N N (x_emd E w (repeat (ndiv none1 (nofnat N)) N) (square_pdist X)))) i j =
       x_emd E w (uniform_hist N) (square_pdist X) i j * INR N).
    { intros i j Hi Hj. rewrite get_mmap1 by (cbn; auto). rewrite get_mk by auto. rewrite <- nofnat_R. reflexivity. }
    split. { intros i j Hi Hj. eapply Rle_trans; [|right; symmetry; apply G; auto]. apply Rmult_le_pos; [auto|lra]. }
    split.
    - intros j Hj. rewrite (sumn_ext N _ (fun i => x_emd E w (uniform_hist N) (square_pdist X) i j * INR N)) by (intros; now apply G). rewrite sumn_scal_r, P3, uniform_at by auto. field. lra.
    - intros i Hi. rewrite (sumn_ext N _ (fun j => x_emd E w (uniform_hist N) (square_pdist X) i j * INR N)) by (intros; now apply G). rewrite sumn_scal_r, P2 by auto. unfold hist. ring.
  Qed.

  (** every slice of a reweighted run consists of convex combinations of the particles y of the unreweighted step, and so
      lies in the range of y coordinate by coordinate; its plain average is the weighted average of y *)
  Definition reweighted_from (e : nat -> R) (y z : mat R) : Prop :=
    (forall n, (n < mc y)%nat -> convex_combination y (fun d => get z d n)) /\
    (forall d n, (d < mr y)%nat -> (n < mc y)%nat -> in_range y d (get z d n)) /\
    (forall d, (d < mr y)%nat -> average z d = sumn (mc y) (fun m => softmax (mc y) e m * get y d m)).

  Lemma reweighted_from_ok e y z : emd_plans (x_emd E) -> (1 <= mc y)%nat -> mc z = mc y -> reweighted E e y z -> reweighted_from e y z.
  Proof.
    intros HE HN Hz H. destruct (reweighted_plan E e y z HE HN H) as (P & HP & Hm).
    pose proof (moved_convex y z _ P HN HP Hm) as Hc. split; [auto|]. split.
    - intros d n Hd Hn. specialize (Hc n Hn). split.
      + apply (convex_lower y (fun d => get z d n) d HN Hd Hc).
      + apply (convex_upper y (fun d => get z d n) d HN Hd Hc).
    - now apply (moved_average y z _ P).
  Qed.

  Theorem C34_reweighting p s o s' : emd_plans (x_emd E) -> construct E p s = (Ok o, s') -> p_reweight p = true -> (1 <= p_N p)%nat ->
    forall i, (1 <= i < List.length (o_grid o))%nat -> p_det p = true ->
    exists y u sa sb, mr y = List.length (p_y1 p) /\ mc y = p_N p /\
      plain_step E nmilli (o_kern o) (p_M p) (p_g p) (call2 (p_f p)) i (nth i (o_grid o) 0) (slice (o_Z o) (i-1)) y sa sb /\
      ocall2 (p_U p) y (nth i (o_grid o) 0) = Ok u /\
      reweighted_from (fun n => elem u 0 n * / 1000) y (slice (o_Z o) i).
  Proof.
    intros HE Hc Hr HN i Hi Hd. destruct (C06_forward_recurrence E p s o s' Hc Hd ltac:(lia)) as (sg & _ & H).
    rewrite Hr in H. destruct (H i Hi) as (y & u & _ & Ry & Cy & Hst & HU & Hw). pose proof (Z_sh E p s o s' Hc) as HZ.
    destruct (sh_slice _ _ _ _ (i-1) HZ ltac:(lia)) as (_ & R0 & C0). destruct (sh_slice _ _ _ _ i HZ ltac:(lia)) as (_ & R1 & C1).
    exists y, u, (sg (i-1)%nat), (sg i). split; [lia|]. split; [lia|]. split; [exact Hst|]. split; [exact HU|].
    apply reweighted_from_ok; [auto|lia|lia|].
    replace (fun n => elem u 0 n * / 1000) with (fun n => nmul (elem u 0 n) nmilli); [exact Hw|].
    apply FunctionalExtensionality.functional_extensionality. intro n. unfold nmilli. cbn. unfold Rdiv. now rewrite Rmult_1_l.
  Qed.

  (** stochastic mode: the same with particle steps and exponents U(y); the last slice is overwritten by the target *)
  Theorem C34_reweighting_stochastic p s o s' : emd_plans (x_emd E) -> construct E p s = (Ok o, s') -> p_reweight p = true -> (1 <= p_N p)%nat ->
    forall i, (1 <= i < List.length (o_grid o) - 1)%nat -> p_det p = false ->
    exists y u sa sb, mr y = List.length (p_y1 p) /\ mc y = p_N p /\
      particle_step E nmilli (p_g p) (call1 (p_f p)) (slice (o_Z o) (i-1)) y sa sb /\
      ocall1 (p_U p) y = Ok u /\ reweighted_from (fun n => elem u 0 n) y (slice (o_Z o) i).
  Proof.
    intros HE Hc Hr HN i Hi Hd. destruct (C56_stochastic_recurrence E p s o s' Hc Hd ltac:(lia)) as (sg & _ & H).
    rewrite Hr in H. destruct (H i Hi) as (y & u & _ & Ry & Cy & Hst & HU & Hw). pose proof (Z_sh E p s o s' Hc) as HZ.
    destruct (sh_slice _ _ _ _ (i-1) HZ ltac:(lia)) as (_ & R0 & C0). destruct (sh_slice _ _ _ _ i HZ ltac:(lia)) as (_ & R1 & C1).
    exists y, u, (sg (i-1)%nat), (sg i). split; [lia|]. split; [lia|]. split; [exact Hst|]. split; [exact HU|].
    apply reweighted_from_ok; [auto|lia|lia|]. exact Hw.
  Qed.

  (** ** C35 *)
  (** the plain average of the samples moved by the returned matrix is the weighted average of the samples *)
  Theorem C35_mean_preserved (X : mat R) (w : list R) Tm : emd_plans (x_emd E) ->
    (1 <= mr X)%nat -> (forall i, (i < mr X)%nat -> 0 <= nth i w 0) -> sumn (mr X) (fun i => nth i w 0) = 1 ->
    reweight_optimal_transport_multidim E X w = Ok Tm ->
    forall d, mean (mr X) (fun n => sumn (mr X) (fun m => get X m d * get Tm m n)) = sumn (mr X) (fun m => nth m w 0 * get X m d).
  Proof.
    intros HE HN Hw Hs H d. destruct (C34_transport_matrix X w Tm HE HN Hw Hs H) as (_ & _ & _ & _ & Hrow).
    unfold mean. rewrite sumn_swap. rewrite (sumn_ext _ _ (fun m => (nth m w 0 * get X m d) * INR (mr X))).
    - rewrite sumn_scal_r. field. apply not_0_INR. lia.
    - intros m Hm. rewrite sumn_scal, Hrow by auto. ring.
  Qed.
  Theorem C35_average_of_run p s o s' : emd_plans (x_emd E) -> construct E p s = (Ok o, s') -> p_det p = true -> p_reweight p = true -> (1 <= p_N p)%nat ->
    forall i, (1 <= i < List.length (o_grid o))%nat ->
    exists y u sa sb, mr y = List.length (p_y1 p) /\ mc y = p_N p /\
      plain_step E nmilli (o_kern o) (p_M p) (p_g p) (call2 (p_f p)) i (nth i (o_grid o) 0) (slice (o_Z o) (i-1)) y sa sb /\
      ocall2 (p_U p) y (nth i (o_grid o) 0) = Ok u /\
      forall d, (d < List.length (p_y1 p))%nat ->
        average (slice (o_Z o) i) d = sumn (p_N p) (fun m => softmax (p_N p) (fun n => elem u 0 n * / 1000) m * get y d m).
  Proof.
    intros HE Hc Hd Hr HN i Hi. destruct (C34_reweighting p s o s' HE Hc Hr HN i Hi Hd) as (y & u & sa & sb & Ry & Cy & Hst & Hu & _ & _ & Hav).
    exists y, u, sa, sb. split; [auto|]. split; [auto|]. split; [auto|]. split; [auto|]. intros d Hd'. rewrite Hav by lia. now rewrite Cy.
  Qed.

  (** ** C36 *)
  (** the constraint gives every particle the same value *)
  Definition same_for_all (N : nat) (r : res (mat R)) : Prop :=
    exists v c, r = Ok v /\ mr v = 1%nat /\ (mc v = N \/ mc v = 1%nat) /\ forall n, (n < N)%nat -> elem v 0 n = c.

  Lemma const_identity N (e x : mat R) c : emd_contract E -> (1 <= N)%nat -> wf x -> mc x = N -> mr e = 1%nat -> (mc e = N \/ mc e = 1%nat) ->
    (forall n, (n < N)%nat -> elem e 0 n = c) -> reweight_slice E N e x = Ok x.
  Proof.
    intros HE HN Wx Cx Re Ce Hc. assert (exists y, reweight_slice E N e x = Ok y) as (y & Hy).
    { unfold reweight_slice. destruct (C33_weights_exist N e Re Ce) as (w & Hw). rewrite Hw. cbn [rbind].
      apply (C33_weights N e w HN) in Hw. destruct Hw as (Lw & _). unfold reweight_optimal_transport_multidim. cbn [mr mT mk].
      rewrite Cx, Lw, Nat.eqb_refl. cbn [rbind]. rewrite mmul_dim by (cbn; auto). eauto. }
    rewrite Hy. f_equal. apply reweight_slice_ok in Hy; auto. destruct Hy as (_ & Wy & Ry & Cy & Hrw).
    apply wf_eq; auto; try lia. intros i j Hi Hj. apply (reweighted_const E (fun n => bget e 0 n) x y c); auto; try lia.
    intros n Hn. apply Hc. lia.
  Qed.

  Theorem C36_constant_constraint_changes_nothing p s U : emd_contract E -> (1 <= p_N p)%nat -> p_brown p = false -> p_U p = Some U ->
    (if p_det p then forall x t, mr x = List.length (p_y1 p) -> mc x = p_N p -> same_for_all (p_N p) (call2 U x t)
     else forall x, mr x = List.length (p_y1 p) -> mc x = p_N p -> same_for_all (p_N p) (call1 U x)) ->
    same_outcome (construct E (with_reweight p true) s) (construct E (with_reweight p false) s).
  Proof.
    intros HE HN Hb HU H.
    assert (Hp : forall b, with_reweight p b = with_rw_U p b (p_U p)) by reflexivity. rewrite !Hp.
    apply run_same; [now rewrite Hb|]. destruct (p_det p).
    - intros x t (Wx & Rx & Cx). unfold rwpart. cbn [with_rw_U with_U with_reweight p_reweight p_N p_U]. rewrite HU. cbn [ocall2].
      destruct (H x t Rx Cx) as (v & c & -> & Rv & Cv & Hv). cbn [rbind].
      apply (const_identity _ (muls v dt) x (c * dt)); auto. intros n Hn. rewrite <- (Hv n Hn).
      unfold elem, muls. cbn [mmap1 mk mr mc]. fold (mmap1 (fun x => nmul x dt) v). rewrite Rv. cbn [Nat.eqb].
      rewrite get_mmap1; [reflexivity|lia|]. destruct (Nat.eqb_spec (mc v) 1); lia.
    - intros x (Wx & Rx & Cx). unfold rwpart1. cbn [with_rw_U with_U with_reweight p_reweight p_N p_U]. rewrite HU. cbn [ocall1].
      destruct (H x Rx Cx) as (v & c & -> & Rv & Cv & Hv). cbn [rbind].
      apply (const_identity _ v x c); auto.
  Qed.

  (** with brown_bridge the reweighted run also computes Ztr (and so draws more random numbers); the forward flow is the same *)
  Theorem C36_constant_constraint_bridge p s U o1 o2 s1 s2 : emd_contract E -> (1 <= p_N p)%nat -> p_U p = Some U ->
    (if p_det p then forall x t, mr x = List.length (p_y1 p) -> mc x = p_N p -> same_for_all (p_N p) (call2 U x t)
     else forall x, mr x = List.length (p_y1 p) -> mc x = p_N p -> same_for_all (p_N p) (call1 U x)) ->
    construct E (with_reweight p true) s = (Ok o1, s1) -> construct E (with_reweight p false) s = (Ok o2, s2) -> o_Z o1 = o_Z o2.
  Proof.
    intros HE HN HU H H1 H2.
    destruct (construct_ok E _ _ _ _ H1) as (_ & _ & G1 & sa & sb & HZ1 & _).
    destruct (construct_ok E _ _ _ _ H2) as (_ & _ & G2 & sc & sd & HZ2 & _).
    assert (Hp : forall b, with_reweight p b = with_rw_U p b (p_U p)) by reflexivity. rewrite Hp in HZ1, HZ2.
    cbn [with_rw_U with_U with_reweight p_det p_y1 p_N p_kern p_t1 p_t2] in HZ1, HZ2. 
    destruct (p_det p).
    - destruct HZ1 as (HZ1 & _), HZ2 as (HZ2 & _). rewrite (otto_same E p true (p_U p) false (p_U p)) in HZ1; [congruence|].
      intros x t (Wx & Rx & Cx). unfold rwpart. cbn [with_rw_U with_U with_reweight p_reweight p_N p_U]. rewrite HU. cbn [ocall2].
      destruct (H x t Rx Cx) as (v & c & -> & Rv & Cv & Hv). cbn [rbind].
      apply (const_identity _ (muls v dt) x (c * dt)); auto. intros n Hn. rewrite <- (Hv n Hn).
      unfold elem, muls. cbn [mmap1 mk mr mc]. fold (mmap1 (fun x => nmul x dt) v). rewrite Rv. cbn [Nat.eqb].
      rewrite get_mmap1; [reflexivity|lia|]. destruct (Nat.eqb_spec (mc v) 1); lia.
    - destruct HZ1 as (HZ1 & _), HZ2 as (HZ2 & _). rewrite (stoch_same E p true (p_U p) false (p_U p)) in HZ1; [congruence|].
      intros x (Wx & Rx & Cx). unfold rwpart1. cbn [with_rw_U with_U with_reweight p_reweight p_N p_U]. rewrite HU. cbn [ocall1].
      destruct (H x Rx Cx) as (v & c & -> & Rv & Cv & Hv). cbn [rbind].
      apply (const_identity _ v x c); auto.
  Qed.
  (** one reweighting with equal exponents leaves every particle where it is *)
  Theorem C36_equal_weights_move_nothing e y z : emd_contract E -> (1 <= mc y)%nat ->
    (forall m n, (m < mc y)%nat -> (n < mc y)%nat -> e m = e n) -> reweighted E e y z ->
    forall d n, (d < mr y)%nat -> (n < mc y)%nat -> get z d n = get y d n.
  Proof. intros HE HN He H. apply (reweighted_const E e y z (e 0%nat)); auto. Qed.

  (** ** C37 *)
  (** the constraint of the README, for coordinate c: U(x,t) = (x_c - sin t)^2, one value per particle *)
  Definition readme_U (c : nat) (U : callable R) : Prop := forall x t,
    call2 U x t = Ok (vec (map (fun n => (get x c n - sin t) ^ 2) (seq 0 (mc x)))).

  Theorem C37_constraint_repels p s o s' U c : emd_plans (x_emd E) -> construct E p s = (Ok o, s') -> p_det p = true -> p_reweight p = true ->
    (1 <= p_N p)%nat -> p_U p = Some U -> readme_U c U -> (c < List.length (p_y1 p))%nat ->
    forall i, (1 <= i < List.length (o_grid o))%nat -> let t := nth i (o_grid o) 0 in
    exists y w sa sb, mr y = List.length (p_y1 p) /\ mc y = p_N p /\
      plain_step E nmilli (o_kern o) (p_M p) (p_g p) (call2 (p_f p)) i t (slice (o_Z o) (i-1)) y sa sb /\
      (* the weights with which y is reweighted: farther from the line means strictly heavier *)
      sumn (p_N p) w = 1 /\ (forall d, (d < mr y)%nat -> average (slice (o_Z o) i) d = sumn (p_N p) (fun n => w n * get y d n)) /\
      (forall m n, (m < p_N p)%nat -> (n < p_N p)%nat -> Rabs (get y c m - sin t) < Rabs (get y c n - sin t) -> w m < w n) /\
      (* if all particles are on one side of the line, reweighting moves their average away from it *)
      ((forall n, (n < p_N p)%nat -> sin t <= get y c n) -> average y c <= average (slice (o_Z o) i) c) /\
      ((forall n, (n < p_N p)%nat -> sin t <= get y c n) -> spread y c -> average y c < average (slice (o_Z o) i) c) /\
      ((forall n, (n < p_N p)%nat -> get y c n <= sin t) -> average (slice (o_Z o) i) c <= average y c) /\
      ((forall n, (n < p_N p)%nat -> get y c n <= sin t) -> spread y c -> average (slice (o_Z o) i) c < average y c).
  Proof.
    intros HE Hc Hd Hr HN HU HR Hcd i Hi t.
    destruct (C34_reweighting p s o s' HE Hc Hr HN i Hi Hd) as (y & u & sa & sb & Ry & Cy & Hst & Hu & _ & _ & Hav).
    rewrite HU in Hu. cbn [ocall2] in Hu. rewrite HR in Hu. injection Hu as <-. fold t in Hav, Hst. rewrite Cy in *.
    set (e := fun n => elem (vec (map (fun n => (get y c n - sin t) ^ 2) (seq 0 (p_N p)))) 0 n * / 1000) in *.
    assert (Ee : forall n, (n < p_N p)%nat -> e n = (get y c n - sin t) ^ 2 * / 1000).
    { intros n Hn. unfold e, elem, vec. cbn [mk mr mc]. rewrite map_length, seq_length. cbn [Nat.eqb]. f_equal.
      rewrite get_mk; [|lia|destruct (Nat.eqb_spec (p_N p) 1); lia].
      destruct (Nat.eqb_spec (p_N p) 1); [assert (n = O) by lia; subst n|]; now rewrite nth_map_seq by lia. }
    set (w := softmax (p_N p) e) in *.
    assert (Hsq : forall a b, Rabs a < Rabs b -> a ^ 2 < b ^ 2). { intros a b H. rewrite <- !Rsqr_pow2. now apply Rsqr_lt_abs_1. }
    assert (Hw : forall m n, (m < p_N p)%nat -> (n < p_N p)%nat -> Rabs (get y c m - sin t) < Rabs (get y c n - sin t) -> w m < w n).
    { intros m n Hm Hn H. apply (proj1 (softmax_lt (p_N p) e m n HN)). rewrite !Ee by auto. apply Rmult_lt_compat_r; [lra|]. now apply Hsq. }
    assert (Ws : sumn (p_N p) w = 1) by now apply softmax_sum.
    exists y, w, sa, sb. split; [auto|]. split; [auto|]. split; [auto|]. split; [auto|]. split; [auto|]. split; [auto|].
    rewrite (Hav c ltac:(lia)). unfold average, spread. rewrite Cy.
    assert (Up : (forall n, (n < p_N p)%nat -> sin t <= get y c n) -> forall m n, (m < p_N p)%nat -> (n < p_N p)%nat -> get y c m < get y c n -> w m < w n).
    { intros Hs m n Hm Hn L. apply Hw; auto. pose proof (Hs m Hm). pose proof (Hs n Hn). rewrite !Rabs_pos_eq by lra. lra. }
    assert (Dn : (forall n, (n < p_N p)%nat -> get y c n <= sin t) -> forall m n, (m < p_N p)%nat -> (n < p_N p)%nat -> - get y c m < - get y c n -> w m < w n).
    { intros Hs m n Hm Hn L. apply Hw; auto. pose proof (Hs m Hm). pose proof (Hs n Hn). rewrite !Rabs_left1 by lra. lra. }
    assert (Neg : sumn (p_N p) (fun n => w n * - get y c n) = - sumn (p_N p) (fun n => w n * get y c n)).
    { rewrite <- sumn_opp. apply sumn_ext. intros. ring. }
    assert (Neg' : mean (p_N p) (fun n => - get y c n) = - mean (p_N p) (fun n => get y c n)).
    { unfold mean, Rdiv. rewrite (sumn_opp (p_N p) (fun n => get y c n)). now rewrite Ropp_mult_distr_l. }
    split; [|split; [|split]].
    - intro Hs. apply weighted_mean_ge; auto.
    - intros Hs (m & n & Hm & Hn & Hne). apply weighted_mean_gt; eauto 6.
    - intro Hs. pose proof (weighted_mean_ge (p_N p) w (fun n => - get y c n) HN Ws (Dn Hs)) as Q. cbn beta in Q. rewrite Neg, Neg' in Q. apply Ropp_le_cancel. exact Q.
    - intros Hs (m & n & Hm & Hn & Hne).
      pose proof (weighted_mean_gt (p_N p) w (fun n => - get y c n) HN Ws (Dn Hs)) as Q.
      assert (Hex : exists i j, (i < p_N p)%nat /\ (j < p_N p)%nat /\ - get y c i <> - get y c j) by (exists m, n; repeat split; auto; lra).
      specialize (Q Hex). cbn beta in Q. rewrite Neg, Neg' in Q. apply Ropp_lt_cancel. exact Q.
  Qed.
End Rw.
