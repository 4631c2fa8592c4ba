(** C69: the documented controlled simulation. *)
From Coq Require Import String List ZArith Lia Bool.
From Verif Require Import Base.Num Base.Py Base.Arr Lib.ArrLemmas Model.Ext Model.Cdist Model.Score Model.DPFC Model.Controlled.
From Verif Require Import Spec.FlowSpec Spec.QuerySpec Spec.TotalSpec Spec.ControlledSpec.
From Verif Require Import Lib.FlowLemmas Lib.ScoreLemmas Lib.StepLemmas Lib.TotalLemmas Lib.QueryLemmas Lib.RunLemmas Props.Flows Props.Queries.
Import ListNotations.

Section Controlled.
  Context {T S : Type} {O : NumOps T} (E : Ext T S).
  Local Notation mat := (mat T). Local Notation arr3 := (arr3 T).

  Lemma calculate_u_shape o dim N k gx ti s u s' : consistent o dim N k ->
    calculate_u E o gx ti s = (Ok u, s') -> mr u = mc gx /\ mc u = mr gx.
  Proof.
    intros Hc H. destruct (selects_cases k ti) as [(j & Hs)|Hs].
    2:{ rewrite (calculate_u_out E o dim N k gx ti s Hc Hs) in H. discriminate. }
    assert (exists A, forward_of o A) as (A & HF).
    { unfold forward_of. destruct (p_reweight (o_par o) && p_brown (o_par o)) eqn:Hb; [|eauto].
      destruct Hc as (_ & _ & _ & _ & Hz). destruct (Hz Hb) as (Zt & -> & _). eauto. }
    rewrite (calculate_u_eq E o dim N k A gx ti j s Hc HF Hs) in H. cbv zeta in H.
    destruct (inter_bnds dim (slice A j) (slice (o_B o) j)); [|discriminate].
    destruct ((ti <=? 5) || (Z.of_nat k - 5 <=? ti))%Z.
    - injection H as H _. apply rows_fold_ok in H. tauto.
    - destruct (sample_box E _ _ s) as [[Sx|] s1]; [|discriminate]. injection H as H _. apply rows_fold_ok in H. tauto.
  Qed.

  Section Loop.
    Context (kF : nat) (o : obj T) (N k : nat) (f : callable T) (g : T) (y1 : list T) (reps : nat).
    Let dim := List.length y1.
    Context (HkF : kF <= k) (Hc : consistent o dim N k) (Hf : field1 dim reps f).
    Let okc (c : ctl T) := sh (ct_F c) dim reps kF /\ sh (ct_u c) dim reps k /\ sh (ct_n c) dim reps kF.

    Definition next_F (x fx u : mat) (n1 : nat -> nat -> T) : mat := mk dim reps (fun d r =>
      nadd (nadd (nadd (get x d r) (nmul nmilli (get fx d r))) (nmul (nmul nmilli (nsq g)) (get u d r))) (nmul g (n1 d r))).
    Definition next_n (x fx : mat) (n2 : nat -> nat -> T) : mat := mk dim reps (fun d r =>
      nadd (nadd (get x d r) (nmul nmilli (get fx d r))) (nmul g (n2 d r))).

    Lemma ctl_drift_eq x fx : mr x = dim -> mc x = reps -> call1 f x = Ok fx -> mr fx = dim -> mc fx = reps ->
      ctl_drift f x = Ok (mk dim reps (fun d r => nadd (get x d r) (nmul nmilli (get fx d r)))).
    Proof.
      intros H1 H2 H3 H4 H5. unfold ctl_drift. rewrite H3. cbn [rbind].
      rewrite (bc2_same nadd x (smul dt fx) dim reps); auto. f_equal. apply mk_ext. intros. unfold smul. now rewrite get_mmap1 by lia.
    Qed.

    Lemma setsl_mk (A : arr3) K i (m : mat) : sh A dim reps K -> i < K -> mr m = dim -> mc m = reps ->
      setsl A (Z.of_nat i) m = Ok (setslice A i (mk dim reps (get m))).
    Proof.
      intros (W & D & Nn & HK) Hi H1 H2. unfold setsl. rewrite HK, pyidx_nat by auto. rewrite D, Nn, assign_shape_same by auto.
      cbn [rbind]. unfold setslice. now rewrite D, Nn, HK.
    Qed.

    (** one iteration, computed *)
    Lemma ctl_step c i tt s : okc c -> 1 <= i < kF ->
      ctl_body E o f g y1 reps c (i, tt) s =
      match calculate_u E o (mT (slice (ct_F c) (i-1))) (Z.of_nat i) s with
      | (Err e, s1) => (Err e, s1)
      | (Ok u, s1) =>
          match call1 f (slice (ct_F c) (i-1)), call1 f (slice (ct_n c) (i-1)) with
          | Ok fx, Ok fy =>
              let (n1, s2) := x_normal E s1 (nsqrt nmilli) dim reps in
              let (n2, s3) := x_normal E s2 (nsqrt nmilli) dim reps in
              (Ok {| ct_F := setslice (ct_F c) i (next_F (slice (ct_F c) (i-1)) fx u n1);
                     ct_u := setslice (ct_u c) i (mk dim reps (get u));
                     ct_n := setslice (ct_n c) i (next_n (slice (ct_n c) (i-1)) fy n2) |}, s3)
          | _, _ => (Err TypeError, s1)
          end
      end.
    Proof.
      intros (HF & HU & HN) Hi. unfold ctl_body. destruct (Nat.eqb_spec i 0); [lia|]. unfold bind, lift, ret. fold dim.
      replace (Z.of_nat i - 1)%Z with (Z.of_nat (i-1)) by lia.
      destruct (sh_slice _ _ _ _ (i-1) HF ltac:(lia)) as (_ & R & C). destruct (sh_slice _ _ _ _ (i-1) HN ltac:(lia)) as (_ & R' & C').
      rewrite getsl_nat by (destruct HF as (_ & _ & _ & ->); lia).
      destruct (calculate_u E o (mT (slice (ct_F c) (i-1))) (Z.of_nat i) s) as [[u|e] s1] eqn:Hu; [|reflexivity].
      destruct (calculate_u_shape _ _ _ _ _ _ _ _ _ Hc Hu) as (Ru & Cu). cbn [mT mk mr mc] in Ru, Cu. rewrite R in Ru. rewrite C in Cu.
      destruct (Hf _ R C) as (fx & Hx & Rx & Cx). destruct (Hf _ R' C') as (fy & Hy & Ry & Cy). rewrite Hx, Hy.
      rewrite (setsl_mk (ct_u c) k i u) by (auto; lia). rewrite (ctl_drift_eq _ fx) by auto.
      rewrite (bc2_same nadd _ (smul (nmul dt (nsq g)) u) dim reps) by auto.
      unfold normal. destruct (x_normal E s1 (nsqrt dt) dim reps) as [n1 s2] eqn:H1. unfold dt in H1. rewrite H1.
      rewrite (bc2_same nadd _ (smul g _) dim reps) by auto. cbn [rbind].
      rewrite (setsl_mk (ct_F c) kF i) by (auto; lia).
      rewrite getsl_nat by (destruct HN as (_ & _ & _ & ->); lia). rewrite (ctl_drift_eq _ fy) by auto.
      destruct (x_normal E s2 (nsqrt dt) dim reps) as [n2 s3] eqn:H2. unfold dt in H2. rewrite H2.
      rewrite (bc2_same nadd _ (smul g _) dim reps) by auto. cbn [rbind]. rewrite (setsl_mk (ct_n c) kF i) by (auto; lia).
      f_equal. f_equal. f_equal; f_equal; apply mk_ext; intros d r Hd Hr; unfold smul; repeat (rewrite ?get_mk, ?get_mmap1 by (cbn; lia)); reflexivity.
    Qed.

    Lemma ctl_start c tt s : okc c -> 0 < kF ->
      ctl_body E o f g y1 reps c (0, tt) s =
      (Ok {| ct_F := setslice (ct_F c) 0 (mk dim reps (fun d _ => nth d y1 nzero)); ct_u := ct_u c;
             ct_n := setslice (ct_n c) 0 (mk dim reps (fun d _ => nth d y1 nzero)) |}, s).
    Proof.
      intros (HF & HU & HN) Hk. unfold ctl_body. cbn [Nat.eqb]. unfold lift. fold dim.
      assert (G : forall A, sh A dim reps kF -> setsl A 0 (mk dim 1 (fun d _ => nth d y1 nzero)) = Ok (setslice A 0 (mk dim reps (fun d _ => nth d y1 nzero)))).
      { intros A (W & D & Nn & K). unfold setsl. rewrite K, pyidx_0 by auto. unfold assign_shape. cbn [mk mr mc]. rewrite D, Nn, Nat.eqb_refl, orb_true_r. cbn [orb andb rbind].
        unfold setslice. rewrite D, Nn, K. f_equal. f_equal. f_equal. apply mk_ext. intros d r Hd Hr. unfold bget. cbn [mk mr mc].
        rewrite bidx_lt by auto. rewrite bidx_1. now rewrite get_mk by lia. }
      rewrite (G _ HF). cbn [rbind]. rewrite (G _ HN). reflexivity.
    Qed.

    Let P (s0 : S) (i : nat) (c : ctl T) (s : S) : Prop :=
      okc c /\ (forall t, t = 0 \/ i <= t -> t < k -> slice (ct_u c) t = mzeros dim reps) /\ (1 <= i -> all_at (ct_F c) 0 y1 /\ all_at (ct_n c) 0 y1) /\
      exists st : nat -> S, st 0 = s0 /\ st (i-1) = s /\
        forall t, 1 <= t < i -> simulated_step E o f g (ct_F c) (ct_u c) (ct_n c) t (st (t-1)) (st t).

    Lemma P_step s0 i c s tt c' s' : i < kF -> P s0 i c s -> ctl_body E o f g y1 reps c (i, tt) s = (Ok c', s') -> P s0 (Datatypes.S i) c' s'.
    Proof.
      intros Hi (Hok & Hz & Hat & st & S0 & S1 & Hst) H. pose proof Hok as (HF & HU & HN).
      destruct (Nat.eq_dec i 0) as [->|Hi0].
      - rewrite (ctl_start c tt s Hok Hi) in H. injection H as <- <-. split; [|split; [|split]].
        + split; [|split]; cbn [ct_F ct_u ct_n]; auto; apply sh_set; auto; apply wf_mk.
        + cbn [ct_u]. intros t Ht Hk. apply Hz; lia.
        + intros _. cbn [ct_F ct_n]. split; intros d n Hd Hn; unfold get3; cbn [setslice a_d a_n] in Hd, Hn;
            rewrite slice_set_same by (try apply HF; try apply HN; destruct HF as (_ & _ & _ & K1), HN as (_ & _ & _ & K2); lia);
            destruct HF as (_ & D1 & N1 & _), HN as (_ & D2 & N2 & _); rewrite get_mk by lia; reflexivity.
        + exists st. split; [auto|]. split; [exact S1|]. intros; lia.
      - rewrite (ctl_step c i tt s Hok ltac:(lia)) in H.
        destruct (calculate_u E o (mT (slice (ct_F c) (i-1))) (Z.of_nat i) s) as [[u|e] s1] eqn:Hu; [|discriminate].
        destruct (call1 f (slice (ct_F c) (i-1))) as [fx|] eqn:Hx; [|discriminate].
        destruct (call1 f (slice (ct_n c) (i-1))) as [fy|] eqn:Hy; [|discriminate].
        destruct (x_normal E s1 (nsqrt nmilli) dim reps) as [n1 s2] eqn:H1.
        destruct (x_normal E s2 (nsqrt nmilli) dim reps) as [n2 s3] eqn:H2. injection H as <- <-.
        assert (L : forall A, sh A dim reps kF -> i < a_k A) by (intros A (_ & _ & _ & K); lia).
        assert (L' : forall A, sh A dim reps k -> i < a_k A) by (intros A (_ & _ & _ & K); lia).
        assert (O' : forall A K m, sh A dim reps K -> i < K -> mr m = dim -> mc m = reps -> wf m -> sh (setslice A i m) dim reps K) by (intros; apply sh_set; auto).
        split; [|split; [|split]].
        + split; [|split]; cbn [ct_F ct_u ct_n]; apply O'; auto; try apply wf_mk; lia.
        + cbn [ct_u]. intros t Ht Hk. rewrite slice_set_other by lia. apply Hz; lia.
        + intros _. destruct (Hat ltac:(lia)) as (A1 & A2). cbn [ct_F ct_n]. split; intros d n Hd Hn; unfold get3; rewrite slice_set_other by lia; [apply A1|apply A2]; auto.
        + exists (fun t => if t =? i then s3 else st t). split; [destruct (Nat.eqb_spec 0 i); [lia|auto]|].
          split; [cbn; rewrite Nat.sub_0_r, Nat.eqb_refl; reflexivity|].
          intros t Ht. destruct (Nat.eq_dec t i) as [->|Hti].
          * rewrite Nat.eqb_refl. destruct (Nat.eqb_spec (i-1) i); [lia|]. rewrite S1.
            unfold simulated_step. cbn [ct_F ct_u ct_n setslice a_d a_n].
            destruct HF as (WF & DF & NF & KF). rewrite DF, NF. fold (setslice (ct_F c) i (next_F (slice (ct_F c) (i-1)) fx u n1)).
            exists u, n1, n2, s1, s2, fx, fy.
            change (Arr3 (a_d (ct_F c)) (a_n (ct_F c)) (a_k (ct_F c)) (upd (a_s (ct_F c)) i (next_F (slice (ct_F c) (i-1)) fx u n1))) with (setslice (ct_F c) i (next_F (slice (ct_F c) (i-1)) fx u n1)).
            change (Arr3 (a_d (ct_n c)) (a_n (ct_n c)) (a_k (ct_n c)) (upd (a_s (ct_n c)) i (next_n (slice (ct_n c) (i-1)) fy n2))) with (setslice (ct_n c) i (next_n (slice (ct_n c) (i-1)) fy n2)).
            change (Arr3 (a_d (ct_u c)) (a_n (ct_u c)) (a_k (ct_u c)) (upd (a_s (ct_u c)) i (mk dim reps (get u)))) with (setslice (ct_u c) i (mk dim reps (get u))).
            unfold get3. rewrite !(slice_set_other _ i _ (i-1)) by lia.
            do 5 (split; [assumption|]). intros d r Hd Hr.
            rewrite !slice_set_same by (try apply HU; try apply HN; try assumption; try (apply L; assumption); try (apply L'; assumption); lia).
            unfold next_F, next_n. rewrite !get_mk by lia. auto.
          * destruct (Nat.eqb_spec t i); [lia|]. destruct (Nat.eqb_spec (t-1) i); [lia|].
            destruct (Hst t ltac:(lia)) as (u' & m1 & m2 & r1 & r2 & gx & gy & Q). unfold simulated_step. cbn [ct_F ct_u ct_n].
            exists u', m1, m2, r1, r2, gx, gy. cbn [setslice a_d a_n]. unfold get3 in *.
            change (Arr3 (a_d (ct_F c)) (a_n (ct_F c)) (a_k (ct_F c)) (upd (a_s (ct_F c)) i (next_F (slice (ct_F c) (i-1)) fx u n1))) with (setslice (ct_F c) i (next_F (slice (ct_F c) (i-1)) fx u n1)).
            change (Arr3 (a_d (ct_n c)) (a_n (ct_n c)) (a_k (ct_n c)) (upd (a_s (ct_n c)) i (next_n (slice (ct_n c) (i-1)) fy n2))) with (setslice (ct_n c) i (next_n (slice (ct_n c) (i-1)) fy n2)).
            change (Arr3 (a_d (ct_u c)) (a_n (ct_u c)) (a_k (ct_u c)) (upd (a_s (ct_u c)) i (mk dim reps (get u)))) with (setslice (ct_u c) i (mk dim reps (get u))).
            rewrite !slice_set_other by lia. exact Q.
    Qed.

    (** ** C69: what the simulation computes *)
    Context (grid : list T) (Hg : List.length grid = kF).
    Let c0 := {| ct_F := zeros3 dim reps kF; ct_u := zeros3 dim reps k; ct_n := zeros3 dim reps kF |}.
    Lemma P_start s0 : P s0 0 c0 s0.
    Proof. split; [split; [|split]; apply sh_zeros|]. split; [intros; apply slice_zeros|]. split; [lia|]. exists (fun _ => s0). split; [auto|]. split; [auto|]. intros; lia. Qed.

    Lemma sim_unfold : controlled_loop E grid kF o f g y1 reps =
      mfold (ctl_body E o f g y1 reps) (map (fun i => (i, nth i grid nzero)) (seq 0 kF)) c0.
    Proof. unfold controlled_loop. destruct Hc as (_ & K & _). rewrite (enumerate_map grid nzero), Hg, K. reflexivity. Qed.

    Lemma loop_result s c s' : controlled_loop E grid kF o f g y1 reps s = (Ok c, s') -> 1 <= kF ->
      has_shape (ct_F c) dim reps kF /\ has_shape (ct_u c) dim reps k /\ has_shape (ct_n c) dim reps kF /\
      simulated_until E kF o f g y1 (ct_F c) (ct_u c) (ct_n c) s s' /\
      forall t, t = 0 \/ kF <= t -> t < k -> slice (ct_u c) t = mzeros dim reps.
    Proof.
      intros H Hk. rewrite sim_unfold in H.
      apply (mfold_seq_inv _ _ (P s)) in H; [|apply P_start|intros; eapply P_step; eauto].
      destruct H as ((HF & HU & HN) & Hz & Hat & st & S0 & S1 & Hst).
      split; [now apply sh_has_shape|]. split; [now apply sh_has_shape|]. split; [now apply sh_has_shape|].
      split; [|exact Hz]. unfold simulated_until. destruct (Hat Hk) as (A1 & A2). eauto 10.
    Qed.

    (** it runs to the end whenever calculate_u answers *)
    Lemma loop_total s : (forall gx t s0, mc gx = dim -> 1 <= t < kF -> exists u s1, calculate_u E o gx (Z.of_nat t) s0 = (Ok u, s1)) ->
      exists c s', controlled_loop E grid kF o f g y1 reps s = (Ok c, s').
    Proof.
      intros HA. rewrite sim_unfold.
      destruct (mfold_seq_total (ctl_body E o f g y1 reps) (fun i => (i, nth i grid nzero)) (P s) kF c0 s (P_start s)) as (c & s' & H & _); [|eauto].
      intros i c s1 Hi HP. enough (exists c' s', ctl_body E o f g y1 reps c (i, nth i grid nzero) s1 = (Ok c', s')) as (c' & s' & H).
      { exists c', s'. split; [auto|]. eapply P_step; eauto. }
      destruct HP as (Hok & _). destruct (Nat.eq_dec i 0) as [->|Hi0]; [rewrite (ctl_start c _ s1 Hok Hi); eauto|].
      rewrite (ctl_step c i _ s1 Hok ltac:(lia)). destruct Hok as (HF & HU & HN).
      destruct (sh_slice _ _ _ _ (i-1) HF ltac:(lia)) as (_ & R & C). destruct (sh_slice _ _ _ _ (i-1) HN ltac:(lia)) as (_ & R' & C').
      destruct (HA (mT (slice (ct_F c) (i-1))) i s1 R ltac:(lia)) as (u & s2 & ->).
      destruct (Hf _ R C) as (fx & -> & _). destruct (Hf _ R' C') as (fy & -> & _).
      destruct (x_normal E s2 _ dim reps) as [n1 s3]. destruct (x_normal E s3 _ dim reps) as [n2 s4]. eauto.
    Qed.
  End Loop.

  Section Cells.
    Context (o : obj T) (N k : nat) (f : callable T) (g : T) (y1 : list T) (reps : nat).
    Let dim := List.length y1.
    Context (Hc : consistent o dim N k) (Hf : field1 dim reps f).
    Let Hlen : List.length (o_grid o) = k.
    Proof. destruct Hc as (_ & K & _). exact K. Qed.

    Theorem C69_controlled_simulation s c s' : controlled_simulation E o f g y1 reps s = (Ok c, s') -> 1 <= k ->
      has_shape (ct_F c) dim reps k /\ has_shape (ct_u c) dim reps k /\ has_shape (ct_n c) dim reps k /\
      simulated E o f g y1 (ct_F c) (ct_u c) (ct_n c) s s'.
    Proof.
      unfold controlled_simulation, simulated. rewrite Hlen. intros H Hk.
      destruct (loop_result k o N k f g y1 reps (Nat.le_refl k) Hc Hf (o_grid o) Hlen s c s' H Hk) as (A1 & A2 & A3 & A4 & _). auto.
    Qed.

    (** the script stops one grid point earlier: state arrays of k-1 columns *)
    Theorem C69_script s c s' : controlled_simulation_script E o f g y1 reps s = (Ok c, s') -> 2 <= k ->
      has_shape (ct_F c) dim reps (k-1) /\ has_shape (ct_u c) dim reps k /\ has_shape (ct_n c) dim reps (k-1) /\
      simulated_until E (k-1) o f g y1 (ct_F c) (ct_u c) (ct_n c) s s' /\
      forall d r, d < dim -> r < reps -> get3 (ct_u c) d r (k-1) = nzero.
    Proof.
      unfold controlled_simulation_script. rewrite Hlen. intros H Hk.
      destruct (loop_result (k-1) o N k f g y1 reps ltac:(lia) Hc Hf (init (o_grid o)) ltac:(rewrite init_length; lia) s c s' H ltac:(lia)) as (A1 & A2 & A3 & A4 & A5).
      split; [auto|]. split; [auto|]. split; [auto|]. split; [auto|]. intros d r Hd Hr. unfold get3. rewrite A5 by lia. unfold mzeros, mconst. now rewrite get_mk by auto.
    Qed.

    Lemma sim_total s : (forall gx t s0, mc gx = dim -> 1 <= t < k -> exists u s1, calculate_u E o gx (Z.of_nat t) s0 = (Ok u, s1)) ->
      exists c s', controlled_simulation E o f g y1 reps s = (Ok c, s').
    Proof. intros HA. unfold controlled_simulation. rewrite Hlen. exact (loop_total k o N k f g y1 reps (Nat.le_refl k) Hc Hf (o_grid o) Hlen s HA). Qed.
    Lemma script_total s : (forall gx t s0, mc gx = dim -> 1 <= t < k - 1 -> exists u s1, calculate_u E o gx (Z.of_nat t) s0 = (Ok u, s1)) ->
      exists c s', controlled_simulation_script E o f g y1 reps s = (Ok c, s').
    Proof.
      intros HA. unfold controlled_simulation_script. rewrite Hlen.
      exact (loop_total (k-1) o N k f g y1 reps ltac:(lia) Hc Hf (init (o_grid o)) ltac:(rewrite init_length; lia) s HA).
    Qed.
  End Cells.

End Controlled.

Section Alone.
  Context {T S : Type} {O : NumOps T} (E : Ext T S).
  Local Notation mat := (mat T). Local Notation arr3 := (arr3 T).

  (** two runs of a loop in step *)
  Lemma mfold_two {A B B'} (f1 : B -> A -> M S B) (f2 : B' -> A -> M S B') (g : nat -> A) (R : nat -> B -> B' -> Prop) n b b' s c s' :
    R 0 b b' -> (forall i x x' s y s', i < n -> R i x x' -> f1 x (g i) s = (Ok y, s') -> exists y', f2 x' (g i) s = (Ok y', s') /\ R (Datatypes.S i) y y') ->
    mfold f1 (map g (seq 0 n)) b s = (Ok c, s') -> exists c', mfold f2 (map g (seq 0 n)) b' s = (Ok c', s') /\ R n c c'.
  Proof.
    intros H0 Hs. revert c s'. induction n; intros c s' H.
    - simpl in *. invok. eexists. split; [reflexivity|]. auto.
    - rewrite seq_S, map_app in *. rewrite mfold_app in H. rewrite mfold_app. simpl in *. apply bind_ok in H. destruct H as (y & s1 & H1 & H2).
      destruct (IHn (fun i x x' s y s' Hi => Hs i x x' s y s' (Nat.lt_lt_succ_r _ _ Hi)) _ _ H1) as (y' & Y1 & Y2). unfold bind at 1. rewrite Y1.
      apply bind_ok in H2. destruct H2 as (z & s2 & H2 & H3). destruct (Hs n y y' s1 z s2 ltac:(lia) Y2 H2) as (z' & Z1 & Z2).
      unfold bind. rewrite Z1. apply ret_ok in H3. destruct H3 as (-> & ->). exists z'. split; [reflexivity|auto].
  Qed.

  (** ** trajectories do not interact: trajectory r of an ensemble is the only trajectory of the simulation that sees column r of the noise *)
  Theorem C69_no_interaction o N k f g y1 reps r s c s' : let dim := List.length y1 in
    consistent o dim N k -> field1 dim reps f -> field1 dim 1 f -> r < reps -> columnwise dim reps r f ->
    controlled_simulation E o f g y1 reps s = (Ok c, s') ->
    exists c1, controlled_simulation (alone E reps r) o f g y1 1 s = (Ok c1, s') /\
      forall d t, d < dim -> t < k -> get3 (ct_F c1) d 0 t = get3 (ct_F c) d r t /\ get3 (ct_u c1) d 0 t = get3 (ct_u c) d r t /\
                                      get3 (ct_n c1) d 0 t = get3 (ct_n c) d r t.
  Proof.
    intros dim Hc Hf Hf1 Hr Hcol H. assert (Hlen : List.length (o_grid o) = k) by (destruct Hc as (_ & K & _); exact K).
    unfold controlled_simulation in H. rewrite Hlen in H. rewrite (sim_unfold E k o N k f g y1 reps Hc (o_grid o) Hlen) in H. fold dim in H.
    assert (exists A, forward_of o A) as (A0 & HA0).
    { unfold forward_of. destruct (p_reweight (o_par o) && p_brown (o_par o)) eqn:Hb; [|eauto]. destruct Hc as (_ & _ & _ & _ & Hz). destruct (Hz Hb) as (Zt & -> & _). eauto. }
    pose (sel := fun A A1 : arr3 => sh A dim reps k /\ sh A1 dim 1 k /\ forall t, t < k -> slice A1 t = mk dim 1 (fun d _ => get (slice A t) d r)).
    pose (Rel := fun (_ : nat) (c c1 : ctl T) => sel (ct_F c) (ct_F c1) /\ sel (ct_u c) (ct_u c1) /\ sel (ct_n c) (ct_n c1)).
    assert (Z : sel (zeros3 dim reps k) (zeros3 dim 1 k)).
    { split; [apply sh_zeros|]. split; [apply sh_zeros|]. intros t Ht. rewrite !slice_zeros. unfold mzeros, mconst. apply mk_ext. intros. now rewrite get_mk. }
    assert (U : forall A A1 i m m1, sel A A1 -> i < k -> wf m -> mr m = dim -> mc m = reps -> m1 = mk dim 1 (fun d _ => get m d r) -> sel (setslice A i m) (setslice A1 i m1)).
    { intros A A1 i m m1 (Q1 & Q2 & Q3) Hi W M1 M2 ->. split; [apply sh_set; auto|]. split; [apply sh_set; auto; apply wf_mk|].
      intros t Ht. destruct (Nat.eq_dec t i) as [->|]; [|rewrite !slice_set_other by auto; auto].
      rewrite !slice_set_same by (try apply Q1; try apply Q2; destruct Q1 as (_ & _ & _ & K1), Q2 as (_ & _ & _ & K2); lia). reflexivity. }
    apply (mfold_two _ (ctl_body (alone E reps r) o f g y1 1) _ Rel _ _ {| ct_F := zeros3 dim 1 k; ct_u := zeros3 dim 1 k; ct_n := zeros3 dim 1 k |}) in H.
    - destruct H as (c1 & H & (QF & QU & QN)). exists c1. split.
      + unfold controlled_simulation, controlled_loop. rewrite (enumerate_map (o_grid o) nzero), Hlen. exact H.
      + intros d t Hd Ht. unfold get3. destruct QF as (_ & _ & QF), QU as (_ & _ & QU), QN as (_ & _ & QN). rewrite QF, QU, QN by auto. now rewrite !get_mk by lia.
    - split; [|split]; exact Z.
    - intros i x x1 s0 y s0' Hi (QF & QU & QN) Hb.
      assert (Ok1 : sh (ct_F x) dim reps k /\ sh (ct_u x) dim reps k /\ sh (ct_n x) dim reps k) by (split; [apply QF|split; [apply QU|apply QN]]).
      assert (Ok2 : sh (ct_F x1) dim 1 k /\ sh (ct_u x1) dim 1 k /\ sh (ct_n x1) dim 1 k) by (split; [apply QF|split; [apply QU|apply QN]]).
      destruct (Nat.eq_dec i 0) as [->|Hi0].
      + rewrite (ctl_start E k o k f g y1 reps (Nat.le_refl k) x _ s0 Ok1 Hi) in Hb. injection Hb as <- <-.
        assert (E1 := ctl_start (alone E reps r)). specialize (E1 k o k f g y1 1 (Nat.le_refl k) x1 (nth 0 (o_grid o) nzero) s0 Ok2 Hi).
        eexists. split; [exact E1|]. split; [|split]; cbn [ct_F ct_u ct_n]; auto; apply U; auto; try apply wf_mk; fold dim; apply mk_ext; intros; now rewrite get_mk by lia.
      + rewrite (ctl_step E k o N k f g y1 reps (Nat.le_refl k) Hc Hf x i _ s0 Ok1 ltac:(lia)) in Hb.
        assert (Hr' : r < mr (mT (slice (ct_F x) (i-1)))) by (destruct QF as (F1 & _); destruct (sh_slice _ _ _ _ (i-1) F1 ltac:(lia)) as (_ & _ & C); cbn; lia).
        assert (E1 := ctl_step (alone E reps r) k o N k f g y1 1 (Nat.le_refl k) Hc Hf1 x1 i (nth i (o_grid o) nzero) s0 Ok2 ltac:(lia)).
        destruct QF as (F1 & F2 & F3), QN as (N1 & N2 & N3). destruct (sh_slice _ _ _ _ (i-1) F1 ltac:(lia)) as (_ & R & C). destruct (sh_slice _ _ _ _ (i-1) N1 ltac:(lia)) as (_ & R' & C').
        destruct (calculate_u E o (mT (slice (ct_F x) (i-1))) (Z.of_nat i) s0) as [[u|e] s1] eqn:Hu; [|discriminate].
        destruct (call1 f (slice (ct_F x) (i-1))) as [fx|] eqn:Hx; [|discriminate].
        destruct (call1 f (slice (ct_n x) (i-1))) as [fy|] eqn:Hy; [|discriminate].
        destruct (Hcol _ _ R C Hx) as (zx & X1 & X2 & X3 & X4). destruct (Hcol _ _ R' C' Hy) as (zy & Y1 & Y2 & Y3 & Y4).
        destruct (C24_pointwise E o dim N k Hc A0 HA0 (mT (slice (ct_F x) (i-1))) (Z.of_nat i) s0 u s1 r Hu) as (v & V1 & V2 & V3 & V4).
        { exact Hr'. }
        assert (P1 : mT (slice (ct_F x1) (i-1)) = point (mT (slice (ct_F x) (i-1))) r).
        { rewrite F3 by lia. rewrite mT_mk. unfold point. cbn [mT mk mc]. rewrite R. apply mk_ext. intros a b _ Hb'. now rewrite get_mT by lia. }
        rewrite P1 in E1. change (calculate_u (alone E reps r)) with (calculate_u E) in E1. rewrite V1 in E1.
        rewrite F3, N3 in E1 by lia. rewrite X1, Y1 in E1. cbn [alone x_normal] in E1. fold dim in E1, Hb.
        destruct (x_normal E s1 (nsqrt nmilli) dim reps) as [n1 s2]. destruct (x_normal E s2 (nsqrt nmilli) dim reps) as [n2 s3].
        injection Hb as <- <-. eexists. split; [exact E1|]. cbn [mT mk mc] in V4. rewrite R in V4.
        split; [|split]; cbn [ct_F ct_u ct_n]; apply U; auto; try apply wf_mk; try (split; [assumption|split; assumption]);
          unfold next_F, next_n; fold dim; apply mk_ext; intros a b Ha Hb'; assert (b = 0) as -> by lia; rewrite !get_mk by lia; rewrite ?V4, ?X4, ?Y4 by auto; reflexivity.
  Qed.

  (** the script's states are those of the notebook's cell at all grid points but the last *)
  Theorem C69_script_prefix o N k f g y1 reps s c s' : let dim := List.length y1 in
    consistent o dim N k -> field1 dim reps f -> 1 <= k -> controlled_simulation E o f g y1 reps s = (Ok c, s') ->
    exists c1 s1, controlled_simulation_script E o f g y1 reps s = (Ok c1, s1) /\
      forall d r t, d < dim -> r < reps -> t < k - 1 -> get3 (ct_F c1) d r t = get3 (ct_F c) d r t /\ get3 (ct_u c1) d r t = get3 (ct_u c) d r t /\
                                      get3 (ct_n c1) d r t = get3 (ct_n c) d r t.
  Proof.
    intros dim Hc Hf Hk H. assert (Hlen : List.length (o_grid o) = k) by (destruct Hc as (_ & K & _); exact K).
    unfold controlled_simulation, controlled_simulation_script in *. rewrite Hlen in *.
    rewrite (sim_unfold E k o N k f g y1 reps Hc (o_grid o) Hlen) in H.
    rewrite (sim_unfold E (k-1) o N k f g y1 reps Hc (init (o_grid o)) ltac:(rewrite init_length; lia)). fold dim in H |- *.
    destruct k as [|k']; [lia|]. rewrite Nat.sub_succ, Nat.sub_0_r. rewrite seq_S, map_app, mfold_app in H. cbn [map mfold Nat.add] in H.
    apply bind_ok in H. destruct H as (c2 & s2 & H & Hl). apply bind_ok in Hl. destruct Hl as (c3 & s3 & Hl & Hr). apply ret_ok in Hr. destruct Hr as (-> & ->).
    pose (K := Datatypes.S k').
    pose (eqs := fun (A A1 : arr3) => forall t, t < k' -> slice A1 t = slice A t).
    pose (Rel := fun (_ : nat) (c c1 : ctl T) => (sh (ct_F c) dim reps K /\ sh (ct_u c) dim reps K /\ sh (ct_n c) dim reps K) /\
       (sh (ct_F c1) dim reps k' /\ sh (ct_u c1) dim reps K /\ sh (ct_n c1) dim reps k') /\
       eqs (ct_F c) (ct_F c1) /\ eqs (ct_u c) (ct_u c1) /\ eqs (ct_n c) (ct_n c1)).
    assert (EQ : forall A A1 i m d n k1 k2, eqs A A1 -> sh A d n k1 -> sh A1 d n k2 -> i < k1 -> i < k2 -> eqs (setslice A i m) (setslice A1 i m)).
    { intros A A1 i m d n k1 k2 Q S1 S2 L1 L2 t Ht. destruct (Nat.eq_dec t i) as [->|]; [|rewrite !slice_set_other by auto; auto].
      rewrite !slice_set_same by (try apply S1; try apply S2; destruct S1 as (_ & _ & _ & K1), S2 as (_ & _ & _ & K2); lia). reflexivity. }
    apply (mfold_two _ (ctl_body E o f g y1 reps) _ Rel _ _ {| ct_F := zeros3 dim reps k'; ct_u := zeros3 dim reps K; ct_n := zeros3 dim reps k' |}) in H.
    - destruct H as (c1 & H & (O2 & _ & QF & QU & QN)). exists c1, s2. split.
      + rewrite <- H. f_equal. apply map_ext_in. intros i Hi. apply in_seq in Hi. unfold init. now rewrite removelast_nth by lia.
      + intros d r t Hd Hr Ht. unfold get3. rewrite QF, QU, QN by auto.
        rewrite (ctl_step E K o N K f g y1 reps (Nat.le_refl K) Hc Hf c2 k' _ s2 O2 ltac:(unfold K; lia)) in Hl.
        destruct (calculate_u E o _ _ s2) as [[u|] s4]; [|discriminate]. destruct (call1 f _) as [fx|]; [|discriminate]. destruct (call1 f _) as [fy|]; [|discriminate].
        destruct (x_normal E s4 _ _ _) as [n1 s5]. destruct (x_normal E s5 _ _ _) as [n2 s6]. injection Hl as <- <-. cbn [ct_F ct_u ct_n].
        rewrite !slice_set_other by lia. auto.
    - split; [split; [|split]; apply sh_zeros|]. split; [split; [|split]; apply sh_zeros|].
      split; [|split]; intros t Ht; cbn [ct_F ct_u ct_n]; rewrite !slice_zeros; reflexivity.
    - intros i x x1 s0 y s0' Hi (O1 & O2 & QF & QU & QN) Hb. destruct (Nat.eq_dec i 0) as [->|Hi0].
      + rewrite (ctl_start E K o K f g y1 reps (Nat.le_refl K) x _ s0 O1 ltac:(unfold K; lia)) in Hb. injection Hb as <- <-.
        rewrite (ctl_start E k' o K f g y1 reps ltac:(unfold K; lia) x1 _ s0 O2 Hi). eexists. split; [reflexivity|].
        destruct O1 as (F1 & U1 & N1), O2 as (F2 & U2 & N2). unfold Rel. cbn [ct_F ct_u ct_n].
        split; [split; [|split]|split; [split; [|split]|split; [|split]]]; auto; try (apply sh_set; auto; try apply wf_mk; unfold K; lia);
          eapply EQ; eauto; unfold K; lia.
      + rewrite (ctl_step E K o N K f g y1 reps (Nat.le_refl K) Hc Hf x i _ s0 O1 ltac:(unfold K; lia)) in Hb.
        rewrite (ctl_step E k' o N K f g y1 reps ltac:(unfold K; lia) Hc Hf x1 i _ s0 O2 ltac:(lia)).
        rewrite QF, QN by lia. destruct (calculate_u E o _ _ s0) as [[u|] s4]; [|discriminate].
        destruct (call1 f _) as [fx|]; [|discriminate]. destruct (call1 f _) as [fy|]; [|discriminate].
        destruct (x_normal E s4 _ _ _) as [n1 s5]. destruct (x_normal E s5 _ _ _) as [n2 s6]. injection Hb as <- <-. eexists. split; [reflexivity|].
        destruct O1 as (F1 & U1 & N1), O2 as (F2 & U2 & N2). unfold Rel. cbn [ct_F ct_u ct_n].
        split; [split; [|split]|split; [split; [|split]|split; [|split]]]; auto; try (apply sh_set; auto; try apply wf_mk; unfold K; lia);
          eapply EQ; eauto; unfold K; lia.
  Qed.
End Alone.
