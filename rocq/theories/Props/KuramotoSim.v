(** C73: the controlled and uncontrolled simulation of the Kuramoto example. *)
From Coq Require Import String List ZArith Lia Bool.
From Verif Require Import Base.Num Base.Py Base.Arr Lib.ArrLemmas Model.Ext Model.Cdist Model.Score Model.DPFC Model.Kuramoto.
From Verif Require Import Spec.FlowSpec Spec.KuramotoSpec Lib.FlowLemmas Lib.StepLemmas Lib.StochLemmas Lib.RunLemmas Lib.KuramotoLemmas Props.Kuramoto.
Import ListNotations.

Section Sim.
  Context {T S : Type} {O : NumOps T} (E : Ext T S) (wrap : T -> T).
  Context (o : kobj T) (K : T) (ws : list T) (g h : T) (y0 : list T) (reps k : nat).
  Let p := ko_par o.
  Let dim := List.length y0.
  Let n := List.length (ko_grid o).
  Context (Hdim : List.length (k_y1 p) = dim) (HZ : sh (ko_Z o) dim (k_N p) k) (HB : sh (ko_B o) dim (k_N p) k) (Hnk : n <= k).

  Record shs (c : ksim T) : Prop := { sh1 : sh (ks_F c) dim reps n; sh2 : sh (ks_n c) dim reps n; sh3 : sh (ks_u c) dim reps n;
    sh4 : mr (ks_RF c) = n /\ mc (ks_RF c) = reps /\ mr (ks_Rn c) = n /\ mc (ks_Rn c) = reps }.
  (** repetition r at time t *)
  Definition st (A : arr3 T) (t r : nat) : list T := col (slice A t) r.
  Definition cell (c : ksim T) (t r : nat) := (st (ks_F c) t r, st (ks_n c) t r, st (ks_u c) t r, get (ks_RF c) t r, get (ks_Rn c) t r).

  Lemma st_set (A A' : arr3 T) t r v : sh A dim reps n -> setcol3 A (Z.of_nat r) (Z.of_nat t) (vec v) = Ok A' -> List.length v = dim ->
    r < reps /\ t < n /\ sh A' dim reps n /\ st A' t r = v /\ forall t' r', r' < reps -> t' < n -> (t' <> t \/ r' <> r) -> st A' t' r' = st A t' r'.
  Proof.
    intros HA H Lv. destruct (setcol3_ok _ _ _ _ _ _ _ _ HA H) as (Hr & Ht & HA' & F & Hg & Hf). split; [auto|]. split; [auto|]. split; [auto|].
    destruct (sh_slice _ _ _ _ t HA' Ht) as (_ & R' & C'). destruct (sh_slice _ _ _ _ t HA Ht) as (_ & R & C). split.
    - unfold st. apply (nth_ext _ _ nzero nzero); rewrite col_length; [congruence|]. intros d Hd. rewrite nth_col by auto. rewrite Hg by lia. rewrite Nat.eqb_refl.
      rewrite bget_in by (cbn; lia). unfold vec. rewrite get_mk by lia. reflexivity.
    - intros t' r' Hr' Ht' Hne. destruct (Nat.eq_dec t' t) as [->|Hd]; [|unfold st; now rewrite Hf by auto].
      unfold st. apply (nth_ext _ _ nzero nzero); rewrite !col_length; [congruence|]. intros d Hd. rewrite !nth_col by lia. rewrite Hg by lia.
      destruct (Nat.eqb_spec r' r); [lia|reflexivity].
  Qed.
  Lemma entry_set (A A' : mat T) t r v : setentry A t r v = Ok A' -> mr A' = mr A /\ mc A' = mc A /\
    (t < mr A /\ r < mc A) /\ get A' t r = v /\ forall a b, a < mr A -> b < mc A -> (a <> t \/ b <> r) -> get A' a b = get A a b.
  Proof.
    unfold setentry. destruct (Nat.ltb_spec t (mr A)); [|discriminate]. destruct (Nat.ltb_spec r (mc A)); [|discriminate]. cbn [andb]. intro Q. injection Q as <-.
    cbn [mr mc mk]. repeat split; auto.
    - rewrite get_mk by auto. now rewrite !Nat.eqb_refl.
    - intros a b Ha Hb Hne. rewrite get_mk by auto. destruct (Nat.eqb_spec a t), (Nat.eqb_spec b r); cbn; auto. lia.
  Qed.

  Definition drift (x : list T) : list T := kur_point K ws x.
  (** what the step to time t in repetition r does *)
  Definition step_ok (c : ksim T) (r t : nat) (s s' : S) : Prop :=
    phase_sim_step E wrap (k_kern p) (k_M p) drift g h (slice (ko_Z o) t) (slice (ko_B o) t)
      (st (ks_F c) (t-1) r) (st (ks_F c) t r) (st (ks_n c) (t-1) r) (st (ks_n c) t r) (st (ks_u c) t r) s s' /\
    get (ks_RF c) t r = kur_R dim (st (ks_F c) t r) /\ get (ks_Rn c) t r = kur_R dim (st (ks_n c) t r).

  Lemma st_length (A : arr3 T) t r : sh A dim reps n -> t < n -> List.length (st A t r) = dim.
  Proof. intros HA Ht. unfold st. rewrite col_length. apply (sh_slice _ _ _ _ t HA Ht). Qed.
  Lemma getcol_ok (A : arr3 T) t r v : sh A dim reps n -> t < n -> getcol3 A (Z.of_nat t) r = Ok v -> v = st A t r.
  Proof.
    intros HA Ht H. unfold getcol3 in H. rewrite getsl_nat in H by (destruct HA as (_ & _ & _ & ->); lia). cbn [rbind] in H. now injection H as <-.
  Qed.

  Lemma body0 c c' r t s s' : shs c -> k_sim_body E wrap o K ws g h y0 r c (0, t) s = (Ok c', s') -> r < reps ->
    s' = s /\ shs c' /\ 0 < n /\ st (ks_F c') 0 r = y0 /\ st (ks_n c') 0 r = y0 /\ ks_u c' = ks_u c /\ ks_RF c' = ks_RF c /\ ks_Rn c' = ks_Rn c /\
    forall t' r', r' < reps -> t' < n -> (t' <> 0 \/ r' <> r) -> cell c' t' r' = cell c t' r'.
  Proof.
    intros [S1 S2 S3 S4] H Hr. unfold k_sim_body in H. cbn [Nat.eqb] in H. apply lift_ok in H. destruct H as (H & ->). change 0%Z with (Z.of_nat 0) in H.
    apply rbind_ok in H. destruct H as (F & HF & H). apply rbind_ok in H. destruct H as (Fn & HFn & H). injection H as <-.
    apply st_set in HF; auto. destruct HF as (_ & Hn & SF & E1 & F1). apply st_set in HFn; auto. destruct HFn as (_ & _ & SFn & E2 & F2).
    split; [auto|]. split; [constructor; auto|]. split; [auto|]. cbn [ks_F ks_n ks_u ks_RF ks_Rn]. repeat (split; [auto; fail|]).
    intros t' r' Hr' Ht' Hne. unfold cell. cbn [ks_F ks_n ks_u ks_RF ks_Rn]. now rewrite F1, F2 by auto.
  Qed.

  Lemma bodyS c c' r i t s s' : shs c -> 1 <= i -> i + 1 < n -> k_sim_body E wrap o K ws g h y0 r c (i, t) s = (Ok c', s') -> r < reps ->
    shs c' /\ step_ok c' r i s s' /\ forall t' r', r' < reps -> t' < n -> (t' <> i \/ r' <> r) -> cell c' t' r' = cell c t' r'.
  Proof.
    intros [S1 S2 S3 S4] Hi1 Hi H Hr. unfold k_sim_body in H. destruct (Nat.eqb_spec i 0); [lia|]. cbv zeta in H. fold n in H. destruct (Nat.eqb_spec i (n - 1)); [lia|].
    replace (Z.of_nat i - 1)%Z with (Z.of_nat (i-1)) in H by lia. fold dim in H.
    apply bind_ok in H. destruct H as (x & sx & Hx & H). apply lift_ok in Hx. destruct Hx as (Hx & ->). apply getcol_ok in Hx; auto; [|lia].
    apply bind_ok in H. destruct H as (uu & s1 & Hu & H).
    apply bind_ok in H. destruct H as (us & q1 & Hus & H). apply lift_ok in Hus. destruct Hus as (Hus & ->).
    apply bind_ok in H. destruct H as (fx & q2 & Hfx & H). apply lift_ok in Hfx. destruct Hfx as (Hfx & ->).
    apply bind_ok in H. destruct H as (no & s2 & Hno & H). apply normal_ok in Hno. destruct Hno as (W & HW & ->).
    apply bind_ok in H. destruct H as (F & q3 & HF & H). apply lift_ok in HF. destruct HF as (HF & ->).
    apply bind_ok in H. destruct H as (xn & q4 & Hxn & H). apply lift_ok in Hxn. destruct Hxn as (Hxn & ->). apply getcol_ok in Hxn; auto; [|lia].
    apply bind_ok in H. destruct H as (fxn & q5 & Hfxn & H). apply lift_ok in Hfxn. destruct Hfxn as (Hfxn & ->).
    apply bind_ok in H. destruct H as (no' & s3 & Hno & H). apply normal_ok in Hno. destruct Hno as (W' & HW' & ->).
    apply bind_ok in H. destruct H as (Fn & q6 & HFn & H). apply lift_ok in HFn. destruct HFn as (HFn & ->).
    apply bind_ok in H. destruct H as (RF & q7 & HRF & H). apply lift_ok in HRF. destruct HRF as (HRF & ->).
    apply bind_ok in H. destruct H as (Rn & q8 & HRn & H). apply lift_ok in HRn. destruct HRn as (HRn & ->).
    apply ret_ok in H. destruct H as (-> & ->).
    assert (Lx : List.length x = dim) by (subst x; apply st_length; auto; lia).
    pose proof (C73_control E o (mk dim 1 (fun d _ => nth d x nzero)) i k s uu s1) as HC. cbv zeta in HC. fold p in HC. rewrite Hdim in HC. specialize (HC HZ HB ltac:(lia) Hu).
    assert (Ru : mr uu = dim). { destruct HC as (bnds & rows & fb & fz & Gb & Gz & _ & _ & _ & _ & _ & _ & _ & Q & _). rewrite Q. apply (sh_slice _ _ _ _ i HB ltac:(lia)). }
    apply st_set in Hus; auto; [|now rewrite col_length]. destruct Hus as (_ & _ & SU & EU & FU).
    apply st_set in HF; auto; [|now rewrite map_length, seq_length]. destruct HF as (_ & _ & SF & EF & FF).
    apply st_set in HFn; auto; [|now rewrite map_length, seq_length]. destruct HFn as (_ & _ & SFn & EFn & FFn).
    apply entry_set in HRF. destruct HRF as (R1 & R2 & R3 & R4 & R5). apply entry_set in HRn. destruct HRn as (R6 & R7 & R8 & R9 & R10).
    assert (Hfd : forall v fv, kur_f1 K ws v = Ok fv -> fv = drift v). { intros v fv Q. unfold kur_f1 in Q. destruct (_ =? _); [|discriminate]. now injection Q as <-. }
    apply Hfd in Hfx. apply Hfd in Hfxn. destruct S4 as (M1 & M2 & M3 & M4).
    split. { constructor; cbn; auto. lia. }
    split.
    - unfold step_ok. cbn [ks_F ks_n ks_u ks_RF ks_Rn]. split; [|rewrite EF, EFn; auto].
      rewrite EF, EFn, EU. rewrite FF, FFn by (auto; lia). rewrite <- Hx, <- Hxn.
      unfold phase_sim_step. rewrite Lx. exists uu, s1, W, s2, W'. split; [exact HC|]. split; [exact HW|]. split; [exact HW'|].
      split; [now rewrite map_length, seq_length|]. split; [now rewrite map_length, seq_length|]. split; [now rewrite col_length|].
      intros d Hd. rewrite nth_col by lia. split; [reflexivity|]. rewrite !nth_map_seq by auto. rewrite !get_mk by lia. subst fx fxn. auto.
    - intros t' r' Hr' Ht' Hne. unfold cell. cbn [ks_F ks_n ks_u ks_RF ks_Rn]. rewrite FF, FFn, FU by auto. rewrite R5, R10 by (auto; lia). reflexivity.
  Qed.

  (** one repetition *)
  Lemma rep_ok c c' r s s' : shs c -> r < reps -> mfold (k_sim_body E wrap o K ws g h y0 r) (enumerate (init (ko_grid o))) c s = (Ok c', s') ->
    shs c' /\ (forall t' r', r' < reps -> t' < n -> (r' <> r \/ n - 1 <= t') -> cell c' t' r' = cell c t' r') /\
    (2 <= n -> st (ks_F c') 0 r = y0 /\ st (ks_n c') 0 r = y0 /\ st (ks_u c') 0 r = st (ks_u c) 0 r /\ get (ks_RF c') 0 r = get (ks_RF c) 0 r /\ get (ks_Rn c') 0 r = get (ks_Rn c) 0 r) /\
    exists sg, sg 1 = s /\ sg (max 1 (n - 1)) = s' /\ forall t, 1 <= t -> t + 1 < n -> step_ok c' r t (sg t) (sg (t + 1)).
  Proof.
    intros HS Hr H. rewrite (enumerate_map _ nzero) in H. rewrite init_length in H. fold n in H.
    apply (mfold_seq_inv _ _ (fun i c' s' => shs c' /\ (forall t' r', r' < reps -> t' < n -> (r' <> r \/ i <= t') -> cell c' t' r' = cell c t' r') /\
      (1 <= i -> st (ks_F c') 0 r = y0 /\ st (ks_n c') 0 r = y0 /\ st (ks_u c') 0 r = st (ks_u c) 0 r /\ get (ks_RF c') 0 r = get (ks_RF c) 0 r /\ get (ks_Rn c') 0 r = get (ks_Rn c) 0 r) /\
      exists sg, sg 1 = s /\ sg (max 1 i) = s' /\ forall t, 1 <= t -> t < i -> step_ok c' r t (sg t) (sg (t + 1)))) in H.
    - destruct H as (H1 & H2 & H3 & sg & H4 & H5 & H6). split; [auto|]. split; [auto|]. split; [intro; apply H3; lia|]. exists sg. split; [auto|]. split; [auto|]. intros; apply H6; lia.
    - split; [auto|]. split; [auto|]. split; [lia|]. exists (fun _ => s). repeat split; auto; intros; lia.
    - intros i c1 s1 c2 s2 Hi (H1 & H2 & H3 & sg & H4 & H5 & H6) Hbd. destruct (Nat.eq_dec i 0) as [->|H0].
      + apply body0 in Hbd; auto. destruct Hbd as (-> & B1 & B2 & B3 & B4 & B5 & B6 & B7 & B8). split; [auto|].
        assert (C0 : cell c1 0 r = cell c 0 r) by (apply H2; auto; lia). unfold cell in C0. injection C0 as C1 C2 C3 C4 C5.
        split; [intros t' r' Hr' Ht' Hne; rewrite B8 by (auto; lia); apply H2; auto; lia|].
        split; [intros _; rewrite B5, B6, B7; auto|]. exists sg. split; [auto|]. split; [auto|]. intros; lia.
      + apply bodyS in Hbd; auto; try lia. destruct Hbd as (B1 & B2 & B3). split; [auto|].
        split; [intros t' r' Hr' Ht' Hne; rewrite B3 by (auto; lia); apply H2; auto; lia|].
        split. { intros _. assert (C0 : cell c2 0 r = cell c1 0 r) by (apply B3; auto; lia). unfold cell in C0. injection C0 as -> -> -> -> ->. apply H3. lia. }
        exists (fun t => if t =? i + 1 then s2 else sg t).
        split. { destruct (Nat.eqb_spec 1 (i+1)); [lia|auto]. } split. { replace (max 1 (Datatypes.S i)) with (i+1) by lia. now rewrite Nat.eqb_refl. }
        intros t Ht1 Ht. destruct (Nat.eqb_spec t (i+1)); [lia|]. destruct (Nat.eq_dec t i) as [->|Hti].
        * rewrite Nat.eqb_refl. replace (max 1 i) with i in H5 by lia. rewrite H5. exact B2.
        * destruct (Nat.eqb_spec (t+1) (i+1)); [lia|]. specialize (H6 t Ht1 ltac:(lia)). unfold step_ok in *.
          assert (Ca : cell c2 t r = cell c1 t r) by (apply B3; auto; lia). assert (Cb : cell c2 (t-1) r = cell c1 (t-1) r) by (apply B3; auto; lia).
          unfold cell in Ca, Cb. injection Ca as -> -> -> -> ->. injection Cb as -> -> _ _ _. exact H6.
  Qed.

  (** the whole script: repetitions one after the other, each starting from y0; the last grid point is never written *)
  Theorem C73_simulation s c s' : k_simulation E wrap o K ws g h y0 (ko_grid o) reps s = (Ok c, s') -> 2 <= n ->
    sh (ks_F c) dim reps n /\ sh (ks_n c) dim reps n /\ sh (ks_u c) dim reps n /\
    exists sg, sg 0 1 = s /\ (1 <= reps -> sg (reps - 1) (n - 1) = s') /\
    forall r, r < reps ->
      (r + 1 < reps -> sg (r + 1) 1 = sg r (n - 1)) /\
      st (ks_F c) 0 r = y0 /\ st (ks_n c) 0 r = y0 /\
      (forall t, 1 <= t -> t + 1 < n ->
         phase_sim_step E wrap (k_kern p) (k_M p) drift g h (slice (ko_Z o) t) (slice (ko_B o) t)
           (st (ks_F c) (t-1) r) (st (ks_F c) t r) (st (ks_n c) (t-1) r) (st (ks_n c) t r) (st (ks_u c) t r) (sg r t) (sg r (t+1)) /\
         get (ks_RF c) t r = kur_R dim (st (ks_F c) t r) /\ get (ks_Rn c) t r = kur_R dim (st (ks_n c) t r)) /\
      st (ks_F c) (n-1) r = repeat (ndiv nzero nzero) dim /\ st (ks_n c) (n-1) r = repeat (ndiv nzero nzero) dim /\
      (forall t, t = 0 \/ t = n - 1 -> st (ks_u c) t r = repeat nzero dim /\ get (ks_RF c) t r = nzero /\ get (ks_Rn c) t r = nzero).
  Proof.
    intros H Hn. unfold k_simulation in H. fold dim n in H. set (c0 := {| ks_F := _; ks_n := _; ks_u := _; ks_RF := _; ks_Rn := _ |}) in H.
    assert (sn : forall t, t < n -> slice (Arr3 dim reps n (repeat (mconst dim reps (ndiv nzero nzero)) n)) t = mconst dim reps (ndiv nzero nzero)).
    { intros t Ht. unfold slice. cbn [a_s]. rewrite (nth_indep _ _ (mconst dim reps (ndiv nzero nzero))) by (rewrite repeat_length; auto). apply nth_repeat. }
    assert (SN : sh (Arr3 dim reps n (repeat (mconst dim reps (ndiv nzero nzero)) n)) dim reps n).
    { split; [|auto]. split; [apply repeat_length|]. intros m Hm. cbn [a_k] in Hm. rewrite sn by auto. split; [apply wf_mk|]. split; reflexivity. }
    assert (S0 : shs c0). { constructor; cbn; auto; try (repeat split; auto; fail); try apply sh_zeros. }
    assert (rk : forall (v : T) m d, nth d (repeat v m) nzero = if d <? m then v else nzero).
    { intros v m. induction m; intros [|d]; cbn; auto. rewrite IHm. reflexivity. }
    assert (cc : forall d e v, forall r, r < e -> col (mconst (T := T) d e v) r = repeat v d).
    { intros d e v r Hr. apply (nth_ext _ _ nzero nzero). { rewrite col_length, repeat_length. reflexivity. }
      intros i Hi. rewrite col_length in Hi. rewrite nth_col by auto. cbn in Hi. unfold mconst. rewrite get_mk by auto. rewrite rk. destruct (Nat.ltb_spec i d); [auto|lia]. }
    assert (V0 : forall t r, t < n -> r < reps -> cell c0 t r = (repeat (ndiv nzero nzero) dim, repeat (ndiv nzero nzero) dim, repeat nzero dim, nzero, nzero)).
    { intros t r Ht Hr. unfold cell, c0, st. cbn [ks_F ks_n ks_u ks_RF ks_Rn]. rewrite sn by auto. rewrite cc by auto. rewrite slice_zeros. unfold mzeros. rewrite !cc by auto. unfold mconst. rewrite !get_mk by auto. reflexivity. }
    assert (Q : shs c /\ (forall t r, t < n -> r < reps -> reps <= r -> cell c t r = cell c0 t r) /\
      exists sg, sg 0 1 = s /\ (1 <= reps -> sg (reps - 1) (n - 1) = s') /\ forall r, r < reps -> (r + 1 < reps -> sg (r + 1) 1 = sg r (n-1)) /\
        cell c (n-1) r = cell c0 (n-1) r /\ st (ks_F c) 0 r = y0 /\ st (ks_n c) 0 r = y0 /\ st (ks_u c) 0 r = st (ks_u c0) 0 r /\ get (ks_RF c) 0 r = get (ks_RF c0) 0 r /\ get (ks_Rn c) 0 r = get (ks_Rn c0) 0 r /\
        forall t, 1 <= t -> t + 1 < n -> step_ok c r t (sg r t) (sg r (t+1))).
    { rewrite <- (map_id (seq 0 reps)) in H.
      apply (mfold_seq_inv _ _ (fun i c s' => shs c /\ (forall t r, t < n -> r < reps -> i <= r -> cell c t r = cell c0 t r) /\
      exists sg, sg 0 1 = s /\ (1 <= i -> sg (i - 1) (n - 1) = s') /\ (i = 0 -> s' = s) /\ forall r, r < i -> (r + 1 < i -> sg (r + 1) 1 = sg r (n-1)) /\
        cell c (n-1) r = cell c0 (n-1) r /\ st (ks_F c) 0 r = y0 /\ st (ks_n c) 0 r = y0 /\ st (ks_u c) 0 r = st (ks_u c0) 0 r /\ get (ks_RF c) 0 r = get (ks_RF c0) 0 r /\ get (ks_Rn c) 0 r = get (ks_Rn c0) 0 r /\
        forall t, 1 <= t -> t + 1 < n -> step_ok c r t (sg r t) (sg r (t+1)))) in H.
      - destruct H as (H1 & H2 & sg & H3 & H4 & _ & H5). split; [auto|]. split; [auto|]. exists sg. auto.
      - split; [auto|]. split; [auto|]. exists (fun _ _ => s). repeat split; auto; intros; lia.
      - intros r c1 s1 c2 s2 Hr (H1 & H2 & sg & H3 & H4 & H4' & H5) Hbd. cbv beta in Hbd. apply rep_ok in Hbd; auto.
        destruct Hbd as (R1 & R2 & R3 & tg & R4 & R5 & R6). specialize (R3 Hn). replace (max 1 (n-1)) with (n-1) in R5 by lia.
        assert (C2 : forall t, t < n -> cell c1 t r = cell c0 t r) by (intros; apply H2; auto).
        split; [auto|]. split; [intros t r' Ht Hr' Hle; rewrite R2 by (auto; lia); apply H2; auto; lia|].
        exists (fun q t => if q =? r then tg t else sg q t).
        split. { destruct (Nat.eqb_spec 0 r) as [<-|]; [rewrite R4; now apply H4'|auto]. }
        split. { intros _. replace (Datatypes.S r - 1) with r by lia. now rewrite Nat.eqb_refl. } split; [lia|].
        intros q Hq. destruct (Nat.eq_dec q r) as [->|Hne].
        + rewrite Nat.eqb_refl. split; [lia|]. split. { rewrite R2 by (auto; lia). apply C2. lia. }
          pose proof (C2 0 ltac:(lia)) as C3. unfold cell in C3. 
          assert (D3 : st (ks_u c1) 0 r = st (ks_u c0) 0 r) by now injection C3. assert (D4 : get (ks_RF c1) 0 r = get (ks_RF c0) 0 r) by now injection C3.
          assert (D5 : get (ks_Rn c1) 0 r = get (ks_Rn c0) 0 r) by now injection C3. rewrite <- D3, <- D4, <- D5. destruct R3 as (R31 & R32 & R33 & R34 & R35).
          repeat (split; [assumption|]). exact R6.
        + destruct (Nat.eqb_spec q r); [lia|]. specialize (H5 q ltac:(lia)). destruct H5 as (K1 & K2 & K3 & K4 & K5 & K6 & K7 & K8).
          assert (CC : forall t, t < n -> cell c2 t q = cell c1 t q) by (intros; apply R2; auto; lia).
          split. { intros _. destruct (Nat.eqb_spec (q+1) r) as [<-|Hx]; [rewrite R4; rewrite <- H4 by lia; f_equal; lia|apply K1; lia]. }
          split. { rewrite CC by lia. auto. } pose proof (CC 0 ltac:(lia)) as C3. unfold cell in C3. injection C3 as -> -> -> -> ->. repeat (split; [assumption|]).
          intros t Ht1 Ht. specialize (K8 t Ht1 Ht). unfold step_ok in *. pose proof (CC t ltac:(lia)) as Ca. pose proof (CC (t-1) ltac:(lia)) as Cb. unfold cell in Ca, Cb.
          injection Ca as -> -> -> -> ->. injection Cb as -> -> _ _ _. exact K8. }
    clear H. destruct Q as ([Q1 Q2 Q3 _] & _ & sg & Q4 & Q5 & Q6). split; [auto|]. split; [auto|]. split; [auto|]. exists sg. split; [auto|]. split; [auto|].
    intros r Hr. destruct (Q6 r Hr) as (K1 & K2 & K3 & K4 & K5 & K6 & K7 & K8). split; [auto|]. split; [auto|]. split; [auto|]. split; [exact K8|].
    rewrite V0 in K2 by (auto; lia). unfold cell in K2. injection K2 as L1 L2 L3 L4 L5. split; [auto|]. split; [auto|].
    pose proof (V0 0 r ltac:(lia) Hr) as V. unfold cell in V. injection V as _ _ V3 V4 V5. intros t [ -> | -> ]; [|auto]. rewrite K5, K6, K7. auto.
  Qed.
End Sim.
