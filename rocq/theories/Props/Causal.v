(** C67: the forward flow does not look ahead. *)
From Coq Require Import String List ZArith Lia Bool.
From Verif Require Import Base.Num Base.Py Base.Arr Lib.ArrLemmas Model.Ext Model.Cdist Model.Reweight Model.Score Model.DPFC.
From Verif Require Import Spec.FlowSpec Spec.StreamSpec Spec.CausalSpec Lib.FlowLemmas Lib.ScoreLemmas Lib.StepLemmas Lib.RunLemmas Lib.StochLemmas Lib.CoreLemmas.
From Verif Require Import Model.ScoreTorch Model.TDPFC Spec.TorchSpec Lib.TorchLemmas Lib.QueryLemmas Props.Flows Props.Stream Props.Torch Props.TorchStream Run.Toy.
Import ListNotations.

Section Causal.
  Context {T S : Type} {O : NumOps T} (E : Ext T S).
  Notation mat := (mat T). Notation arr3 := (arr3 T).

  (** steps depend on the drift and the constraint at one time only *)
  Lemma noisy_ext h g (f f' : mat -> T -> res mat) t x y s s' : f' x t = f x t -> noisy_step E h g f' t x y s s' -> noisy_step E h g f t x y s s'.
  Proof. intros H (F & W & H1 & H2). exists F, W. rewrite <- H. auto. Qed.
  Lemma flow_ext h kern m g (f f' : mat -> T -> res mat) t x y s s' : f' x t = f x t -> flow_step E h kern m g f' t x y s s' -> flow_step E h kern m g f t x y s s'.
  Proof. intros H (F & b & r & c & H1 & H2). exists F, b, r, c. rewrite <- H. auto. Qed.
  Lemma plain_ext h kern m g (f f' : mat -> T -> res mat) i t x y s s' : f' x (nsub t h) = f x (nsub t h) ->
    plain_step E h kern m g f' i t x y s s' -> plain_step E h kern m g f i t x y s s'.
  Proof. unfold plain_step. destruct (i =? 1); eauto using noisy_ext, flow_ext. Qed.
  Lemma weighted_ext h kern m g (f f' U U' : mat -> T -> res mat) i t x y s s' : f' x (nsub t h) = f x (nsub t h) -> (forall z, U' z t = U z t) ->
    weighted_step E h kern m g f' U' i t x y s s' -> weighted_step E h kern m g f U i t x y s s'.
  Proof. intros Hf HU (z & u & H1 & H2 & H3 & H4 & H5 & H6). exists z, u. rewrite HU in H5. eauto 10 using plain_ext. Qed.
  Lemma particle_ext h g (f f' : mat -> res mat) x y s s' : (forall z, f' z = f z) -> particle_step E h g f' x y s s' -> particle_step E h g f x y s s'.
  Proof. intros H (sg & H1 & H2 & H3). exists sg. split; [auto|]. split; [auto|]. intros n Hn. destruct (H3 n Hn) as (F & W & Q & Q'). exists F, W. rewrite <- H. auto. Qed.
  Lemma weighted_particle_ext h g (f f' U U' : mat -> res mat) x y s s' : (forall z, f' z = f z) -> (forall z, U' z = U z) ->
    weighted_particle_step E h g f' U' x y s s' -> weighted_particle_step E h g f U x y s s'.
  Proof. intros Hf HU (z & u & H1 & H2 & H3 & H4 & H5 & H6). exists z, u. rewrite HU in H5. eauto 10 using particle_ext. Qed.

  (** chains that make the same steps up to index m *)
  Lemma slice_eq2 (A B : arr3) d n ka kb t : sh A d n ka -> sh B d n kb -> t < ka -> t < kb ->
    (forall i j, i < d -> j < n -> get (slice A t) i j = get (slice B t) i j) -> slice A t = slice B t.
  Proof.
    intros HA HB Ht Hu H. destruct (sh_slice _ _ _ _ _ HA Ht) as (WA & RA & CA), (sh_slice _ _ _ _ _ HB Hu) as (WB & RB & CB).
    apply mat_ext; auto; try lia. rewrite RA, CA. exact H.
  Qed.
  Lemma chain_prefix (A B : arr3) d n ka kb m (R : nat -> mat -> mat -> S -> S -> Prop) sa sb : sh A d n ka -> sh B d n kb -> m < ka -> m < kb ->
    (forall i x x1 x2 s s1 s2, R i x x1 s s1 -> R i x x2 s s2 -> s1 = s2 /\ agree x1 x2 (mr x) (mc x)) ->
    slice A 0 = slice B 0 -> sa 0 = sb 0 ->
    (forall i, 1 <= i <= m -> R i (slice A (i-1)) (slice A i) (sa (i-1)) (sa i)) ->
    (forall i, 1 <= i <= m -> R i (slice B (i-1)) (slice B i) (sb (i-1)) (sb i)) ->
    forall i, i <= m -> slice A i = slice B i.
  Proof.
    intros HA HB Ka Kb HR H0 S0 Ra Rb. enough (Q : forall i, i <= m -> slice A i = slice B i /\ sa i = sb i) by (intros i Hi; now apply Q).
    induction i as [|i IH]; [auto|]. intro Hi. destruct IH as (Es & Et); [lia|].
    specialize (Ra (Datatypes.S i) ltac:(lia)). specialize (Rb (Datatypes.S i) ltac:(lia)).
    replace (Datatypes.S i - 1) with i in Ra, Rb by lia. rewrite <- Es, <- Et in Rb.
    destruct (HR (Datatypes.S i) _ _ _ _ _ _ Ra Rb) as (Q & G). split; [|auto].
    destruct (sh_slice _ _ _ _ i HA ltac:(lia)) as (_ & R' & C'). rewrite R', C' in G.
    apply (slice_eq2 _ _ d n ka kb); auto; lia.
  Qed.
  Lemma slice_same (A B : arr3) d n ka kb t : sh A d n ka -> sh B d n kb -> slice A t = slice B t -> same_slice A B t.
  Proof. intros (_ & D1 & N1 & _) (_ & D2 & N2 & _) H. split; [congruence|]. split; [congruence|]. intros i j _ _. unfold get3. now rewrite H. Qed.
  Lemma all_at_slice2 (A B : arr3) d n ka kb t y : sh A d n ka -> sh B d n kb -> t < ka -> t < kb -> all_at A t y -> all_at B t y -> slice A t = slice B t.
  Proof.
    intros HA HB Ha Hb H1 H2. apply (slice_eq2 _ _ d n ka kb); auto. intros i j Hi Hj.
    pose proof HA as (_ & DA & NA & _). pose proof HB as (_ & DB & NB & _).
    specialize (H1 i j). specialize (H2 i j). unfold get3 in *. rewrite H1, H2 by lia. auto.
  Qed.

  (** the grid times do not depend on t2 *)
  Lemma grid_prefix (t1 t2 t2' : T) i : i < List.length (timegrid t1 t2) -> i < List.length (timegrid t1 t2') ->
    nth i (timegrid t1 t2) nzero = nth i (timegrid t1 t2') nzero.
  Proof. unfold timegrid, np_arange. cbv zeta. rewrite !map_length, !seq_length. intros H H'. now rewrite !nth_map_seq. Qed.
  Lemma in_firstn (l : list T) m i : i <= m -> i < List.length l -> In (nth i l nzero) (firstn (Datatypes.S m) l).
  Proof.
    revert m i. induction l as [|a l IH]; intros m i Hm Hi; [cbn in Hi; lia|]. cbn [firstn]. destruct i; [now left|]. right. destruct m; [lia|].
    cbn [nth]. apply IH; cbn in *; lia.
  Qed.

  Theorem C67_causal p p' s s1 s2 o o' m :
    construct E p s = (Ok o, s1) -> construct E p' s = (Ok o', s2) ->
    same_at_times (firstn (Datatypes.S m) (o_grid o)) p p' -> p_det p = true ->
    m < List.length (o_grid o) -> m < List.length (o_grid o') -> 2 <= List.length (o_grid o) -> 2 <= List.length (o_grid o') ->
    forall i, i <= m -> same_slice (o_Z o) (o_Z o') i.
  Proof.
    intros H H' Q Hd Km Km' K2 K2' i Hi. pose proof (construct_ok _ _ _ _ _ H) as (_ & Ek & Eg & _). pose proof (construct_ok _ _ _ _ _ H') as (_ & Ek' & Eg' & _).
    apply C65_one_stream in H; [|auto]. apply C65_one_stream in H'; [|auto]. destruct H as (a & _ & F & _), H' as (a' & _ & F' & _).
    rewrite (st_det _ _ _ Q) in F'. rewrite Hd in F, F'. destruct F as (A1 & P1 & g1 & a1 & _ & H1), F' as (A2 & P2 & g2 & a2 & _ & H2).
    rewrite (st_y1 _ _ _ Q), (st_N _ _ _ Q) in A2. rewrite (st_y1 _ _ _ Q) in P2. rewrite (st_kern _ _ _ Q), <- Ek in Ek'. rewrite Ek' in H2.
    apply has_shape_sh in A1, A2. apply (slice_same _ _ _ _ _ _ _ A1 A2).
    apply (chain_prefix (o_Z o) (o_Z o') _ _ _ _ m (fun i => if p_reweight p
         then weighted_step E nmilli (o_kern o) (p_M p) (p_g p) (call2 (p_f p)) (ocall2 (p_U p)) i (nth i (o_grid o) nzero)
         else plain_step E nmilli (o_kern o) (p_M p) (p_g p) (call2 (p_f p)) i (nth i (o_grid o) nzero)) g1 g2 A1 A2); auto.
    - intros j x x1 x2 s3 s4 s5. destruct (p_reweight p); [apply weighted_fun|apply plain_fun].
    - apply (all_at_slice2 _ _ _ _ _ _ 0 (p_y1 p) A1 A2); auto; lia.
    - congruence.
    - intros j Hj. apply H1. lia.
    - intros j Hj. specialize (H2 j ltac:(lia)). rewrite (st_rw _ _ _ Q), (st_M _ _ _ Q), (st_g _ _ _ Q) in H2.
      assert (G : nth j (o_grid o') nzero = nth j (o_grid o) nzero). { rewrite Eg, Eg', (st_t1 _ _ _ Q) in *. apply grid_prefix; lia. }
      rewrite G in H2. assert (I : In (nth j (o_grid o) nzero) (firstn (Datatypes.S m) (o_grid o))) by (apply in_firstn; lia).
      destruct (p_reweight p) eqn:Rw.
      + eapply weighted_ext; [| |exact H2]. * now apply (st_f _ _ _ Q). * intro z. now apply (st_U _ _ _ Q).
      + eapply plain_ext; [|exact H2]. now apply (st_f _ _ _ Q).
  Qed.

  (** stochastic mode: the same, except for the last index, which is overwritten with the target (C16) *)
  Theorem C67_causal_stochastic p p' s s1 s2 o o' m :
    construct E p s = (Ok o, s1) -> construct E p' s = (Ok o', s2) ->
    same_at_times (firstn (Datatypes.S m) (o_grid o)) p p' -> p_det p = false ->
    m + 1 < List.length (o_grid o) -> m + 1 < List.length (o_grid o') ->
    forall i, i <= m -> same_slice (o_Z o) (o_Z o') i.
  Proof.
    intros H H' Q Hd Km Km' i Hi.
    apply C65_one_stream in H; [|lia]. apply C65_one_stream in H'; [|lia]. destruct H as (a & _ & F & _), H' as (a' & _ & F' & _).
    rewrite (st_det _ _ _ Q) in F'. rewrite Hd in F, F'.
    destruct F as (A1 & _ & I1 & Y1 & g1 & a1 & _ & E1 & H1), F' as (A2 & _ & I2 & Y2 & g2 & a2 & _ & E2 & H2).
    rewrite (st_y1 _ _ _ Q), (st_N _ _ _ Q) in A2. rewrite (st_y1 _ _ _ Q) in I2.
    apply has_shape_sh in A1, A2. apply (slice_same _ _ _ _ _ _ _ A1 A2).
    apply (chain_prefix (o_Z o) (o_Z o') _ _ _ _ m (fun i => if p_reweight p
         then weighted_particle_step E nmilli (p_g p) (call1 (p_f p)) (ocall1 (p_U p))
         else particle_step E nmilli (p_g p) (call1 (p_f p))) g1 g2 A1 A2); auto; try lia.
    - intros j x x1 x2 s3 s4 s5. destruct (p_reweight p); [apply weighted_particle_fun|apply particle_fun].
    - apply (slice_eq2 _ _ _ _ _ _ 0 A1 A2); try lia. intros b c Hb Hc.
      pose proof A1 as (_ & DA & NA & _). pose proof A2 as (_ & DB & NB & _).
      specialize (I1 b c). specialize (I2 b c). unfold get3 in *. rewrite I1, I2 by lia. auto.
    - congruence.
    - intros j Hj. specialize (H1 j ltac:(lia)). now rewrite !E1 in H1 by lia.
    - intros j Hj. specialize (H2 j ltac:(lia)). rewrite !E2, (st_rw _ _ _ Q), (st_g _ _ _ Q) in H2 by lia. destruct (p_reweight p) eqn:Rw.
      + eapply weighted_particle_ext; [| |exact H2]; intro z; [now apply (st_f1 _ _ _ Q)|now apply (st_U1 _ _ _ Q)].
      + eapply particle_ext; [|exact H2]. intro z. now apply (st_f1 _ _ _ Q).
  Qed.

  (** so a run over a longer horizon, to another target, extends the forward flow of the shorter run *)
  Definition with_end (p : params T) (t2 : T) (y2 : list T) : params T :=
    {| p_t1 := p_t1 p; p_t2 := t2; p_y1 := p_y1 p; p_y2 := y2; p_f := p_f p; p_g := p_g p; p_N := p_N p; p_M := p_M p; p_reweight := p_reweight p; p_U := p_U p;
       p_dens_est := p_dens_est p; p_reject := p_reject p; p_kern := p_kern p; p_f_true := p_f_true p; p_brown := p_brown p; p_det := p_det p |}.
  Corollary C67_longer_horizon p t2 y2 s s1 s2 o o' : construct E p s = (Ok o, s1) -> construct E (with_end p t2 y2) s = (Ok o', s2) -> p_det p = true ->
    2 <= List.length (o_grid o) <= List.length (o_grid o') -> forall i, i < List.length (o_grid o) -> same_slice (o_Z o) (o_Z o') i.
  Proof.
    intros H H' Hd K i Hi. apply (C67_causal p (with_end p t2 y2) s s1 s2 o o' i H H'); auto; try lia. constructor; auto.
  Qed.

  (** *** the torch class (no bridge) *)
  Lemma t_flow_ext h m g (f f' : mat -> T -> res mat) t x y s s' : f' x t = f x t -> t_flow_step E h m g f' t x y s s' -> t_flow_step E h m g f t x y s s'.
  Proof. intros H (F & b & r & c & H1 & H2). exists F, b, r, c. rewrite <- H. auto. Qed.
  Lemma t_plain_ext h m g (f f' : mat -> T -> res mat) i t x y s s' : f' x (nsub t h) = f x (nsub t h) ->
    t_plain_step E h m g f' i t x y s s' -> t_plain_step E h m g f i t x y s s'.
  Proof. unfold t_plain_step. destruct (i =? 1); eauto using noisy_ext, t_flow_ext. Qed.
  Lemma t_weighted_ext h m g (f f' U U' : mat -> T -> res mat) i t x y s s' : f' x (nsub t h) = f x (nsub t h) -> (forall z, U' z t = U z t) ->
    t_weighted_step E h m g f' U' i t x y s s' -> t_weighted_step E h m g f U i t x y s s'.
  Proof. intros Hf HU (z & u & H1 & H2 & H3 & H4 & H5 & H6). exists z, u. rewrite HU in H5. eauto 10 using t_plain_ext. Qed.
  Lemma t_stoch_weighted_ext h g (f f' : mat -> T -> res mat) (U U' : mat -> res mat) t x y s s' : f' x (nsub t h) = f x (nsub t h) -> (forall z, U' z = U z) ->
    t_stoch_weighted_step E h g f' U' t x y s s' -> t_stoch_weighted_step E h g f U t x y s s'.
  Proof. intros Hf HU (z & u & H1 & H2 & H3 & H4 & H5 & H6). exists z, u. rewrite HU in H5. eauto 10 using noisy_ext. Qed.
  Lemma t_grid_prefix (t1 t2 t2' : T) g g' i : t_timegrid t1 t2 = Ok g -> t_timegrid t1 t2' = Ok g' -> i < List.length g -> i < List.length g' ->
    nth i g nzero = nth i g' nzero.
  Proof.
    unfold t_timegrid, t_arange. destruct (nleb _ _); [|discriminate]. destruct (nleb _ _); [|discriminate]. intros Q Q'. injection Q as <-. injection Q' as <-.
    rewrite !map_length, !seq_length. intros H H'. now rewrite !nth_map_seq.
  Qed.
  Theorem C67_torch_causal y1k y1k' p p' s s1 s2 o o' m :
    t_construct E y1k p s = (Ok o, s1) -> t_construct E y1k' p' s = (Ok o', s2) -> p_y1 p <> [] -> p_reweight p && p_brown p = false -> p_reweight p' && p_brown p' = false ->
    same_at_times (firstn (Datatypes.S m) (o_grid o)) p p' ->
    m < List.length (o_grid o) -> m < List.length (o_grid o') -> 2 <= List.length (o_grid o) -> 2 <= List.length (o_grid o') ->
    forall i, i <= m -> same_slice (o_Z o) (o_Z o') i.
  Proof.
    intros H H' Hy Hb Hb' Q Km Km' K2 K2' i Hi. pose proof (t_construct_ok _ _ _ _ _ _ H) as (_ & _ & _ & Eg & _). pose proof (t_construct_ok _ _ _ _ _ _ H') as (_ & _ & _ & Eg' & _).
    apply C65_torch_one_stream in H; auto. apply C65_torch_one_stream in H'; [|auto|now rewrite (st_y1 _ _ _ Q)|auto]. destruct H as ((a & F & _) & _), H' as ((a' & F' & _) & _).
    assert (G : forall j, j <= m -> nth j (o_grid o') nzero = nth j (o_grid o) nzero).
    { intros j Hj. rewrite (st_t1 _ _ _ Q) in Eg'. symmetry. apply (t_grid_prefix _ _ _ _ _ j Eg Eg'); lia. }
    assert (I : forall j, j <= m -> In (nth j (o_grid o) nzero) (firstn (Datatypes.S m) (o_grid o))) by (intros; apply in_firstn; lia).
    rewrite (st_det _ _ _ Q) in F'. destruct (p_det p) eqn:Hd.
    - destruct F as (A1 & P1 & g1 & a1 & _ & H1), F' as (A2 & P2 & g2 & a2 & _ & H2).
      rewrite (st_y1 _ _ _ Q), (st_N _ _ _ Q) in A2. rewrite (st_y1 _ _ _ Q) in P2.
      apply has_shape_sh in A1, A2. apply (slice_same _ _ _ _ _ _ _ A1 A2).
      apply (chain_prefix (o_Z o) (o_Z o') _ _ _ _ m (fun i => if p_reweight p
         then t_weighted_step E nmilli (p_M p) (p_g p) (call2 (p_f p)) (ocall2 (p_U p)) i (nth i (o_grid o) nzero)
         else t_plain_step E nmilli (p_M p) (p_g p) (call2 (p_f p)) i (nth i (o_grid o) nzero)) g1 g2 A1 A2); auto.
      + intros j x x1 x2 s3 s4 s5. destruct (p_reweight p); [apply t_weighted_fun|apply t_plain_fun].
      + apply (all_at_slice2 _ _ _ _ _ _ 0 (p_y1 p) A1 A2); auto; lia.
      + congruence.
      + intros j Hj. apply H1. lia.
      + intros j Hj. specialize (H2 j ltac:(lia)). rewrite (st_rw _ _ _ Q), (st_M _ _ _ Q), (st_g _ _ _ Q), G in H2 by lia. specialize (I j ltac:(lia)).
        destruct (p_reweight p) eqn:Rw.
        * eapply t_weighted_ext; [| |exact H2]. { now apply (st_f _ _ _ Q). } { intro z. now apply (st_U _ _ _ Q). }
        * eapply t_plain_ext; [|exact H2]. now apply (st_f _ _ _ Q).
    - destruct F as (A1 & P1 & g1 & a1 & _ & H1), F' as (A2 & P2 & g2 & a2 & _ & H2).
      rewrite (st_y1 _ _ _ Q), (st_N _ _ _ Q) in A2. rewrite (st_y1 _ _ _ Q) in P2.
      apply has_shape_sh in A1, A2. apply (slice_same _ _ _ _ _ _ _ A1 A2).
      apply (chain_prefix (o_Z o) (o_Z o') _ _ _ _ m (fun i => if p_reweight p
         then t_stoch_weighted_step E nmilli (p_g p) (call2 (p_f p)) (ocall1 (p_U p)) (nth i (o_grid o) nzero)
         else noisy_step E nmilli (p_g p) (call2 (p_f p)) (nsub (nth i (o_grid o) nzero) nmilli)) g1 g2 A1 A2); auto.
      + intros j x x1 x2 s3 s4 s5. destruct (p_reweight p); [apply t_stoch_weighted_fun|apply noisy_fun].
      + apply (slice_eq2 _ _ _ _ _ _ 0 A1 A2); try lia. intros b c Hb0 Hc.
        pose proof A1 as (_ & DA & NA & _). pose proof A2 as (_ & DB & NB & _).
        specialize (P1 b c). specialize (P2 b c). unfold get3 in *. rewrite P1, P2 by lia. auto.
      + congruence.
      + intros j Hj. apply H1. lia.
      + intros j Hj. specialize (H2 j ltac:(lia)). rewrite (st_rw _ _ _ Q), (st_g _ _ _ Q), G in H2 by lia. specialize (I j ltac:(lia)).
        destruct (p_reweight p) eqn:Rw.
        * eapply t_stoch_weighted_ext; [| |exact H2]. { now apply (st_f _ _ _ Q). } { intro z. now apply (st_U1 _ _ _ Q). }
        * eapply noisy_ext; [|exact H2]. now apply (st_f _ _ _ Q).
  Qed.
End Causal.

(** a reweighted run to (0.0005, 0.0009) in 0.004, and a bridge run to (0.0002, 0.0003) in 0.006 whose drift is another one from time 0.003 on: the
    particles agree at the indices 0 to 3 - and differ at index 4 *)
Definition f_late : callable Z := {| call1 := fun _ => Err TypeError; call2 := fun x t => Ok (if (t <? 3000)%Z then mopp x else smul 5000000%Z x) |}.
Definition toy_late := toy 6000 P0 [200; 300]%Z true true true f_late U2.
Example toy_late_runs : okrun toy_late = 7.  Proof. vm_compute. reflexivity. Qed.
Lemma toy_late_same : same_at_times (firstn 4 (timegrid (p_t1 toy_rw) (p_t2 toy_rw))) toy_rw toy_late.
Proof.
  constructor; try reflexivity; try discriminate. intros x t Ht. vm_compute in Ht. destruct Ht as [<-|[<-|[<-|[<-|[]]]]]; reflexivity.
Qed.
Example C67_toy : exists o o' s1 s2, construct ToyExt toy_rw 7%Z = (Ok o, s1) /\ construct ToyExt toy_late 7%Z = (Ok o', s2) /\
  List.length (o_grid o) = 5 /\ List.length (o_grid o') = 7 /\ same_at_times (firstn 4 (o_grid o)) toy_rw toy_late /\
  (forall i, i <= 3 -> same_slice (o_Z o) (o_Z o') i) /\ ~ same_slice (o_Z o) (o_Z o') 4.
Proof.
  destruct (okrun_run _ _ toy_rw_runs) as (o & s1 & H & L). destruct (okrun_run _ _ toy_late_runs) as (o' & s2 & H' & L').
  exists o, o', s1, s2. split; [auto|]. split; [auto|]. split; [auto|]. split; [auto|].
  assert (Q : same_at_times (firstn 4 (o_grid o)) toy_rw toy_late).
  { rewrite (proj1 (proj2 (proj2 (construct_ok _ _ _ _ _ H)))). exact toy_late_same. }
  split; [exact Q|]. split.
  - apply (C67_causal ToyExt toy_rw toy_late 7%Z s1 s2 o o' 3 H H' Q); auto; lia.
  - intros (D & N & G). assert (K : match construct ToyExt toy_rw 7%Z, construct ToyExt toy_late 7%Z with
      | (Ok o, _), (Ok o', _) => ((0 <? a_d (o_Z o)) && (0 <? a_n (o_Z o)) && negb (get3 (o_Z o) 0 0 4 =? get3 (o_Z o') 0 0 4)%Z)%nat | _, _ => false end = true) by (vm_compute; reflexivity).
    rewrite H, H' in K. apply andb_true_iff in K. destruct K as (K & K3). apply andb_true_iff in K. destruct K as (K1 & K2). apply Nat.ltb_lt in K1, K2.
    rewrite G, Z.eqb_refl in K3 by auto. discriminate.
Qed.
