(** C49-C52, C54, C57-C59: torched_DPFC, for every number system.  [dim] is the length of y1, [k] the number of grid points. *)
From Coq Require Import String List ZArith Lia Bool.
From Verif Require Import Base.Num Base.Py Base.Arr Lib.ArrLemmas Model.Ext Model.Cdist Model.Reweight Model.Score Model.ScoreTorch Model.DPFC Model.TDPFC.
From Verif Require Import Spec.FlowSpec Spec.TorchSpec Lib.FlowLemmas Lib.ScoreLemmas Lib.StepLemmas Lib.RunLemmas Lib.StochLemmas Lib.CoreLemmas Lib.TotalLemmas Lib.TorchLemmas.
From Verif Require Import Run.Toy Props.Flows.
Import ListNotations.

Section Torch.
  Context {T S : Type} {O : NumOps T} (E : Ext T S).
  Notation mat := (mat T). Notation arr3 := (arr3 T).

  Section Obj.
    Context (b : ykind) (p : params T) (s : S) (o : obj T) (s' : S) (Hc : t_construct E b p s = (Ok o, s')) (Hy : p_y1 p <> []).
    Let dim := List.length (p_y1 p).
    Let k := List.length (o_grid o).

    Lemma dim_pos : 1 <= dim.
    Proof. unfold dim. destruct (p_y1 p); [congruence|cbn; lia]. Qed.

    Lemma tZ_sh : sh (o_Z o) dim (p_N p) k.
    Proof.
      destruct (t_construct_ok E b p s o s' Hc) as (_ & _ & _ & G & s1 & s2 & HZ & _). unfold k.
      set (grid := o_grid o) in *. destruct (Nat.eq_dec (List.length grid) 0) as [K0|K0].
      - destruct grid as [|]; [|discriminate]. destruct (p_det p); destruct HZ as (HZ & _).
        + unfold t_forward_sampling_Otto in HZ. cbn in HZ. invok. rewrite Q. apply sh_zeros.
        + unfold t_forward_sampling in HZ. cbn in HZ. invok. rewrite Q. apply sh_zeros.
      - destruct (p_det p); destruct HZ as (HZ & _).
        + apply t_otto_run in HZ; [|lia]. apply HZ.
        + apply t_stoch_run in HZ; [|lia]. apply HZ.
    Qed.

    Lemma tB_run : exists s2, sh (o_B o) dim (p_N p) k /\
      (0 < k -> slice (o_B o) 0 = mk dim (p_N p) (fun a _ => nth a (p_y1 p) nzero)) /\ 0 < k /\
      (2 <= k -> slice (o_B o) (k-1) = mk dim (p_N p) (fun a _ => nth a (p_y2 p) nzero) /\ dim <= List.length (p_y2 p)) /\
      (3 <= k -> 2 <= dim) /\
      exists sg, sg (k - 1) = s2 /\ sg 1 = s' /\
      forall j, 1 <= j -> j + 1 < k ->
        t_back_step E ((j =? k - 2) || negb (p_det p)) nmilli (o_kern o) (p_M p) (p_g p) (call2 (p_f p))
          (nth (j+1) (o_grid o) nzero)
          (slice (o_Z o) (j+1)) (slice (o_B o) (j+1)) (slice (o_B o) j) (sg (j+1)) (sg j).
    Proof.
      pose proof tZ_sh as HZ. destruct (t_construct_ok E b p s o s' Hc) as (_ & _ & K & G & s1 & s2 & _ & HB).
      rewrite K. exists s2. exact (t_bw_run E p _ _ _ _ _ _ HZ dim_pos HB).
    Qed.

    (** ** C49 *)
    Theorem C49_torch_shape : has_shape (o_Z o) dim (p_N p) k /\ has_shape (o_B o) dim (p_N p) k /\
      (forall Zt, o_Ztr o = Some Zt -> has_shape Zt dim (p_N p) k).
    Proof.
      split; [apply sh_has_shape, tZ_sh|]. split. { destruct tB_run as (s2 & H & _). now apply sh_has_shape. }
      intros Zt Ht. apply sh_has_shape.
      destruct (t_construct_ok E b p s o s' Hc) as (_ & _ & _ & G & s1 & s2 & HZ & _). unfold k.
      destruct (p_det p).
      - destruct HZ as (_ & HZ). destruct (p_reweight p && p_brown p).
        + destruct HZ as (Zt' & Ht' & HT). assert (Zt' = Zt) by congruence. subst Zt'.
          assert (K0 : 0 < List.length (o_grid o)) by (destruct tB_run as (? & _ & _ & Hk0 & _); exact Hk0).
          apply t_otto_true_run in HT; [|lia]. apply HT.
        + destruct HZ as (HZ & _). congruence.
      - destruct HZ as (_ & _ & HT). destruct (p_reweight p && p_brown p); [|congruence].
        assert (Zt = zeros3 (List.length (p_y1 p)) (p_N p) (List.length (o_grid o))) as -> by congruence.
        apply sh_zeros.
    Qed.

    Theorem C49_torch_forward_start : p_det p = true -> 2 <= k -> all_at (o_Z o) 0 (p_y1 p).
    Proof.
      intros Hd Hk. pose proof tZ_sh as HZs.
      destruct (t_construct_ok E b p s o s' Hc) as (_ & _ & _ & G & s1 & s2 & HZ & _). rewrite Hd in HZ. destruct HZ as (HZ & _).
      apply t_otto_run in HZ; [|unfold k in Hk; lia]. destruct HZ as (_ & _ & H0 & _).
      apply (all_at_mk _ _ _ _ _ _ HZs). rewrite H0. apply mk_ext. intros. fold k.
      destruct (Nat.eqb_spec k 1); [lia|]. now rewrite andb_false_r.
    Qed.

    (** stochastic mode: only the first two coordinates are initialised (as in C14) *)
    Theorem C49_torch_stochastic_start : p_det p = false -> 2 <= dim /\
      forall d n, d < dim -> n < p_N p -> get3 (o_Z o) d n 0 = if d <? 2 then nth d (p_y1 p) nzero else nzero.
    Proof.
      intros Hd. assert (K0 : 0 < List.length (o_grid o)) by (destruct tB_run as (? & _ & _ & Hk0 & _); exact Hk0).
      destruct (t_construct_ok E b p s o s' Hc) as (_ & _ & _ & G & s1 & s2 & HZ & _). rewrite Hd in HZ. destruct HZ as (HZ & _).
      apply t_stoch_run in HZ; [|lia]. destruct HZ as (_ & H2 & H0 & _). split; [auto|]. intros d n Hdd Hn. unfold get3. rewrite H0.
      now rewrite get_mk.
    Qed.

    Theorem C49_torch_backward_boundaries : 2 <= k -> all_at (o_B o) 0 (p_y1 p) /\ all_at (o_B o) (k - 1) (p_y2 p).
    Proof.
      intro Hk. destruct tB_run as (s2 & HB & H0 & _ & H1 & _). split.
      - apply (all_at_mk _ _ _ _ _ _ HB). apply H0. lia.
      - apply (all_at_mk _ _ _ _ _ _ HB). apply H1. auto.
    Qed.

    (** ** C57: recurrence of the forward flow *)
    Theorem C57_torch_forward_recurrence : p_det p = true ->
      exists sg : nat -> S, sg 0 = s /\
      forall i, 1 <= i < k ->
        (if p_reweight p
         then t_weighted_step E nmilli (p_M p) (p_g p) (call2 (p_f p)) (ocall2 (p_U p))
         else t_plain_step E nmilli (p_M p) (p_g p) (call2 (p_f p)))
          i (nth i (o_grid o) nzero) (slice (o_Z o) (i-1)) (slice (o_Z o) i) (sg (i-1)) (sg i).
    Proof.
      intros Hd. assert (K0 : 0 < List.length (o_grid o)) by (destruct tB_run as (? & _ & _ & Hk0 & _); exact Hk0).
      destruct (t_construct_ok E b p s o s' Hc) as (_ & _ & _ & G & s1 & s2 & HZ & _). rewrite Hd in HZ.
      destruct HZ as (HZ & _). apply t_otto_run in HZ; [|lia].
      destruct HZ as (_ & _ & _ & sg & S0 & _ & H). exists sg. split; [auto|]. intros i Hi. specialize (H i Hi).
      unfold t_otto_step in H. now destruct (p_reweight p).
    Qed.

    (** ** C58: recurrence of the time-reversed flow *)
    Theorem C58_torch_backward_recurrence :
      exists sg : nat -> S, sg 1 = s' /\
      forall j, 1 <= j -> j + 1 < k ->
        (if (j =? k - 2) || negb (p_det p)
         then t_back_noisy_step E nmilli (o_kern o) (p_M p) (p_g p) (call2 (p_f p)) (nth (j+1) (o_grid o) nzero)
         else t_back_flow_step E nmilli (o_kern o) (p_M p) (p_g p) (call2 (p_f p)) (nth (j+1) (o_grid o) nzero))
          (slice (o_Z o) (j+1)) (slice (o_B o) (j+1)) (slice (o_B o) j) (sg (j+1)) (sg j).
    Proof.
      destruct tB_run as (s2 & _ & _ & _ & _ & _ & sg & _ & S1 & H). exists sg. split; [auto|].
      intros j H1 H2. specialize (H j H1 H2). unfold t_back_step in H. now destruct ((j =? k - 2) || negb (p_det p)).
    Qed.

    (** ** C59: stochastic mode; the terminal slice is not replaced by the target *)
    Theorem C59_torch_stochastic_recurrence : p_det p = false ->
      exists sg : nat -> S, sg 0 = s /\ forall i, 1 <= i < k ->
        (if p_reweight p then t_stoch_weighted_step E nmilli (p_g p) (call2 (p_f p)) (ocall1 (p_U p)) (nth i (o_grid o) nzero)
         else noisy_step E nmilli (p_g p) (call2 (p_f p)) (nsub (nth i (o_grid o) nzero) nmilli))
          (slice (o_Z o) (i-1)) (slice (o_Z o) i) (sg (i-1)) (sg i).
    Proof.
      intros Hd. assert (K0 : 0 < List.length (o_grid o)) by (destruct tB_run as (? & _ & _ & Hk0 & _); exact Hk0).
      destruct (t_construct_ok E b p s o s' Hc) as (_ & _ & _ & G & s1 & s2 & HZ & _). rewrite Hd in HZ.
      destruct HZ as (HZ & _). apply t_stoch_run in HZ; [|lia].
      destruct HZ as (_ & _ & _ & sg & S0 & _ & H). exists sg. split; [auto|]. intros i Hi. specialize (H i Hi).
      unfold t_stoch_step in H. now destruct (p_reweight p).
    Qed.

    (** ** C54: every ensemble a deterministic step started from had positive width in every coordinate *)
    Theorem C54_boxes_have_width : p_det p = true -> forall i d, 1 <= i -> i + 1 < k -> d < dim ->
      exists lo hi, lmin (row (slice (o_Z o) i) d) = Ok lo /\ lmax (row (slice (o_Z o) i) d) = Ok hi /\ nltb lo hi = true.
    Proof.
      intros Hd i d H1 H2 Hdd. destruct (C57_torch_forward_recurrence Hd) as (sg & _ & H). specialize (H (i+1) ltac:(lia)).
      assert (H' : exists x', t_plain_step E nmilli (p_M p) (p_g p) (call2 (p_f p)) (i+1) (nth (i+1) (o_grid o) nzero)
                     (slice (o_Z o) (i+1-1)) x' (sg (i+1-1)) (sg (i+1))).
      { destruct (p_reweight p); [|eauto]. destruct H as (y & u & _ & _ & _ & H & _). eauto. }
      clear H. destruct H' as (x' & H). unfold t_plain_step in H. destruct (Nat.eqb_spec (i+1) 1); [lia|].
      replace (i+1-1) with i in H by lia. destruct H as (F & bnds & P & G & _ & Lb & Hb & (Hw & _) & _).
      destruct (sh_slice _ _ _ _ i tZ_sh ltac:(lia)) as (_ & R & _). rewrite R in *.
      specialize (Hb d Hdd). specialize (Hw d ltac:(lia)). destruct (nth d bnds (nzero, nzero)) as [lo hi].
      exists lo, hi. destruct Hb. auto.
    Qed.
  End Obj.

  (** ** C50: the bridge mode *)
  Lemma bc2_rows op (A B C : mat) : bc2 op A B = Ok C -> (mr A = mr B \/ mr A = 1 \/ mr B = 1) /\ mr C = bdim (mr A) (mr B).
  Proof.
    unfold bc2. destruct (bok (mr A) (mr B) && bok (mc A) (mc B)) eqn:Q; [|discriminate]. intro H. injection H as <-.
    apply andb_true_iff in Q. destruct Q as (Q & _). apply bok_spec in Q. auto.
  Qed.
  Lemma rows_ge2 op (A B C : mat) n : bc2 op A B = Ok C -> 2 <= n -> mr B = n -> mr C = n.
  Proof. intros H Hn HB. apply bc2_rows in H. destruct H as (H & ->). rewrite HB in *. unfold bdim. destruct (Nat.eqb_spec (mr A) 1); lia. Qed.

  Lemma t_true_step_need kern m g fd (x y : mat) t s s' :
    t_det_step (t_f_seperate_true E kern m g fd) x t s = (Ok y, s') ->
    (2 <= mc x -> 2 <= mr x -> mc x = mr x) /\ (2 <= mr x -> m = mr x \/ m = 1).
  Proof.
    intro H. unfold t_det_step in H. apply bind_ok in H. destruct H as (dr & s1 & Hd & H).
    apply lift_ok in H. destruct H as (H & _). apply tbc2_ok in H.
    unfold t_f_seperate_true, t_own_bnds in Hd. invok. apply tbc2_ok in Hd, E4. apply tor_ok in E0.
    apply own_bnds_ok in E0. destruct E0 as (Lb & _). apply t_sample_box_ok in E1. destruct E1 as (_ & h & _ & HP).
    split.
    - intros H2 H2'. destruct (torch_score_shape _ _ _ _ _ _ _ E2) as (_ & RG & _). cbn [mr mT mk] in RG.
      pose proof (rows_ge2 _ _ _ _ _ E4 H2 RG) as R3. pose proof (rows_ge2 _ _ _ _ _ Hd H2 R3) as R4.
      apply bc2_rows in H. destruct H as (H & _). cbn [mr smul mmap1 mk] in H. rewrite R4 in H. lia.
    - intro H2. unfold torched_score_function_multid_seperate_all_dims in E2. apply rbind_ok in E2.
      destruct E2 as (((((bb & K_xz) & Ki) & A) & s2) & H0 & _). rewrite tlengthscales_eq in H0. apply tprep_ok in H0.
      + destruct H0 as (B & _). cbn [mc mT mk] in B. rewrite HP in B. cbn [mr mk mc mT] in B. apply bok_spec in B. lia.
      + unfold tlengthscales. rewrite map_length, seq_length. lia.
  Qed.

  (** a successful bridge-mode construction with at least three grid points has as many particles as dimensions
      (or at most one particle) and as many inducing points as dimensions (or one) *)
  Theorem C50_bridge_needs b p s o s' : t_construct E b p s = (Ok o, s') -> p_y1 p <> [] ->
    p_det p = true -> p_reweight p = true -> p_brown p = true -> 3 <= List.length (o_grid o) ->
    2 <= List.length (p_y1 p) /\ (p_N p = List.length (p_y1 p) \/ p_N p <= 1) /\ (p_M p = List.length (p_y1 p) \/ p_M p = 1).
  Proof.
    intros Hc Hy Hd Hr Hb Hk. destruct (tB_run _ _ _ _ _ Hc Hy) as (_ & _ & _ & _ & _ & H2 & _). specialize (H2 Hk).
    split; [auto|]. destruct (t_construct_ok E b p s o s' Hc) as (_ & _ & _ & G & s1 & s2 & HZ & _). rewrite Hd, Hr, Hb in HZ.
    destruct HZ as (_ & Zt & _ & HZ). apply t_otto_true_run in HZ; [|lia]. destruct HZ as (Sh & _ & sg & _ & _ & H).
    specialize (H 2 ltac:(lia)). unfold t_true_step in H. cbn [Nat.eqb Nat.sub] in H. destruct H as (y & H).
    destruct (sh_slice _ _ _ _ 1 Sh ltac:(lia)) as (_ & R & C). apply t_true_step_need in H. rewrite R, C in H. lia.
  Qed.

  (** every other bridge-mode construction raises *)
  Theorem C50_bridge_mode_raises b p s grid : t_timegrid (p_t1 p) (p_t2 p) = Ok grid -> 3 <= List.length grid ->
    p_det p = true -> p_reweight p = true -> p_brown p = true -> p_y1 p <> [] ->
    (2 <= p_N p /\ p_N p <> List.length (p_y1 p)) \/ (p_M p <> 1 /\ p_M p <> List.length (p_y1 p)) ->
    exists e, fst (t_construct E b p s) = Err e.
  Proof.
    intros G Hk Hd Hr Hb Hy H. destruct (t_construct E b p s) as [[o|e] s'] eqn:Hc; [|exists e; reflexivity]. exfalso.
    destruct (t_construct_ok E b p s o s' Hc) as (_ & _ & _ & G' & _). rewrite G in G'. injection G' as Gr.
    assert (Hk' : 3 <= List.length (o_grid o)) by (rewrite <- Gr; exact Hk).
    destruct (C50_bridge_needs _ _ _ _ _ Hc Hy Hd Hr Hb Hk') as (_ & H1 & H2). lia.
  Qed.

  (** ** C51: one-dimensional problems *)
  Theorem C51_one_dimension_raises b p s grid : t_timegrid (p_t1 p) (p_t2 p) = Ok grid -> 3 <= List.length grid ->
    List.length (p_y1 p) = 1 -> exists e, fst (t_construct E b p s) = Err e.
  Proof.
    intros G Hk H1. destruct (t_construct E b p s) as [[o|e] s'] eqn:Hc; [|exists e; reflexivity]. exfalso.
    destruct (t_construct_ok E b p s o s' Hc) as (_ & _ & _ & G' & _). rewrite G in G'. injection G' as Gr.
    assert (Hy : p_y1 p <> []) by (intro Q; rewrite Q in H1; discriminate).
    destruct (tB_run _ _ _ _ _ Hc Hy) as (_ & _ & _ & _ & _ & H2 & _). rewrite <- Gr in H2. lia.
  Qed.

  (** ** C52 *)
  Theorem C52_numpy_start_raises p s : t_construct E IsNdarray p s = (Err TypeError, s).
  Proof. reflexivity. Qed.

  (** ** C54, second half: one coordinate without spread *)
  Theorem C54_zero_spread_raises m g fd (x : mat) t s : 1 <= mc x ->
    (exists d, d < mr x /\ forall lo hi, lmin (row x d) = Ok lo -> lmax (row x d) = Ok hi -> nltb lo hi = false) ->
    t_f_seperate E m g fd x t s = (Err ValueError, s).
  Proof.
    intros Hc (d & Hd & H). unfold t_f_seperate. unfold bind, lift.
    destruct (t_own_bnds x) as [bnds|e] eqn:Q.
    - unfold t_own_bnds in Q. apply tor_ok, own_bnds_ok in Q. destruct Q as (L & Hb).
      unfold t_sample_box. destruct (forallb _ bnds) eqn:F; [|reflexivity]. exfalso.
      rewrite forallb_forall in F. specialize (Hb d Hd). destruct Hb as (Hlo & Hhi).
      specialize (F (nth d bnds (nzero, nzero)) ltac:(apply nth_In; lia)). rewrite (H _ _ Hlo Hhi) in F. discriminate.
    - exfalso. assert (X : exists bnds, own_bnds x = Ok bnds). 2:{ destruct X as (bn & X). unfold t_own_bnds in Q. rewrite X in Q. discriminate. }
      destruct (own_bnds_tot x Hc) as (bn & X & _). eauto.
  Qed.
End Torch.

(** ** Concrete runs *)
Definition t_okrun (p : params Z) : nat := match t_construct ToyExt IsTensor p 7%Z with (Ok o, _) => List.length (o_grid o) | _ => 0 end.
Definition square_bridge : params Z := {|
  p_t1 := 0; p_t2 := 4000; p_y1 := P0; p_y2 := P1; p_f := f2; p_g := mk 1 1 (fun _ _ => one6); p_N := 2; p_M := 2;
  p_reweight := true; p_U := Some U2; p_dens_est := "nonparametric"; p_reject := true; p_kern := "RBF";
  p_f_true := Some f2; p_brown := true; p_det := true |}%Z.
Definition toy_1d := toy 4000 [0]%Z [500]%Z false false true f2 U2.
Definition toy_rw_only_stoch := toy 4000 P0 P1 true false false f12 U1.
Lemma t_okrun_run p n : t_okrun p = Datatypes.S n -> exists o s', t_construct ToyExt IsTensor p 7%Z = (Ok o, s') /\ List.length (o_grid o) = Datatypes.S n.
Proof. unfold t_okrun. destruct (t_construct ToyExt IsTensor p 7%Z) as [[o|e] s']; [eauto|discriminate]. Qed.

Example t_toy_det_runs : t_okrun toy_det = 5.  Proof. vm_compute. reflexivity. Qed.
Example t_toy_rw_runs : t_okrun toy_rw = 5.  Proof. vm_compute. reflexivity. Qed.
Example t_toy_stoch_runs : t_okrun toy_stoch = 5.  Proof. vm_compute. reflexivity. Qed.
Example t_toy_rw_stoch_runs : t_okrun toy_rw_only_stoch = 5.  Proof. vm_compute. reflexivity. Qed.
(** two particles, two inducing points, two dimensions: the bridge mode returns *)
Example t_square_bridge_runs : t_okrun square_bridge = 5.  Proof. vm_compute. reflexivity. Qed.

Example C49_toy : exists o s', t_construct ToyExt IsTensor toy_rw 7%Z = (Ok o, s') /\ List.length (o_grid o) = 5 /\
  all_at (o_Z o) 0 P0 /\ all_at (o_B o) 0 P0 /\ all_at (o_B o) 4 P1.
Proof.
  destruct (t_okrun_run _ _ t_toy_rw_runs) as (o & s' & H & L). exists o, s'. split; [auto|]. split; [auto|].
  assert (L2 : 2 <= List.length (o_grid o)) by lia. assert (Hy : p_y1 toy_rw <> []) by discriminate.
  split; [apply (C49_torch_forward_start _ _ _ _ _ _ H eq_refl L2)|].
  destruct (C49_torch_backward_boundaries _ _ _ _ _ _ H Hy L2) as (A & B). split; [exact A|]. rewrite L in B. exact B.
Qed.
Example C50_toy : exists o s', t_construct ToyExt IsTensor square_bridge 7%Z = (Ok o, s') /\ p_N square_bridge = 2 /\ p_M square_bridge = 2.
Proof. destruct (t_okrun_run _ _ t_square_bridge_runs) as (o & s' & H & L). eauto. Qed.
(** four particles instead *)
Example C50_toy_fails : exists e, fst (t_construct ToyExt IsTensor toy_bridge 7%Z) = Err e.
Proof.
  apply (C50_bridge_mode_raises _ _ _ _ [0; 1000; 2000; 3000; 4000]%Z); cbn; try reflexivity; try lia; try discriminate. 
Qed.
Example C51_toy : exists e, fst (t_construct ToyExt IsTensor toy_1d 7%Z) = Err e.
Proof. apply (C51_one_dimension_raises _ _ _ _ [0; 1000; 2000; 3000; 4000]%Z); cbn; try reflexivity; lia. Qed.
Example C54_toy : t_f_seperate ToyExt 3 (mk 1 1 (fun _ _ => one6)) (fun x _ => Ok x) (mk 2 3 (fun d n => if d =? 0 then Z.of_nat n else 4%Z)) 0%Z 7%Z
  = (Err ValueError, 7%Z).
Proof.
  apply C54_zero_spread_raises; [cbn; lia|]. exists 1. split; [cbn; lia|]. intros lo hi H1 H2.
  cbn in H1, H2. injection H1 as <-. injection H2 as <-. reflexivity.
Qed.
