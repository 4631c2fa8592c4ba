(** C73: the flows of the Kuramoto example (class BRIDGE_ND_reweight), for every number system, drift and constraint. *)
From Coq Require Import String List ZArith Lia Bool.
From Verif Require Import Base.Num Base.Py Base.Arr Lib.ArrLemmas Model.Ext Model.Cdist Model.Score Model.DPFC Model.Kuramoto.
From Verif Require Import Spec.FlowSpec Spec.KuramotoSpec Lib.FlowLemmas Lib.StepLemmas Lib.StochLemmas Lib.RunLemmas Lib.KuramotoLemmas.
Import ListNotations.

Section Flows.
  Context {T S : Type} {O : NumOps T} (E : Ext T S) (wrap : T -> T) (mvn : S -> list T -> mat T -> nat -> (nat -> nat -> T) * S).
  Context (p : kpar T) (s0 : S) (o : kobj T) (s1 : S) (Hok : k_construct E wrap mvn p s0 = (Ok o, s1)).
  Let dim := List.length (k_y1 p).
  Let N := k_N p.
  Let grid := np_arange (k_t1 p) (nadd (k_t2 p) (ndiv (k_dt p) ntwo)) (k_dt p).
  Let n := List.length grid.

  Lemma run_parts : exists Zf sm B, k_forward E wrap mvn p grid (zeros3 dim N (k_k p)) s0 = (Ok Zf, sm) /\
    k_backward E wrap p grid Zf (zeros3 dim N (k_k p)) sm = (Ok B, s1) /\ o = {| ko_par := p; ko_grid := grid; ko_Z := Zf; ko_B := B |}.
  Proof.
    pose proof Hok as H. unfold k_construct in H. fold dim N grid in H. apply bind_ok in H. destruct H as (Zf & sm & HZ & H).
    apply bind_ok in H. destruct H as (B & sb & HB & H). apply ret_ok in H. destruct H as (H & <-). exists Zf, sm, B. auto.
  Qed.

  (** the forward flow: phases drawn around the initial condition, one Euler-Maruyama step, deterministic steps after that, every new state
      reduced modulo 2 pi, reweighted by exp(U) when a constraint is given *)
  Theorem C73_forward_flow : 1 <= n ->
    ko_grid o = grid /\ n <= k_k p /\ sh (ko_Z o) dim N (k_k p) /\
    exists h sa sm sg,
      mvn s0 (k_y1 p) (mk dim dim (fun i j => ndiv (nmul (if i =? j then none1 else nzero) (k_g p)) ntwo)) N = (h, sa) /\
      slice (ko_Z o) 0 = mk dim N (fun d m => h m d) /\ sg 0 = sa /\ sg (n - 1) = sm /\
      (forall i, 1 <= i < n -> phase_step E wrap (k_reweight p) (k_dt p) (k_kern p) (k_M p) (k_g p) (k_f p) (k_U p) i (nth i grid nzero)
         (slice (ko_Z o) (i-1)) (slice (ko_Z o) i) (sg (i-1)) (sg i)) /\
      (forall t, n <= t -> slice (ko_Z o) t = mzeros dim N).
  Proof.
    intro Hn. destruct run_parts as (Zf & sm & B & HZ & HB & ->). cbn [ko_grid ko_Z]. split; [reflexivity|].
    apply forward_run in HZ. 2:{ intro Q. unfold n in Hn. rewrite Q in Hn. cbn in Hn. lia. }
    destruct HZ as (H1 & H2 & H3 & h & sa & H4 & H5 & sg & H6 & H7 & H8). split; [auto|]. split; [auto|].
    exists h, sa, sm, sg. split; [|auto 7]. rewrite <- H4. f_equal. unfold divs, muls, eye, mmap1. cbn [mr mc mk]. apply wf_eq; try reflexivity; try apply wf_mk.
    intros a b Ha Hb. cbn in Ha, Hb. now rewrite !get_mk by auto.
  Qed.

  (** the reversed flow: starts from the last column of the forward flow, one stochastic step, deterministic steps after that, and the first
      column replaced by the initial condition.  Step j+1 -> j uses the forward ensemble of index j. *)
  Theorem C73_reverse_flow : n = k_k p -> 2 <= n ->
    sh (ko_B o) dim N n /\ slice (ko_B o) (n-1) = slice (ko_Z o) (n-1) /\ slice (ko_B o) 0 = mk dim N (fun d _ => nth d (k_y1 p) nzero) /\
    exists sm sg, sg (n - 1) = sm /\ sg 1 = s1 /\
      forall j, 1 <= j -> j + 1 < n ->
        phase_back_step E wrap (j =? n - 2) (k_dt p) (k_kern p) (k_M p) (k_g p) (k_f p) (nth (j+1) grid nzero)
          (slice (ko_Z o) j) (slice (ko_B o) (j+1)) (slice (ko_B o) j) (sg (j+1)) (sg j).
  Proof.
    intros Hk Hn. destruct run_parts as (Zf & sm & B & HZ & HB & ->). cbn [ko_B ko_Z].
    apply forward_run in HZ. 2:{ intro Q. unfold n in Hn. rewrite Q in Hn. cbn in Hn. lia. } destruct HZ as (_ & H2 & _).
    apply (backward_run E wrap p grid Zf (k_k p)) in HB; [|exact H2|fold n; lia|lia]. cbv zeta in HB. fold n dim N in HB.
    destruct HB as (H3 & H4 & H5 & sg & H6 & H7 & H8). rewrite Hk in *. split; [auto|]. split; [apply H5; lia|]. split; [auto|]. exists sm, sg. auto.
  Qed.

  (** the number of columns k is chosen by the caller, the number of grid points is not: with k too small the constructor fails ... *)
  Theorem C73_k_at_least_grid : n <= k_k p.
  Proof.
    destruct (Nat.le_gt_cases 1 n) as [H|H]; [apply (C73_forward_flow H)|]. lia.
  Qed.
  (** ... with k too large it succeeds, but the reversed flow then starts from a column of zeros, which is not the end of the forward flow *)
  Theorem C73_k_too_large : 2 <= n -> n < k_k p ->
    slice (ko_B o) (n-1) = mzeros dim N /\
    (3 <= n -> exists sm sg, phase_back_step E wrap true (k_dt p) (k_kern p) (k_M p) (k_g p) (k_f p) (nth (n-1) grid nzero)
        (slice (ko_Z o) (n-2)) (mzeros dim N) (slice (ko_B o) (n-2)) sm sg).
  Proof.
    intros Hn Hk. destruct run_parts as (Zf & sm & B & HZ & HB & ->). cbn [ko_B ko_Z].
    apply forward_run in HZ. 2:{ intro Q. unfold n in Hn. rewrite Q in Hn. cbn in Hn. lia. } destruct HZ as (_ & H2 & _).
    apply (backward_run E wrap p grid Zf (k_k p)) in HB; [|exact H2|fold n; lia|lia]. cbv zeta in HB. fold n dim N in HB.
    destruct HB as (H3 & H4 & H5 & sg & H6 & H7 & H8). destruct (H5 Hn) as (_ & H5'). specialize (H5' Hk). split; [auto|].
    intro H3n. specialize (H8 (n-2) ltac:(lia) ltac:(lia)). rewrite Nat.eqb_refl in H8. replace (n-2+1) with (n-1) in H8 by lia. rewrite H5' in H8. eauto.
  Qed.

  (** only the Gaussian kernel works: kern='periodic' is documented and accepted, and no run of three or more grid points survives it *)
  Theorem C73_only_rbf : 3 <= n -> k_kern p = "RBF"%string.
  Proof.
    intro Hn. destruct (C73_forward_flow ltac:(lia)) as (_ & _ & _ & h & sa & sm & sg & _ & _ & _ & _ & Hst & _).
    specialize (Hst 2 ltac:(lia)). unfold phase_step in Hst. cbn [Nat.eqb] in Hst.
    assert (Hs : forall t x x' s s', phase_flow_step E wrap (k_dt p) (k_kern p) (k_M p) (k_g p) (k_f p) t x x' s s' -> k_kern p = "RBF"%string).
    { intros t x x' s s' (F & bnds & rows & G & _ & _ & _ & _ & HG & _). unfold score_function_multid_seperate_all_dims in HG.
      apply rbind_ok in HG. destruct HG as ([[[K_xz Ksinv] A] sx] & HG & _). apply prep_all_ok in HG. destruct HG as (_ & G0 & HG & _).
      unfold grdx_of_all in HG. destruct (String.eqb (k_kern p) "RBF") eqn:Q; [now apply String.eqb_eq|discriminate]. }
    destruct (k_reweight p).
    - destruct Hst as (y & u & _ & _ & _ & Hst & _). eapply Hs; exact Hst.
    - eapply Hs; exact Hst.
  Qed.
End Flows.

(** ** calculate_u *)
Section Control.
  Context {T S : Type} {O : NumOps T} (E : Ext T S).
  (** the control at x is the difference of the scores of the reversed and of the forward ensemble, both with the lengthscales of the reversed one *)
  Theorem C73_control (o : kobj T) (gx : mat T) ti k s u s' :
    let p := ko_par o in let dim := List.length (k_y1 p) in
    sh (ko_Z o) dim (k_N p) k -> sh (ko_B o) dim (k_N p) k -> ti < k -> 
    k_calculate_u E o gx (Z.of_nat ti) s = (Ok u, s') ->
    phase_control E (k_kern p) (k_M p) (slice (ko_Z o) ti) (slice (ko_B o) ti) gx u s s'.
  Proof.
    cbv zeta. intros HZ HB Hk H. unfold k_calculate_u in H.
    assert (KZ : a_k (ko_Z o) = k) by apply HZ. assert (KB : a_k (ko_B o) = k) by apply HB.
    rewrite !getsl_nat in H by lia. destruct (sh_slice _ _ _ _ ti HB Hk) as (WB & RB & CB).
    apply bind_ok in H. destruct H as (b & sb & Hb & H). apply lift_ok in Hb. destruct Hb as (Hb & ->). injection Hb as <-.
    apply bind_ok in H. destruct H as (z & sz & Hz & H). apply lift_ok in Hz. destruct Hz as (Hz & ->). injection Hz as <-.
    apply bind_ok in H. destruct H as (bnds & sc & Hb & H). apply lift_ok in Hb. destruct Hb as (Hb & ->).
    apply bind_ok in H. destruct H as (Sxx & sd & HS & H). apply lift_ok in H. destruct H as (H & ->).
    apply inter_bnds_ok in Hb. destruct Hb as (Lb & Hb). apply sample_box_ok in HS. destruct HS as (rows & Hdr & Lr & HT & _).
    rewrite HT, lengthscales_eq in H.
    apply rbind_ok in H. destruct H as (fb & H1 & H). apply rbind_ok in H. destruct H as (Gb & H2 & H).
    apply rbind_ok in H. destruct H as (fz & H3 & H). apply rbind_ok in H. destruct H as (Gz & H4 & H). 
    apply rbind_ok in H. destruct H as (D & H5 & H). injection H as <-.
    destruct (score_all_fun_shape _ _ _ _ _ _ _ _ _ H1 H2) as (R1 & C1). destruct (score_all_fun_shape _ _ _ _ _ _ _ _ _ H3 H4) as (R2 & C2).
    destruct (sh_slice _ _ _ _ ti HZ Hk) as (WZ & RZ & CZ). cbn [mT mk mr mc] in R1, C1, R2, C2.
    assert (F : fits D (mc gx) (mr (slice (ko_B o) ti))).
    { apply bc2_ok in H5. destruct H5 as (_ & _ & _ & H5 & H6 & _). split; [left; rewrite H5|left; rewrite H6]; unfold bdim; rewrite ?R1, ?R2, ?C1, ?C2, ?RB, ?RZ;
        destruct (Nat.eqb _ _) eqn:Q; auto. }
    destruct (bc2_fit _ _ _ _ _ _ H5 F) as (F1 & F2 & G).
    assert (HD : mr D = mc gx /\ mc D = mr (slice (ko_B o) ti)).
    { apply bc2_ok in H5. destruct H5 as (_ & _ & _ & Q1 & Q2 & _). rewrite Q1, Q2. unfold bdim; rewrite ?R1, ?R2, ?C1, ?C2, ?RB, ?RZ. split; destruct (Nat.eqb _ _) eqn:Q; auto. }
    destruct HD as (HD1 & HD2).
    exists bnds, rows, fb, fz, Gb, Gz. rewrite RB in *. split; [exact Lb|]. split; [exact Hb|]. split; [exact Hdr|]. split; [auto|]. split; [auto|]. split; [auto|]. split; [auto|].
    split; [cbn; auto|]. split; [cbn; auto|].
    intros d m Hd Hm. rewrite get_mT by lia. rewrite <- (bget_in D) by lia. rewrite G by auto. rewrite !bget_in by lia. reflexivity.
  Qed.
End Control.
