(** C64: the time grid of torched_DPFC in IEEE double arithmetic (torch.arange: every point is start + i*step). *)
From Coq Require Import String List ZArith Reals Lra Lia Bool.
From Flocq Require Import Core BinarySingleNaN.
From Verif Require Import Base.Num Base.Py Base.Arr Lib.ArrLemmas Model.Ext Model.DPFC Model.TDPFC Lib.StochLemmas Lib.FlowLemmas Lib.TorchLemmas Spec.TotalSpec Spec.TTotalSpec Run.Double Props.DoubleGrid Props.TTotal.
Import ListNotations.
Local Open Scope R_scope.

Section Torch.
  Context (fexp fsin fcos : double -> double) (fsum : list double -> double).
  Local Instance OT : NumOps double := DoubleOps fexp fsin fcos fsum.
  Context {S : Type} (E : Ext double S) (b : ykind) (p : params double) (s : S) (o : obj double) (s' : S) (Hc : t_construct E b p s = (Ok o, s')).
  Let t1 := p_t1 p. Let t2 := p_t2 p.
  Context (F1 : is_finite t1 = true) (F2 : is_finite t2 = true).

  Lemma t_grid_of : o_grid o = map (fun i => nadd t1 (nmul (nofnat i) dt)) (seq 0 (List.length (timegrid t1 t2))).
  Proof.
    destruct (t_construct_ok E b p s o s' Hc) as (_ & _ & _ & G & _). unfold t_timegrid, t_arange in G. fold t1 t2 in G.
    unfold timegrid, np_arange. rewrite map_length, seq_length. destruct (nleb t1 (nadd t2 (ndiv dt ntwo))); [|discriminate G].
    assert (X : forall (A : Type) (a b : A), Ok a = Ok b -> b = a) by (intros A a b0 K; inversion K; reflexivity). exact (X _ _ _ G).
  Qed.
  (** as many points as the numpy class has for the same times *)
  Theorem C64_torch_same_number_of_points : List.length (o_grid o) = List.length (timegrid t1 t2).
  Proof. rewrite t_grid_of. now rewrite map_length, seq_length. Qed.
  Theorem C64_torch_number_of_points n : Rabs (B2R t1) <= 1048576 -> Rabs (B2R t2) <= 1048576 -> Rabs (B2R t2 - B2R t1 - INR n / 1000) <= 499 / 1000000 ->
    List.length (o_grid o) = (n + 1)%nat.
  Proof.
    intros B1 B2 H. rewrite C64_torch_same_number_of_points. apply (grid_length_n fexp fsin fcos fsum t1 t2 F1 F2 1048576); auto; lra.
  Qed.

  Section Points.
    Context (X : R) (HX : 1 <= X <= 1048576) (B1 : Rabs (B2R t1) <= X) (B2 : Rabs (B2R t2) <= X).
    Lemma t_point i : (i < List.length (o_grid o))%nat -> let v := nth i (o_grid o) nzero in
      is_finite v = true /\ Rabs (B2R v - (B2R t1 + INR i * B2R dt)) <= u * (6 * X + 1) /\ Rabs (B2R v - (B2R t1 + INR i / 1000)) <= 10 * X * u.
    Proof.
      intros Hi v. rewrite C64_torch_same_number_of_points in Hi.
      pose proof (index_bound fexp fsin fcos fsum t1 t2 F1 F2 X HX B1 B2 i Hi) as Bi. pose proof (pos_INR i) as Pi.
      assert (Ei : v = nadd t1 (nmul (nofnat i) dt)) by (unfold v; rewrite t_grid_of; now rewrite nth_map_seq). rewrite Ei. clear Ei v.
      assert (DN : near (dt (T:=double)) (/ 1000) (u * / 1000 + eta)) by exact (dt_near fexp fsin fcos fsum). destruct DN as (Fd & Vd). apply abs_b in Vd.
      assert (Hj : (Z.of_nat i < 9007199254740992)%Z). { apply lt_IZR. rewrite <- INR_IZR_INZ. lra. }
      destruct (nofnat_exact fexp fsin fcos fsum i Hj) as (Fj & Vj).
      change (nofnat (T:=double) (O:=OT) i) with (nofnat (T:=double) (O:=O fexp fsin fcos fsum) i).
      set (jj := nofnat (T:=double) (O:=O fexp fsin fcos fsum) i) in *. clearbody jj. set (st := dt (T:=double)) in *. clearbody st.
      assert (D : Rabs (INR i * B2R st - INR i * / 1000) <= (2000 * X + 1) * (u * / 1000 + eta)).
      { rewrite <- Rmult_minus_distr_l, Rabs_mult, (Rabs_right (INR i)) by lra. apply Rmult_le_compat; auto; try apply Rabs_pos. apply Rabs_le. lra. }
      apply abs_b in D.
      assert (D2 : (2000 * X + 1) * (u * / 1000 + eta) <= u * (2 * X + X / 500)) by (unu; lra).
      assert (A : Rabs (B2R jj * B2R st) <= 2 * X + X / 10) by (rewrite Vj; apply Rabs_le; unu; lra).
      destruct (Lmult fexp fsin fcos fsum jj st Fj Fd ltac:(lra)) as (P1 & P2). rewrite Vj in *.
      change (nmul (NumOps := O fexp fsin fcos fsum) jj st) with (nmul (NumOps := OT) jj st) in *. set (m := nmul (NumOps := OT) jj st) in *. clearbody m.
      assert (Q1 : u * Rabs (INR i * B2R st) <= u * (2 * X + X / 10)) by (apply Rmult_le_compat_l; [unu; lra|exact A]). apply abs_b in P2.
      pose proof (abs_b _ _ B1) as B1'.
      assert (A2 : Rabs (B2R t1 + B2R m) <= 3 * X + X / 2) by (apply Rabs_le; apply abs_b in A; unu; lra).
      destruct (Lplus fexp fsin fcos fsum t1 m F1 P1 ltac:(lra)) as (P3 & P4).
      change (nadd (NumOps := O fexp fsin fcos fsum) t1 m) with (nadd (NumOps := OT) t1 m) in *.
      split; [exact P3|]. apply abs_b in P4.
      assert (Q2 : u * Rabs (B2R t1 + B2R m) <= u * (3 * X + X / 2)) by (apply Rmult_le_compat_l; [unu; lra|exact A2]).
      split; apply Rabs_le; unu; lra.
    Qed.
  End Points.
  (** the points are finite and strictly increasing, and every one of them is within 5 max(1,|t1|,|t2|) 2^-52 of t1 + i/1000: unlike in the
      numpy class the error does not grow with i *)
  Theorem C64_torch_points X : 1 <= X <= 1048576 -> Rabs (B2R t1) <= X -> Rabs (B2R t2) <= X ->
    (forall i, (i < List.length (o_grid o))%nat -> let v := nth i (o_grid o) nzero in is_finite v = true /\
       Rabs (B2R v - (B2R t1 + INR i / 1000)) <= 5 * X * / 2 ^ 52) /\
    (forall i j, (i < j < List.length (o_grid o))%nat -> B2R (nth i (o_grid o) nzero) < B2R (nth j (o_grid o) nzero)) /\
    ((1 <= List.length (o_grid o))%nat -> B2R (nth 0 (o_grid o) nzero) = B2R t1).
  Proof.
    intros HX B1 B2. split; [|split].
    - intros i Hi v. destruct (t_point X HX B1 B2 i Hi) as (H1 & _ & H3). split; [exact H1|]. eapply Rle_trans; [exact H3|].
      apply Req_le. unfold u. replace (2 ^ 52) with 4503599627370496 by (cbn; lra). lra.
    - intros i j Hij. destruct (t_point X HX B1 B2 i ltac:(lia)) as (_ & _ & Hi). destruct (t_point X HX B1 B2 j ltac:(lia)) as (_ & _ & Hj).
      apply abs_b in Hi, Hj. assert (J : INR i + 1 <= INR j) by (rewrite <- S_INR; apply le_INR; lia). unu. lra.
    - intro H. destruct (t_point X HX B1 B2 0%nat ltac:(lia)) as (_ & _ & _). rewrite t_grid_of, nth_map_seq by (rewrite <- C64_torch_same_number_of_points; lia).
      assert (DN : near (dt (T:=double)) (/ 1000) (u * / 1000 + eta)) by exact (dt_near fexp fsin fcos fsum). destruct DN as (Fd & Vd). apply abs_b in Vd.
      destruct (nofnat_exact fexp fsin fcos fsum 0 ltac:(cbn; lia)) as (Fj & Vj).
      change (nofnat (T:=double) (O:=OT) 0) with (nofnat (T:=double) (O:=O fexp fsin fcos fsum) 0).
      set (jj := nofnat (T:=double) (O:=O fexp fsin fcos fsum) 0) in *. clearbody jj. cbn [INR] in Vj.
      change (nmul (NumOps := OT) jj dt) with (Bmult mode_NE jj (dt (T:=double))). change (nadd t1 (Bmult mode_NE jj (dt (T:=double)))) with (Bplus mode_NE t1 (Bmult mode_NE jj (dt (T:=double)))).
      pose proof (Bmult_correct 53 1024 _ _ mode_NE jj (dt (T:=double))) as C. rewrite Vj, Rmult_0_l, round_0 in C by apply valid_rnd_round_mode.
      rewrite Rabs_R0 in C. rewrite Rlt_bool_true in C by apply bpow_gt_0. destruct C as (C1 & C2 & _). rewrite Fj, Fd in C2.
      set (m := Bmult mode_NE jj (dt (T:=double))) in *. clearbody m.
      pose proof (Bplus_correct 53 1024 _ _ mode_NE t1 m F1 C2) as C. rewrite C1, Rplus_0_r in C.
      rewrite round_generic in C; [|apply valid_rnd_round_mode|apply generic_format_B2R].
      rewrite Rlt_bool_true in C; [exact (proj1 C)|]. apply abs_B2R_lt_emax.
  Qed.
  (** the two classes put point i at nearly the same time *)
  Theorem C64_torch_near_numpy X (S0 : Type) (E0 : Ext double S0) s0 o0 s0' : construct E0 p s0 = (Ok o0, s0') ->
    1 <= X <= 1048576 -> Rabs (B2R t1) <= X -> Rabs (B2R t2) <= X ->
    List.length (o_grid o) = List.length (o_grid o0) /\
    forall i, (i < List.length (o_grid o))%nat -> Rabs (B2R (nth i (o_grid o) nzero) - B2R (nth i (o_grid o0) nzero)) <= (INR i + 11) * X * / 2 ^ 52.
  Proof.
    intros H0 HX B1 B2. pose proof (grid_of fexp fsin fcos fsum E0 p s0 o0 s0' H0) as G0. change (o_grid o0 = timegrid t1 t2) in G0.
    split; [rewrite C64_torch_same_number_of_points; now rewrite G0|]. intros i Hi.
    destruct (C64_torch_points X HX B1 B2) as (P & _). destruct (P i Hi) as (_ & P1).
    destruct (C64_points fexp fsin fcos fsum E0 p s0 o0 s0' H0 F1 F2 X HX B1 B2) as (Q & _).
    destruct (Q i) as (_ & Q1). { rewrite C64_torch_same_number_of_points in Hi. change (i < List.length (o_grid o0))%nat. now rewrite G0. }
    change (nth i (o_grid o0) nzero) with (nth i (o_grid o0) (nzero (NumOps := O' fexp fsin fcos fsum))).
    apply abs_b in P1, Q1. apply Rabs_le. unfold t1 in *. lra.
  Qed.
End Torch.

(** ** a run that meets the hypotheses: t1 = 0.0, t2 = the double nearest to 1/1000, the rest as double_problem *)
Section Example64t.
  Context (fexp fsin fcos : double -> double) (fsum : list double -> double).
  Local Instance OW : NumOps double := DoubleOps fexp fsin fcos fsum.
  Definition short_double : params double := {|
    p_t1 := dZ 0; p_t2 := nlit 1 1000; p_y1 := [dZ 0; dZ 1]; p_y2 := [dZ 1; dZ 2];
    p_f := {| call1 := fun _ => Err TypeError; call2 := fun x _ => Ok (mk (mr x) (mc x) (fun d n => nopp (get x d n))) |};
    p_g := mk 1 1 (fun _ _ => dZ 1); p_N := 4; p_M := 3;
    p_reweight := false; p_U := None; p_dens_est := "nonparametric"; p_reject := true; p_kern := "RBF"; p_f_true := None; p_brown := false; p_det := true |}.
  Lemma short_double_grid : exists g, t_timegrid (p_t1 short_double) (p_t2 short_double) = Ok g /\ List.length g = 2%nat.
  Proof.
    destruct (dZ_exact 0 ltac:(cbn; lia)) as (F1 & V1). destruct (dZ_exact 1 ltac:(cbn; lia)) as (A1 & W1). destruct (dZ_exact 1000 ltac:(cbn; lia)) as (A2 & W2).
    pose proof (div_near (dZ 1) (dZ 1000) A1 ltac:(rewrite W2; lra)) as H. rewrite W1, W2 in H. replace (1 / 1000) with (/ 1000) in H by lra.
    rewrite (Rabs_right (/ 1000)) in H by lra. destruct (H ltac:(lra)) as (F2 & V2). apply abs_b in V2. clear H.
    cbn [short_double p_t1 p_t2]. set (t2 := nlit 1 1000). change (Bdiv mode_NE (dZ 1) (dZ 1000)) with t2 in F2, V2. set (t1 := dZ 0) in *. clearbody t1 t2.
    assert (B1 : Rabs (B2R t1) <= 1) by (rewrite V1, Rabs_R0; lra). assert (B2 : Rabs (B2R t2) <= 1) by (apply Rabs_le; unu; lra).
    destruct (stop_near fexp fsin fcos fsum t2 F2 1 ltac:(lra) B2) as (Fs & Vs). apply abs_b in Vs.
    assert (L : List.length (timegrid t1 t2) = (1 + 1)%nat).
    { apply (grid_length_n fexp fsin fcos fsum t1 t2 F1 F2 1 ltac:(lra) B1 B2). cbn [INR]. apply Rabs_le. unu. lra. }
    unfold t_timegrid, t_arange. change (nadd (NumOps := O fexp fsin fcos fsum) t2 (ndiv dt ntwo)) with (nadd (NumOps := OW) t2 (ndiv dt ntwo)) in *.
    set (stop := nadd t2 (ndiv dt ntwo)) in *.
    assert (Le : nleb t1 stop = true).
    { change (nleb t1 stop) with (Bleb t1 stop). rewrite Bleb_correct by auto. apply Rle_bool_true. unu. lra. }
    rewrite Le. eexists. split; [reflexivity|]. rewrite map_length, seq_length.
    unfold timegrid, np_arange in L. rewrite map_length, seq_length in L. exact L.
  Qed.
  Example C64_torch_run : exists o s', t_construct (HalfExt fexp fsin fcos fsum) IsTensor short_double 0%nat = (Ok o, s') /\ List.length (o_grid o) = 2%nat /\
    Rabs (B2R (nth 1 (o_grid o) nzero) - 1 / 1000) <= 5 * / 2 ^ 52.
  Proof.
    assert (HP : t_well_posed short_double).
    { constructor; cbn [short_double p_y1 p_y2 p_N p_kern p_f p_g p_reweight List.length mr mc]; try lia; try discriminate.
      - left. reflexivity.
      - intros x t H1 H2. eexists. split; [reflexivity|]. split; [exact H1|exact H2].
      - split; [left; reflexivity|reflexivity]. }
    destruct short_double_grid as (g & HG & L).
    destruct (C68_torch_short (HalfExt fexp fsin fcos fsum) short_double HP g 0%nat (or_introl eq_refl) HG ltac:(lia)) as (o & s' & H). exists o, s'. split; [exact H|].
    destruct (t_construct_ok _ _ _ _ _ _ H) as (_ & _ & _ & G & _). rewrite HG in G. injection G as G. rewrite <- G at 1. split; [exact L|].
    destruct (dZ_exact 0 ltac:(cbn; lia)) as (F1 & V1). destruct (dZ_exact 1 ltac:(cbn; lia)) as (A1 & W1). destruct (dZ_exact 1000 ltac:(cbn; lia)) as (A2 & W2).
    pose proof (div_near (dZ 1) (dZ 1000) A1 ltac:(rewrite W2; lra)) as Q. rewrite W1, W2 in Q. replace (1 / 1000) with (/ 1000) in Q by lra.
    rewrite (Rabs_right (/ 1000)) in Q by lra. destruct (Q ltac:(lra)) as (F2 & V2). apply abs_b in V2. change (Bdiv mode_NE (dZ 1) (dZ 1000)) with (p_t2 short_double) in *.
    assert (B1 : Rabs (B2R (p_t1 short_double)) <= 1) by (change (Rabs (B2R (dZ 0)) <= 1); rewrite V1, Rabs_R0; lra).
    assert (B2 : Rabs (B2R (p_t2 short_double)) <= 1) by (apply Rabs_le; unu; lra).
    destruct (C64_torch_points fexp fsin fcos fsum _ _ _ _ _ _ H F1 F2 1 ltac:(lra) B1 B2) as (P & _).
    destruct (P 1%nat ltac:(rewrite <- G; lia)) as (_ & P1). change (B2R (p_t1 short_double)) with (B2R (dZ 0)) in P1. rewrite V1 in P1. cbn [INR] in P1.
    replace (0 + 1 / 1000) with (1 / 1000) in P1 by lra. rewrite Rmult_1_r in P1. exact P1.
  Qed.
End Example64t.
