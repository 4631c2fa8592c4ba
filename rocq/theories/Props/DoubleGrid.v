(** C64: the time grid in IEEE double arithmetic. *)
From Coq Require Import String List ZArith Reals Lra Lia Bool.
From Flocq Require Import Core BinarySingleNaN.
From Verif Require Import Base.Num Base.Py Base.Arr Lib.ArrLemmas Model.Ext Model.DPFC Lib.StochLemmas Lib.FlowLemmas Spec.TotalSpec Props.Total Run.Double.
Import ListNotations.
Local Open Scope R_scope.

Lemma near_elim x v e : near x v e -> v - e <= B2R x <= v + e.
Proof. intros (_ & H). apply Rabs_le_inv in H. lra. Qed.
Lemma near_intro (x : double) v e : is_finite x = true -> v - e <= B2R x <= v + e -> near x v e.
Proof. intros H1 H2. split; [auto|]. apply Rabs_le. lra. Qed.
Ltac unu := unfold u, eta in *.
Lemma abs_b x b : Rabs x <= b -> - b <= x <= b. Proof. intro. now apply Rabs_le_inv. Qed.

Section G.
  Context (fexp fsin fcos : double -> double) (fsum : list double -> double).
  Local Instance O : NumOps double := DoubleOps fexp fsin fcos fsum.

  Lemma Lplus x y : is_finite x = true -> is_finite y = true -> Rabs (B2R x + B2R y) <= 1000000000000 ->
    near (nadd x y) (B2R x + B2R y) (u * Rabs (B2R x + B2R y) + eta).
  Proof. exact (plus_near x y). Qed.
  Lemma Lminus x y : is_finite x = true -> is_finite y = true -> Rabs (B2R x - B2R y) <= 1000000000000 ->
    near (nsub x y) (B2R x - B2R y) (u * Rabs (B2R x - B2R y) + eta).
  Proof. exact (minus_near x y). Qed.
  Lemma Lmult x y : is_finite x = true -> is_finite y = true -> Rabs (B2R x * B2R y) <= 1000000000000 ->
    near (nmul x y) (B2R x * B2R y) (u * Rabs (B2R x * B2R y) + eta).
  Proof. exact (mult_near x y). Qed.
  Lemma Ldiv x y : is_finite x = true -> B2R y <> 0 -> Rabs (B2R x / B2R y) <= 1000000000000 ->
    near (ndiv x y) (B2R x / B2R y) (u * Rabs (B2R x / B2R y) + eta).
  Proof. exact (div_near x y). Qed.
  Lemma nofnat_exact i : (Z.of_nat i < 9007199254740992)%Z -> is_finite (nofnat (T:=double) i) = true /\ B2R (nofnat (T:=double) i) = INR i.
  Proof.
    intro H. unfold nofnat. cbn [nlit O DoubleOps]. destruct (dZ_exact (Z.of_nat i) ltac:(lia)) as (Fi & Vi). destruct (dZ_exact 1 ltac:(cbn; lia)) as (Fo & Vo).
    pose proof (Bdiv_correct 53 1024 _ _ mode_NE (dZ (Z.of_nat i)) (dZ 1) ltac:(rewrite Vo; lra)) as C. rewrite Vo in C.
    replace (B2R (dZ (Z.of_nat i)) / 1) with (B2R (dZ (Z.of_nat i))) in C by lra.
    rewrite round_generic in C; [|apply valid_rnd_round_mode|apply generic_format_B2R]. rewrite Rlt_bool_true in C.
    - destruct C as (C1 & C2 & _). rewrite C1, C2. rewrite Vi, INR_IZR_INZ. auto.
    - rewrite Vi, <- abs_IZR. apply Rlt_trans with (IZR 9007199254740992); [apply IZR_lt; lia|]. apply Rle_lt_trans with (bpow radix2 60); [cbn; lra|apply bpow_lt; lia].
  Qed.
  Lemma dt_near : near dt (/ 1000) (u * / 1000 + eta).
  Proof.
    unfold dt, nmilli. cbn [nlit O DoubleOps]. destruct (dZ_exact 1 ltac:(cbn; lia)) as (F1 & V1). destruct (dZ_exact 1000 ltac:(cbn; lia)) as (F2 & V2).
    pose proof (div_near (dZ 1) (dZ 1000) F1 ltac:(rewrite V2; lra)) as H. rewrite V1, V2 in H.
    replace (1 / 1000) with (/ 1000) in H by lra. rewrite (Rabs_right (/ 1000)) in H by lra. apply H. lra.
  Qed.
  Lemma half_near : near (ndiv dt ntwo) (/ 2000) (3 * u * / 1000 + 3 * eta).
  Proof.
    destruct dt_near as (F & V). apply abs_b in V. destruct (nofnat_exact 2 ltac:(cbn; lia)) as (F2 & V2). change (nofnat (T:=double) 2) with (ntwo (T:=double)) in *.
    replace (INR 2) with 2 in V2 by (cbn; lra).
    assert (B : 0 <= B2R dt / B2R ntwo <= 1). { rewrite V2. unu. lra. }
    assert (N2 : B2R (ntwo (T:=double)) <> 0) by (rewrite V2; lra). pose proof (Ldiv dt ntwo F N2) as H. rewrite Rabs_right in H by lra. specialize (H ltac:(lra)). destruct H as (H1 & H2). split; [exact H1|].
    apply Rabs_le. apply abs_b in H2. rewrite V2 in *. unu. lra.
  Qed.

  Context (t1 t2 : double) (F1 : is_finite t1 = true) (F2 : is_finite t2 = true) (X : R) (HX : 1 <= X <= 1048576) (B1 : Rabs (B2R t1) <= X) (B2 : Rabs (B2R t2) <= X).
  Let stop := nadd t2 (ndiv dt ntwo).
  Let quot := ndiv (nsub stop t1) dt.
  Lemma stop_near : near stop (B2R t2 + / 2000) (u * (X + 1)).
  Proof.
    destruct half_near as (F & V). apply abs_b in V, B2. unfold stop.
    set (h := ndiv dt ntwo) in *. clearbody h. assert (A : Rabs (B2R t2 + B2R h) <= X + 1/100) by (apply Rabs_le; unu; lra).
    destruct (Lplus t2 h F2 F ltac:(lra)) as (P1 & P2). split; [exact P1|]. apply Rabs_le. apply abs_b in P2.
    assert (u * Rabs (B2R t2 + B2R h) <= u * (X + 1/100)) by (apply Rmult_le_compat_l; [unu; lra|exact A]). unu. lra.
  Qed.
  Lemma diff_near : near (nsub stop t1) (B2R t2 - B2R t1 + / 2000) (u * (3 * X + 3)).
  Proof.
    destruct stop_near as (F & V). apply abs_b in V, B1, B2. set (h := stop) in *. clearbody h.
    assert (A : Rabs (B2R h - B2R t1) <= 2 * X + 1/100) by (apply Rabs_le; unu; lra).
    destruct (Lminus h t1 F F1 ltac:(lra)) as (P1 & P2). split; [exact P1|]. apply Rabs_le. apply abs_b in P2.
    assert (u * Rabs (B2R h - B2R t1) <= u * (2 * X + 1/100)) by (apply Rmult_le_compat_l; [unu; lra|exact A]). unu. lra.
  Qed.
  Lemma inv_dt : B2R (dt (T:=double)) <> 0 /\ 1000 - 2000 * u <= / B2R dt <= 1000 + 2000 * u.
  Proof.
    destruct dt_near as (_ & V). apply abs_b in V. assert (P : 0 < B2R dt) by (unu; lra). split; [lra|]. set (v := B2R dt) in *. clearbody v.
    assert (E : v * / v = 1) by (field; lra). assert (Q : 0 < / v) by now apply Rinv_0_lt_compat.
    assert (C : 0 < u < / 1000000). { unu. lra. } assert (C2 : 0 <= eta <= u * / 100000) by (unu; lra).
    split; apply (Rmult_le_reg_l v); auto; rewrite E; nra.
  Qed.
  Lemma quot_near : near quot ((B2R t2 - B2R t1) * 1000 + / 2) (u * (9000 * X + 9000)).
  Proof.
    destruct diff_near as (F & V). destruct inv_dt as (N & I). apply abs_b in V, B1, B2. unfold quot. set (h := nsub stop t1) in *. clearbody h.
    assert (A : Rabs (B2R h) <= 2 * X + 1/100) by (apply Rabs_le; unu; lra).
    assert (D : Rabs (B2R h / B2R dt - 1000 * B2R h) <= 2000 * u * (2 * X + 1/100)).
    { replace (B2R h / B2R dt - 1000 * B2R h) with ((/ B2R dt - 1000) * B2R h) by (unfold Rdiv; ring). rewrite Rabs_mult. apply Rmult_le_compat; try apply Rabs_pos; [|exact A]. apply Rabs_le. lra. }
    apply abs_b in D, A. assert (Q : Rabs (B2R h / B2R dt) <= 2000 * X + 100) by (apply Rabs_le; unu; lra).
    destruct (Ldiv h dt F N ltac:(lra)) as (P1 & P2). split; [exact P1|]. apply Rabs_le. apply abs_b in P2.
    assert (u * Rabs (B2R h / B2R dt) <= u * (2000 * X + 100)) by (apply Rmult_le_compat_l; [unu; lra|exact Q]). unu. lra.
  Qed.
  Lemma quot_bounds : (B2R t2 - B2R t1) * 1000 + / 2 - / 100000 <= B2R quot <= (B2R t2 - B2R t1) * 1000 + / 2 + / 100000.
  Proof. destruct quot_near as (_ & V). apply abs_b in V. unu. lra. Qed.

  Lemma grid_length : List.length (timegrid t1 t2) = Z.to_nat (Zceil (B2R quot)).
  Proof. unfold timegrid, np_arange. rewrite map_length, seq_length. reflexivity. Qed.
  Lemma grid_length_n n : Rabs (B2R t2 - B2R t1 - INR n / 1000) <= 499 / 1000000 -> List.length (timegrid t1 t2) = (n + 1)%nat.
  Proof.
    intro H. apply abs_b in H. rewrite grid_length. pose proof quot_bounds as Q. rewrite (Zceil_imp (Z.of_nat n + 1)); [lia|].
    rewrite <- INR_IZR_INZ || idtac. rewrite minus_IZR, plus_IZR, <- INR_IZR_INZ. lra.
  Qed.
  Lemma index_bound i : (i < List.length (timegrid t1 t2))%nat -> INR i <= 2000 * X + 1.
  Proof.
    rewrite grid_length. intro H. pose proof quot_bounds as Q. assert (C : (Z.of_nat i < Zceil (B2R quot))%Z) by lia.
    assert (L : IZR (Z.of_nat i) < B2R quot). { destruct (Rlt_or_le (IZR (Z.of_nat i)) (B2R quot)) as [|K]; [auto|]. exfalso. apply Zceil_glb in K. lia. }
    rewrite <- INR_IZR_INZ in L. apply abs_b in B1, B2. lra.
  Qed.

  Let second := nadd t1 dt.
  Let step := nsub second t1.
  Lemma second_near : near second (B2R t1 + / 1000) (u * (X + / 100)).
  Proof.
    destruct dt_near as (F & V). apply abs_b in V, B1. unfold second.
    set (h := dt) in *. clearbody h. assert (A : Rabs (B2R t1 + B2R h) <= X + /500) by (apply Rabs_le; unu; lra).
    destruct (Lplus t1 h F1 F ltac:(lra)) as (P1 & P2). split; [exact P1|]. apply Rabs_le. apply abs_b in P2.
    assert (u * Rabs (B2R t1 + B2R h) <= u * (X + /500)) by (apply Rmult_le_compat_l; [unu; lra|exact A]). unu. lra.
  Qed.
  Lemma step_near : near step (/ 1000) (u * (X + / 10)).
  Proof.
    destruct second_near as (F & V). apply abs_b in V. unfold step. set (h := second) in *. clearbody h.
    assert (A : Rabs (B2R h - B2R t1) <= / 500) by (apply Rabs_le; unu; lra).
    destruct (Lminus h t1 F F1 ltac:(lra)) as (P1 & P2). split; [exact P1|]. apply Rabs_le. apply abs_b in P2.
    assert (u * Rabs (B2R h - B2R t1) <= u * / 500) by (apply Rmult_le_compat_l; [unu; lra|exact A]). unu. lra.
  Qed.

  (** point i of the grid, relative to t1 + i * step and to t1 + i/1000 *)
  Lemma point_near i : (i < List.length (timegrid t1 t2))%nat ->
    let v := nth i (timegrid t1 t2) nzero in is_finite v = true /\ Rabs (B2R v - (B2R t1 + INR i * B2R step)) <= u * (6 * X + 1).
  Proof.
    intros Hi v. pose proof (index_bound i Hi) as Bi. pose proof (pos_INR i) as Pi.
    assert (Ei : v = match i with 0%nat => t1 | 1%nat => second | _ => nadd t1 (nmul (nofnat i) step) end).
    { unfold v, timegrid, np_arange. rewrite grid_length in Hi. rewrite nth_map_seq by exact Hi. reflexivity. }
    rewrite Ei. clear Ei v. destruct step_near as (Fs & Vs). apply abs_b in Vs. pose proof (abs_b _ _ B1) as B1'.
    destruct i as [|[|i]].
    - split; [exact F1|]. cbn [INR]. replace (B2R t1 - (B2R t1 + 0 * B2R step)) with 0 by ring. rewrite Rabs_R0. unu. lra.
    - destruct second_near as (Fc & Vc). split; [exact Fc|]. apply abs_b in Vc. cbn [INR]. apply Rabs_le. unfold step in *. 
      set (h := second) in *. clearbody h. clear step.
      assert (A : Rabs (B2R h - B2R t1) <= / 500) by (apply Rabs_le; unu; lra).
      destruct (Lminus h t1 Fc F1 ltac:(lra)) as (P1 & P2). apply abs_b in P2.
      assert (u * Rabs (B2R h - B2R t1) <= u * / 500) by (apply Rmult_le_compat_l; [unu; lra|exact A]). unu. lra.
    - set (j := Datatypes.S (Datatypes.S i)) in *.
      assert (Hj : (Z.of_nat j < 9007199254740992)%Z). { apply lt_IZR. rewrite <- INR_IZR_INZ. lra. }
      destruct (nofnat_exact j Hj) as (Fj & Vj). set (jj := nofnat j) in *. clearbody jj. set (st := step) in *. clearbody st. clear stop quot second step.
      assert (D : Rabs (INR j * B2R st - INR j * / 1000) <= (2000 * X + 1) * (u * (X + / 10))).
      { rewrite <- Rmult_minus_distr_l, Rabs_mult, (Rabs_right (INR j)) by lra. apply Rmult_le_compat; auto; try apply Rabs_pos. apply Rabs_le. lra. }
      assert (D2 : u * (X + / 10) <= / 1000000000) by (unu; lra).
      assert (D3 : (2000 * X + 1) * (u * (X + / 10)) <= (2000 * X + 1) * / 1000000000) by (apply Rmult_le_compat_l; lra). apply abs_b in D.
      assert (A : Rabs (B2R jj * B2R st) <= 2 * X + X / 10) by (rewrite Vj; apply Rabs_le; lra).
      destruct (Lmult jj st Fj Fs ltac:(lra)) as (P1 & P2). rewrite Vj in *. set (m := nmul jj st) in *. clearbody m.
      assert (Q1 : u * Rabs (INR j * B2R st) <= u * (2 * X + X / 10)) by (apply Rmult_le_compat_l; [unu; lra|exact A]). apply abs_b in P2.
      assert (A2 : Rabs (B2R t1 + B2R m) <= 3 * X + X / 2) by (apply Rabs_le; apply abs_b in A; unu; lra).
      destruct (Lplus t1 m F1 P1 ltac:(lra)) as (P3 & P4). split; [exact P3|]. apply abs_b in P4.
      assert (Q2 : u * Rabs (B2R t1 + B2R m) <= u * (3 * X + X / 2)) by (apply Rmult_le_compat_l; [unu; lra|exact A2]). apply Rabs_le. unu. lra.
  Qed.
  Lemma point_value i : (i < List.length (timegrid t1 t2))%nat -> Rabs (B2R (nth i (timegrid t1 t2) nzero) - (B2R t1 + INR i / 1000)) <= (INR i + 6) * X * (2 * u).
  Proof.
    intro Hi. destruct (point_near i Hi) as (_ & P). destruct step_near as (_ & V). apply abs_b in P, V. pose proof (pos_INR i) as Pi.
    assert (D : Rabs (INR i * (B2R step - / 1000)) <= INR i * (u * (X + / 10))).
    { rewrite Rabs_mult, (Rabs_right (INR i)) by lra. apply Rmult_le_compat_l; [lra|]. apply Rabs_le. lra. }
    apply abs_b in D. assert (D2 : INR i * (u * (X + / 10)) <= INR i * (u * (2 * X))) by (apply Rmult_le_compat_l; [lra|]; unu; lra).
    assert (Q : u * (6 * X + 1) <= 6 * X * (2 * u)) by (unu; lra). apply Rabs_le. nra.
  Qed.
  Lemma point_increasing i j : (i < j < List.length (timegrid t1 t2))%nat -> B2R (nth i (timegrid t1 t2) nzero) < B2R (nth j (timegrid t1 t2) nzero).
  Proof.
    intro H. destruct (point_near i ltac:(lia)) as (_ & P). destruct (point_near j ltac:(lia)) as (_ & P'). destruct step_near as (_ & V). apply abs_b in P, P', V.
    assert (J : INR i + 1 <= INR j) by (rewrite <- S_INR; apply le_INR; lia).
    assert (Q : INR i * B2R step + B2R step <= INR j * B2R step).
    { replace (INR i * B2R step + B2R step) with ((INR i + 1) * B2R step) by ring. apply Rmult_le_compat_r; [unu; lra|exact J]. }
    unu. lra.
  Qed.
End G.

Section Theorems.
  Context (fexp fsin fcos : double -> double) (fsum : list double -> double).
  Local Instance O' : NumOps double := DoubleOps fexp fsin fcos fsum.
  Context {S : Type} (E : Ext double S) (p : params double) (s : S) (o : obj double) (s' : S) (Hc : construct E p s = (Ok o, s')).
  Let t1 := p_t1 p. Let t2 := p_t2 p.
  Context (F1 : is_finite t1 = true) (F2 : is_finite t2 = true).
  Lemma grid_of : o_grid o = timegrid t1 t2.
  Proof. destruct (construct_ok E p s o s' Hc) as (_ & _ & G & _). exact G. Qed.

  (** rounding does not add or drop a grid point: if t2 - t1 is within 0.499 steps of n steps there are n+1 points *)
  Theorem C64_number_of_points n : Rabs (B2R t1) <= 1048576 -> Rabs (B2R t2) <= 1048576 -> Rabs (B2R t2 - B2R t1 - INR n / 1000) <= 499 / 1000000 ->
    List.length (o_grid o) = (n + 1)%nat.
  Proof. intros B1 B2 H. rewrite grid_of. apply (grid_length_n fexp fsin fcos fsum t1 t2 F1 F2 1048576); auto; lra. Qed.
  (** the points are finite, strictly increasing, start at t1, and drift from t1 + i/1000 by at most 2^-52 max(1,|t1|,|t2|) per step *)
  Theorem C64_points X : 1 <= X <= 1048576 -> Rabs (B2R t1) <= X -> Rabs (B2R t2) <= X ->
    (forall i, (i < List.length (o_grid o))%nat -> let v := nth i (o_grid o) nzero in is_finite v = true /\
       Rabs (B2R v - (B2R t1 + INR i / 1000)) <= (INR i + 6) * X * / 2 ^ 52) /\
    (forall i j, (i < j < List.length (o_grid o))%nat -> B2R (nth i (o_grid o) nzero) < B2R (nth j (o_grid o) nzero)) /\
    ((1 <= List.length (o_grid o))%nat -> nth 0 (o_grid o) nzero = t1).
  Proof.
    intros HX B1 B2. rewrite grid_of. split; [|split].
    - intros i Hi v. split; [apply (point_near fexp fsin fcos fsum t1 t2 F1 F2 X HX B1 B2 i Hi)|].
      eapply Rle_trans; [apply (point_value fexp fsin fcos fsum t1 t2 F1 F2 X HX B1 B2 i Hi)|]. apply Req_le. unfold u. replace (2 ^ 52) with 4503599627370496 by (cbn; lra). lra.
    - intros i j Hij. apply (point_increasing fexp fsin fcos fsum t1 t2 F1 F2 X HX B1 B2 i j Hij).
    - intro H. unfold timegrid, np_arange in *. rewrite map_length, seq_length in H. rewrite nth_map_seq by lia. reflexivity.
  Qed.
  (** a grid that starts at 0 has no drift: point i is i/1000 up to three half-ulps *)
  Theorem C64_zero_start : B2R t1 = 0 -> Rabs (B2R t2) <= 1048576 ->
    forall i, (i < List.length (o_grid o))%nat -> Rabs (B2R (nth i (o_grid o) nzero) - INR i / 1000) <= INR i / 1000 * (3 * / 2 ^ 53).
  Proof.
    intros Z B2 i. rewrite grid_of. intro Hi. assert (B1 : Rabs (B2R t1) <= 1048576) by (rewrite Z, Rabs_R0; lra).
    pose proof (index_bound fexp fsin fcos fsum t1 t2 F1 F2 1048576 ltac:(lra) B1 B2 i Hi) as Bi. pose proof (pos_INR i) as Pi.
    assert (Ei : nth i (timegrid t1 t2) nzero = match i with 0%nat => t1 | 1%nat => nadd t1 dt | _ => nadd t1 (nmul (nofnat i) (nsub (nadd t1 dt) t1)) end).
    { rewrite (grid_length fexp fsin fcos fsum) in Hi. unfold timegrid, np_arange. rewrite nth_map_seq by exact Hi. reflexivity. }
    rewrite Ei. clear Ei. assert (DN : near (dt (T:=double)) (/ 1000) (u * / 1000 + eta)) by exact (dt_near fexp fsin fcos fsum). destruct DN as (Fd & Vd). apply abs_b in Vd.
    assert (Add : forall x : double, is_finite x = true -> Rabs (B2R x) <= 1000000000000 -> is_finite (nadd t1 x) = true /\ B2R (nadd t1 x) = B2R x).
    { intros x Fx Hx. pose proof (Bplus_correct 53 1024 _ _ mode_NE t1 x F1 Fx) as C. rewrite Z, Rplus_0_l in C.
      rewrite rnd_small in C by now apply big. rewrite round_generic in C; [|apply valid_rnd_round_mode|apply generic_format_B2R]. destruct C as (C1 & C2 & _). split; [exact C2|exact C1]. }
    assert (Sub : forall x : double, is_finite x = true -> Rabs (B2R x) <= 1000000000000 -> is_finite (nsub x t1) = true /\ B2R (nsub x t1) = B2R x).
    { intros x Fx Hx. pose proof (Bminus_correct 53 1024 _ _ mode_NE x t1 Fx F1) as C. rewrite Z, Rminus_0_r in C.
      rewrite rnd_small in C by now apply big. rewrite round_generic in C; [|apply valid_rnd_round_mode|apply generic_format_B2R]. destruct C as (C1 & C2 & _). split; [exact C2|exact C1]. }
    assert (Bd : Rabs (B2R (dt (T:=double))) <= 1000000000000) by (apply Rabs_le; unu; lra).
    destruct (Add dt Fd Bd) as (Fs & Vs). assert (Bs : Rabs (B2R (nadd t1 dt)) <= 1000000000000) by (rewrite Vs; exact Bd).
    destruct (Sub (nadd t1 dt) Fs Bs) as (Fst & Vst). replace (2 ^ 53) with 9007199254740992 by (cbn; lra).
    destruct i as [|[|i]].
    - rewrite Z. cbn [INR]. apply Rabs_le. lra.
    - rewrite Vs. cbn [INR]. apply Rabs_le. unu. lra.
    - set (j := Datatypes.S (Datatypes.S i)) in *. assert (Hj : (Z.of_nat j < 9007199254740992)%Z). { apply lt_IZR. rewrite <- INR_IZR_INZ. lra. }
      destruct (nofnat_exact fexp fsin fcos fsum j Hj) as (Fj & Vj). set (st := nsub (nadd t1 dt) t1) in *. clearbody st. rewrite Vs in Vst.
      assert (J1 : 1 <= INR j) by (change 1 with (INR 1); apply le_INR; lia).
      assert (D : INR j * (/ 1000 - (u * / 1000 + eta)) <= INR j * B2R st <= INR j * (/ 1000 + (u * / 1000 + eta))) by (rewrite Vst; split; apply Rmult_le_compat_l; lra).
      assert (A : Rabs (INR j * B2R st) <= INR j * / 999) by (apply Rabs_le; unu; lra).
      change (nofnat (T:=double) (O:=O') j) with (nofnat (T:=double) (O:=O fexp fsin fcos fsum) j). set (jj := nofnat (T:=double) (O:=O fexp fsin fcos fsum) j) in *. clearbody jj.
      assert (A' : Rabs (B2R jj * B2R st) <= 1000000000000) by (rewrite Vj; lra).
      destruct (Lmult fexp fsin fcos fsum jj st Fj Fst A') as (P1 & P2). rewrite Vj in P2. change (nmul (NumOps := O fexp fsin fcos fsum) jj st) with (nmul (NumOps := O') jj st) in *. 
      set (m := nmul (NumOps := O') jj st) in *. clearbody m.
      assert (Q1 : u * Rabs (INR j * B2R st) <= u * (INR j * / 999)) by (apply Rmult_le_compat_l; [unu; lra|exact A]). apply abs_b in P2.
      destruct (Add m P1) as (_ & ->). { apply Rabs_le. apply abs_b in A. unu. lra. }
      apply Rabs_le. unu. lra.
  Qed.
End Theorems.

(** ** a run in doubles that meets the hypotheses: t1 = 0.0, t2 = 0.02 (the double nearest to 2/100), two coordinates; 21 grid points *)
Section Example64.
  Context (fexp fsin fcos : double -> double) (fsum : list double -> double).
  Local Instance O2 : NumOps double := DoubleOps fexp fsin fcos fsum.
  Definition HalfExt : Ext double nat := {|
    x_normal := fun s sc r c => (fun i j => if Nat.even (i + j + s) then sc else nopp sc, Datatypes.S s);
    x_uniform := fun s lo hi m => (Ok (fun i => ndiv (nadd lo hi) ntwo), Datatypes.S s);
    x_tuniform := fun s lo hi m => (fun i d => nth d lo nzero, Datatypes.S s);
    x_inv := fun A => Some (fun i j => if Nat.eqb i j then ndiv none1 (get A i i) else nzero);
    x_emd := fun a b c i j => nmul (nth i a nzero) (nth j b nzero);
    x_otemd := fun a b c i j => nmul (nth i a nzero) (nth j b nzero) |}.
  Definition double_problem : params double := {|
    p_t1 := dZ 0; p_t2 := nlit 2 100; p_y1 := [dZ 0; dZ 1]; p_y2 := [dZ 1; dZ 2];
    p_f := {| call1 := fun _ => Err TypeError; call2 := fun x _ => Ok (mk (mr x) (mc x) (fun d n => nopp (get x d n))) |};
    p_g := mk 1 1 (fun _ _ => dZ 1); p_N := 4; p_M := 3;
    p_reweight := false; p_U := None; p_dens_est := "nonparametric"; p_reject := true; p_kern := "RBF"; p_f_true := None; p_brown := false; p_det := true |}.
  Lemma t2_near : near (p_t2 double_problem) (1 / 50) (u * / 50 + eta).
  Proof.
    cbn [p_t2 double_problem nlit O2 DoubleOps]. destruct (dZ_exact 2 ltac:(cbn; lia)) as (A1 & V1). destruct (dZ_exact 100 ltac:(cbn; lia)) as (A2 & V2).
    pose proof (div_near (dZ 2) (dZ 100) A1 ltac:(rewrite V2; lra)) as H. rewrite V1, V2 in H. replace (2 / 100) with (1 / 50) in H by lra.
    rewrite (Rabs_right (1 / 50)) in H by lra. replace (/ 50) with (1 / 50) by lra. apply H. lra.
  Qed.
  Example C64_run : exists o s', construct HalfExt double_problem 0%nat = (Ok o, s') /\ List.length (o_grid o) = 21%nat /\
    forall i, (i < 21)%nat -> Rabs (B2R (nth i (o_grid o) nzero) - INR i / 1000) <= INR i / 1000 * (3 * / 2 ^ 53).
  Proof.
    destruct t2_near as (F2 & V2). apply abs_b in V2. destruct (dZ_exact 0 ltac:(cbn; lia)) as (F1 & V1).
    assert (B1 : Rabs (B2R (dZ 0)) <= 1048576) by (rewrite V1, Rabs_R0; lra).
    assert (B2 : Rabs (B2R (p_t2 double_problem)) <= 1048576) by (apply Rabs_le; unu; lra).
    assert (B3 : Rabs (B2R (p_t2 double_problem) - B2R (dZ 0) - INR 20 / 1000) <= 499 / 1000000).
    { rewrite V1. replace (INR 20) with 20 by (cbn; lra). apply Rabs_le. unu. lra. }
    assert (L : List.length (timegrid (p_t1 double_problem) (p_t2 double_problem)) = 21%nat).
    { apply (grid_length_n fexp fsin fcos fsum (dZ 0) (p_t2 double_problem) F1 F2 1048576 ltac:(lra) B1 B2 20). exact B3. }
    destruct (C18_construction_succeeds HalfExt double_problem 0%nat) as (o & s' & H).
    - constructor; cbn; auto; try lia; try discriminate. intros x t H1 H2. eexists. split; [reflexivity|]. cbn. auto.
    - intros s lo hi m. cbn. eauto.
    - left. cbn. lia.
    - intros A _. cbn. discriminate.
    - reflexivity.
    - rewrite L. lia.
    - exists o, s'. split; [exact H|]. assert (LL : List.length (o_grid o) = 21%nat).
      { apply (C64_number_of_points fexp fsin fcos fsum HalfExt double_problem 0%nat o s' H F1 F2 20 B1 B2 B3). }
      split; [exact LL|]. intros i Hi. apply (C64_zero_start fexp fsin fcos fsum HalfExt double_problem 0%nat o s' H F1 F2 V1 B2). rewrite LL. exact Hi.
  Qed.
End Example64.
