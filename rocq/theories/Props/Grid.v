(** C01, C02: the time grid, over exact reals. *)
From Coq Require Import String List ZArith Lia Bool Reals Lra.
From Verif Require Import Base.Num Base.Py Base.Arr Lib.ArrLemmas Model.Ext Model.DPFC.
From Verif Require Import Lib.StochLemmas Lib.FlowLemmas Props.Flows.
Import ListNotations.
Local Open Scope R_scope.

(** [g] is the grid t1, t1+h, t1+2h, ..., stopping within half a step of t2 *)
Definition regular_grid (h t1 t2 : R) (g : list R) : Prop :=
  (1 <= List.length g)%nat /\
  (forall i, (i < List.length g)%nat -> nth i g 0 = t1 + INR i * h) /\
  Rabs (nth (List.length g - 1) g 0 - t2) <= h / 2.

Lemma ceil_spec (x : R) : x <= IZR (nceil x) < x + 1.
Proof.
  change (nceil x) with (1 - up (- x))%Z. pose proof (archimed (- x)) as (H1 & H2). rewrite minus_IZR. lra.
Qed.

Lemma ceil_unique (x : R) (n : Z) : x <= IZR n < x + 1 -> nceil x = n.
Proof.
  intros (H1 & H2). pose proof (ceil_spec x) as (H3 & H4).
  assert (IZR (nceil x) < IZR (n + 1)) by (rewrite plus_IZR; lra).
  assert (IZR n < IZR (nceil x + 1)) by (rewrite plus_IZR; lra).
  apply lt_IZR in H. apply lt_IZR in H0. lia.
Qed.

Definition npts (t1 t2 : R) : nat := Z.to_nat (nceil ((t2 + 1/2000 - t1) * 1000)).

Lemma timegrid_eq (t1 t2 : R) : timegrid t1 t2 = map (fun i => t1 + INR i * (1/1000)) (seq 0 (npts t1 t2)).
Proof.
  unfold timegrid, np_arange, npts. cbn [nadd nsub ndiv nmul ROps dt].
  replace ((t2 + dt / ntwo - t1) / dt) with ((t2 + 1/2000 - t1) * 1000) by (unfold dt, ntwo, nmilli; cbn; lra).
  apply map_ext_in. intros i Hi. unfold dt, nmilli, nofnat. destruct i as [|[|i]].
  - cbn. lra.
  - cbn. lra.
  - set (j := Datatypes.S (Datatypes.S i)). cbn [nlit ROps]. rewrite <- INR_IZR_INZ. lra.
Qed.

Lemma nth_grid t1 t2 i : (i < npts t1 t2)%nat -> nth i (timegrid t1 t2) 0 = t1 + INR i * (1/1000).
Proof.
  intro H. rewrite timegrid_eq. rewrite nth_indep with (d' := t1 + INR 0 * (1/1000)) by (rewrite map_length, seq_length; auto).
  rewrite (map_nth (fun i => t1 + INR i * (1/1000)) _ 0%nat). rewrite seq_nth by auto. reflexivity.
Qed.
Lemma length_grid t1 t2 : List.length (timegrid t1 t2) = npts t1 t2.
Proof. rewrite timegrid_eq, map_length, seq_length. reflexivity. Qed.

Lemma npts_spec t1 t2 (n : nat) : t1 + INR n * (1/1000) - 1/2000 < t2 <= t1 + INR n * (1/1000) + 1/2000 -> npts t1 t2 = (n + 1)%nat.
Proof.
  intros (H1 & H2). unfold npts.
  rewrite (ceil_unique _ (Z.of_nat n + 1)); [lia|]. rewrite plus_IZR, <- INR_IZR_INZ. lra.
Qed.

(** the number of points: n+1 exactly when t2 lies in (t1 + (n-1/2)h, t1 + (n+1/2)h] *)
Lemma npts_find t1 t2 : t1 - 1/2000 < t2 -> exists n, t1 + INR n * (1/1000) - 1/2000 < t2 <= t1 + INR n * (1/1000) + 1/2000.
Proof.
  intro H. pose proof (ceil_spec ((t2 - t1 - 1/2000) * 1000)) as C.
  set (c := nceil ((t2 - t1 - 1/2000) * 1000)) in *.
  assert (Hc : (0 <= c)%Z).
  { assert (IZR (-1) < IZR c) by (destruct C; lra). apply lt_IZR in H0. lia. }
  exists (Z.to_nat c). rewrite INR_IZR_INZ, Z2Nat.id by auto. lra.
Qed.

Section Grid.
  Context {S : Type} (E : Ext R S).

  Theorem C01_timegrid p s o s' : construct E p s = (Ok o, s') -> p_t1 p <= p_t2 p ->
    regular_grid (1/1000) (p_t1 p) (p_t2 p) (o_grid o).
  Proof.
    intros Hc Ht. rewrite (grid_eq E p s o s' Hc). unfold regular_grid. rewrite length_grid.
    destruct (npts_find (p_t1 p) (p_t2 p) ltac:(lra)) as (n & Hn). rewrite (npts_spec _ _ n Hn).
    split; [lia|]. split.
    - intros i Hi. apply nth_grid. rewrite (npts_spec _ _ n Hn). lia.
    - rewrite nth_grid by (rewrite (npts_spec _ _ n Hn); lia). replace (n + 1 - 1)%nat with n by lia.
      apply Rabs_le. lra.
  Qed.

  Theorem C01_exact_multiple p s o s' n : construct E p s = (Ok o, s') -> p_t2 p = p_t1 p + INR n * (1/1000) ->
    List.length (o_grid o) = (n + 1)%nat /\ nth 0 (o_grid o) 0 = p_t1 p /\ nth n (o_grid o) 0 = p_t2 p.
  Proof.
    intros Hc Ht. rewrite (grid_eq E p s o s' Hc). rewrite length_grid.
    assert (Q : npts (p_t1 p) (p_t2 p) = (n + 1)%nat) by (apply npts_spec; lra).
    split; [auto|]. rewrite !nth_grid by lia. cbn [INR]. split; [lra|]. rewrite Ht. reflexivity.
  Qed.

  (** the grid is strictly increasing *)
  Theorem C01_increasing p s o s' i j : construct E p s = (Ok o, s') -> (i < j < List.length (o_grid o))%nat ->
    nth i (o_grid o) 0 < nth j (o_grid o) 0.
  Proof.
    intros Hc (Hij & Hj). rewrite (grid_eq E p s o s' Hc) in *. rewrite length_grid in Hj. rewrite !nth_grid by lia.
    apply lt_INR in Hij. lra.
  Qed.

  (** no grid point at all exactly when t2 <= t1 - 1/2 step; then the constructor raises IndexError *)
  Lemma empty_grid t1 t2 : timegrid t1 t2 = [] <-> t2 + 1/2000 <= t1.
  Proof.
    split; intro H.
    - apply Rnot_lt_le. intro Hlt. destruct (npts_find t1 t2 ltac:(lra)) as (n & Hn). apply npts_spec in Hn.
      rewrite <- length_grid, H in Hn. cbn in Hn. lia.
    - destruct (timegrid t1 t2) eqn:Q; auto. pose proof (length_grid t1 t2) as L. rewrite Q in L. cbn in L.
      unfold npts in L. pose proof (ceil_spec ((t2 + 1/2000 - t1) * 1000)) as C.
      assert (IZR (nceil ((t2 + 1/2000 - t1) * 1000)) < IZR 1) by lra. apply lt_IZR in H0. lia.
  Qed.

  Theorem C02_reversed_interval_fails p s : p_t2 p + 1/2000 <= p_t1 p -> p_y1 p <> [] ->
    fst (construct E p s) = Err IndexError.
  Proof. intros Ht Hy. apply C02_empty_grid_fails; auto. now apply empty_grid. Qed.

  (** exactly one grid point: t2 within half a step of t1 (the upper end included); then y2 is dropped *)
  Theorem C02_short_interval p s o s' : construct E p s = (Ok o, s') ->
    p_t1 p - 1/2000 < p_t2 p <= p_t1 p + 1/2000 ->
    List.length (o_grid o) = 1%nat /\ FlowSpec.all_at (o_B o) 0 (p_y1 p).
  Proof.
    intros Hc Ht. assert (L : List.length (o_grid o) = 1%nat).
    { rewrite (grid_eq E p s o s' Hc), length_grid. change 1%nat with (0 + 1)%nat. apply npts_spec. cbn [INR]. lra. }
    split; [auto|]. apply (C02_single_grid_point E p s o s' Hc L).
  Qed.
End Grid.

(** the hypotheses are met: t1 = 0, t2 = 0.3 gives 301 points; t2 = 0.0004 gives one *)
Example C01_example : List.length (timegrid 0 (3/10)) = 301%nat.
Proof. rewrite length_grid. apply (npts_spec 0 (3/10) 300). cbn [INR]. simpl INR. lra. Qed.
Example C02_example : List.length (timegrid 0 (4/10000)) = 1%nat.
Proof. rewrite length_grid. apply (npts_spec 0 (4/10000) 0). cbn [INR]. lra. Qed.
