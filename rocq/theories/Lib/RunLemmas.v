(** The simulation loops of DPFC as sequences of specified steps (no modelling content). *)
From Coq Require Import String List ZArith Lia Bool.
From Verif Require Import Base.Num Base.Py Base.Arr Lib.ArrLemmas Model.Ext Model.Cdist Model.Reweight Model.Score Model.DPFC.
From Verif Require Import Spec.FlowSpec Lib.FlowLemmas Lib.ScoreLemmas Lib.StepLemmas.
Import ListNotations.

Lemma enumerate_cons {A} (x : A) l d :
  enumerate (x :: l) = (0, x) :: map (fun i => (S i, nth (S i) (x :: l) d)) (seq 0 (List.length l)).
Proof.
  rewrite (enumerate_map _ d). cbn [List.length seq map nth]. f_equal. rewrite <- seq_shift, map_map.
  apply map_ext. intro. reflexivity.
Qed.
Lemma init_length {A} (l : list A) : List.length (init l) = List.length l - 1.
Proof. unfold init. induction l as [|x [|y l] IH]; simpl; auto. simpl in IH. rewrite IH. lia. Qed.
Lemma removelast_nth {A} (l : list A) i d : i < List.length l - 1 -> nth i (removelast l) d = nth i l d.
Proof.
  revert i. induction l as [|x [|y l] IH]; simpl; intros i Hi; [lia|lia|].
  destruct i; auto. simpl in IH. apply (IH i). lia.
Qed.

Section Run.
  Context {T S : Type} {O : NumOps T} (E : Ext T S).
  Notation mat := (mat T). Notation arr3 := (arr3 T).

  Lemma fits_self (A : mat) d n : mr A = d -> mc A = n -> fits A d n.
  Proof. unfold fits; auto. Qed.

  (** first iteration of forward_sampling_Otto *)
  Definition otto_init (brown : bool) (y1 y2 : list T) (dim : nat) (Zf : arr3) : res arr3 :=
    rfold (fun A di =>
            let! v := pyget y1 (Z.of_nat di) in
            let! A1 := setrow3 A (Z.of_nat di) 0 v in
            if brown then
              let! v2 := pyget y2 (Z.of_nat di) in setrow3 A1 (Z.of_nat di) (-1) v2
            else Ok A1) (seq 0 dim) Zf.

  Lemma otto_init_ok brown y1 y2 dim n k (A B : arr3) : sh A dim n k -> 0 < k ->
    otto_init brown y1 y2 dim A = Ok B ->
    sh B dim n k /\ dim <= List.length y1 /\ (brown = true -> dim <= List.length y2) /\
    forall t, t < k -> slice B t = mk dim n (fun a b =>
      if brown && (t =? k - 1) then nth a y2 nzero else if t =? 0 then nth a y1 nzero else get (slice A t) a b).
  Proof.
    intros HA Hk H. unfold otto_init in H.
    apply (rfold_seq_inv _ (fun i B => sh B dim n k /\ i <= List.length y1 /\ (brown = true -> i <= List.length y2) /\
       forall t a b, t < k -> a < dim -> b < n -> get (slice B t) a b =
         if a <? i then (if brown && (t =? k - 1) then nth a y2 nzero
                         else if t =? 0 then nth a y1 nzero else get (slice A t) a b)
         else get (slice A t) a b)) in H.
    - destruct H as (HB & L1 & L2 & H). split; [auto|]. split; [auto|]. split; [auto|].
      intros t Ht. destruct (sh_slice _ _ _ _ t HB Ht) as (W & R & C).
      apply wf_eq; auto. { apply wf_mk. } rewrite R, C. intros a b Ha Hb. rewrite get_mk by auto.
      rewrite H by auto. destruct (Nat.ltb_spec a dim); [reflexivity|lia].
    - split; [exact HA|]. split; [lia|]. split; [lia|]. intros. reflexivity.
    - intros i B0 B1 Hi (HB & L1 & L2 & Hg) Hs. invok.
      apply (pyget_nat_ok _ _ _ nzero) in E0. destruct E0 as (Hi1 & ->).
      pose proof HB as (WB & Dd & Dn & Dk).
      apply setrow3_ok in E1; auto. destruct E1 as (j & Pj & Jk & Id & W1 & ->).
      rewrite Dk, pyidx_0 in Pj by auto. injection Pj as <-. rewrite Dk in Jk.
      assert (HB' : sh (setslice B0 0 (rowset (slice B0 0) i (nth i y1 nzero))) dim n k) by (split; auto).
      assert (Hg' : forall t a b, t < k -> a < dim -> b < n ->
         get (slice (setslice B0 0 (rowset (slice B0 0) i (nth i y1 nzero))) t) a b =
         if (t =? 0) && (a =? i) then nth i y1 nzero else get (slice B0 t) a b).
      { intros t a b Ht Ha Hb. destruct (Nat.eqb_spec t 0) as [->|Ht0].
        - rewrite slice_set_same by (auto; lia). unfold rowset.
          destruct (sh_slice _ _ _ _ 0 HB Ht) as (_ & R & C). rewrite R, C, get_mk by auto. reflexivity.
        - rewrite slice_set_other by auto. reflexivity. }
      revert Hs HB' Hg'. generalize (setslice B0 0 (rowset (slice B0 0) i (nth i y1 nzero))). intros B2 Hs HB' Hg'.
      destruct brown.
      + invok. apply (pyget_nat_ok _ _ _ nzero) in E0. destruct E0 as (Hi2 & ->).
        pose proof HB' as (WB2 & Dd2 & Dn2 & Dk2).
        apply setrow3_ok in Hs; auto. destruct Hs as (j & Pj & Jk2 & Id2 & W2 & ->).
        rewrite Dk2, pyidx_m1 in Pj by auto. injection Pj as <-. rewrite Dk2 in Jk2.
        split; [split; auto|]. split; [lia|]. split; [lia|].
        intros t a b Ht Ha Hb. destruct (Nat.eqb_spec t (k-1)) as [->|Ht1].
        * rewrite slice_set_same by (auto; lia). unfold rowset.
          destruct (sh_slice _ _ _ _ (k-1) HB' Ht) as (_ & R & C). rewrite R, C, get_mk by auto.
          rewrite Hg' by auto. rewrite Hg by auto. rewrite Nat.eqb_refl. cbn [andb].
          destruct (Nat.eqb_spec a i) as [Hai|Hai]; destruct (Nat.ltb_spec a (Datatypes.S i)); try lia.
          -- now rewrite Hai.
          -- rewrite andb_false_r. destruct (Nat.ltb_spec a i); [reflexivity|lia].
          -- rewrite andb_false_r. destruct (Nat.ltb_spec a i); [lia|reflexivity].
        * rewrite slice_set_other by auto. rewrite Hg' by auto. rewrite Hg by auto.
          apply Nat.eqb_neq in Ht1. rewrite Ht1. cbn [andb].
          destruct (Nat.eqb_spec a i) as [Hai|Hai]; destruct (Nat.ltb_spec a (Datatypes.S i)); try lia;
            destruct (Nat.ltb_spec a i); try lia; destruct (t =? 0); cbn [andb]; auto. now rewrite Hai.
      + invok. split; [auto|]. split; [lia|]. split; [lia|].
        intros t a b Ht Ha Hb. rewrite Hg' by auto. rewrite Hg by auto. cbn [andb].
        destruct (Nat.eqb_spec a i) as [Hai|Hai]; destruct (Nat.ltb_spec a (Datatypes.S i)); try lia;
            destruct (Nat.ltb_spec a i); try lia; destruct (t =? 0); cbn [andb]; auto. now rewrite Hai.
  Qed.

  (** the step at index i >= 1 *)
  Definition otto_step (p : params T) (kern : string) (grid : list T) (i : nat) : mat -> mat -> S -> S -> Prop :=
    if p_reweight p then
      weighted_step E dt kern (p_M p) (p_g p) (call2 (p_f p)) (ocall2 (p_U p)) i (nth i grid nzero)
    else plain_step E dt kern (p_M p) (p_g p) (call2 (p_f p)) i (nth i grid nzero).

  Lemma plain_step_ok kern m g fd guard (Zf Z1 : arr3) i t s s' dim N k y :
    sh Zf dim N k -> i < k -> 0 < i ->
    (if i =? 1 then em_step E g fd dim N (slice Zf (i-1)) t
     else det_step (f_seperate E kern m g fd guard) (slice Zf (i-1)) t) s = (Ok y, s') ->
    setsl Zf (Z.of_nat i) y = Ok Z1 ->
    sh Z1 dim N k /\ plain_step E dt kern m g fd i t (slice Zf (i-1)) (slice Z1 i) s s' /\
    forall t, t <> i -> slice Z1 t = slice Zf t.
  Proof.
    intros HZ Hi Hp Hs Ha. apply (assign_fit _ _ _ _ _ _ _ HZ) in Ha.
    destruct Ha as (_ & HZ1 & Fr & Fc & Hg & Hf). assert (F : fits y dim N) by (split; auto).
    destruct (sh_slice _ _ _ _ (i-1) HZ ltac:(lia)) as (W & R & C).
    split; [auto|]. split; [|auto]. unfold plain_step. destruct (i =? 1).
    - eapply em_step_ok; eauto.
    - eapply f_step_ok; eauto.
  Qed.

  Lemma otto_step_ok p kern grid (Zf Z' : arr3) i s s' dim N k :
    dim = List.length (p_y1 p) -> N = p_N p -> sh Zf dim N k -> i < k -> 0 < i ->
    otto_body E p kern Zf (i, nth i grid nzero) s = (Ok Z', s') ->
    sh Z' dim N k /\ otto_step p kern grid i (slice Zf (i-1)) (slice Z' i) s s' /\
    forall t, t <> i -> slice Z' t = slice Zf t.
  Proof.
    intros Hdim HN HZ Hi Hp H. unfold otto_body in H. rewrite <- Hdim, <- HN in H.
    destruct (Nat.eqb_spec i 0); [lia|].
    apply bind_ok in H. destruct H as (Z1 & s1 & H1 & H).
    apply bind_ok in H1. destruct H1 as (x & s2 & Hx & H1). apply lift_ok in Hx. destruct Hx as (Hx & ->).
    replace (Z.of_nat i - 1)%Z with (Z.of_nat (i-1)) in Hx by lia.
    rewrite getsl_nat in Hx by (destruct HZ as (_ & _ & _ & ->); lia). injection Hx as <-.
    apply bind_ok in H1. destruct H1 as (y & s3 & Hy & H1). apply lift_ok in H1. destruct H1 as (H1 & ->).
    destruct (plain_step_ok _ _ _ _ _ _ _ _ _ _ _ _ _ _ _ HZ Hi Hp Hy H1) as (HZ1 & Hst & Hfr).
    unfold otto_step. destruct (p_reweight p); cbn [andb] in H.
    - destruct (Nat.ltb_spec 0 i); [|lia]. apply lift_ok in H. destruct H as (H & ->). invok.
      rewrite getsl_nat in E0 by (destruct HZ1 as (_ & _ & _ & ->); lia). injection E0 as <-.
      destruct (sh_slice _ _ _ _ i HZ1 Hi) as (W1 & R1 & C1).
      destruct (sh_slice _ _ _ _ (i-1) HZ ltac:(lia)) as (W0 & R0 & C0).
      apply reweight_slice_ok in E2; auto. destruct E2 as (F & Wy & Ry & Cy & Hrw).
      apply (assign_fit _ _ _ _ _ _ _ HZ1) in H. destruct H as (_ & HZ' & _ & _ & Hg & Hf).
      split; [auto|]. split.
      + exists (slice Z1 i), a0. split; [now apply wf_rect|]. split; [congruence|]. split; [congruence|]. split; [auto|]. split; [auto|].
        unfold muls in F, Hrw. destruct (mmap1_fit _ _ _ _ F) as (F' & G).
        unfold reweighted in Hrw |- *. cbv zeta in Hrw |- *. rewrite C1 in Hrw |- *.
        assert (Ee : map (fun n => nexp (nmul (elem a0 0 n) dt)) (seq 0 N) =
                     map (fun n => nexp (bget (mmap1 (fun x => nmul x dt) a0) 0 n)) (seq 0 N)).
        { apply map_seq_ext. intros j Hj. rewrite G by lia. reflexivity. }
        rewrite Ee. destruct Hrw as (cost & flow & K0 & K1 & K2 & K3 & K4 & K5).
        exists cost, flow. split; [auto|]. split; [auto|]. split; [auto|]. split; [auto|]. split; [auto|].
        intros d n0 Hd Hn0. rewrite <- K5 by auto. rewrite Hg by lia. apply bget_in; lia.
      + intros t Ht. rewrite Hf by auto. auto.
    - apply ret_ok in H. destruct H as (-> & ->). auto.
  Qed.

  Lemma otto_run p kern (grid : list T) s Z s' : let dim := List.length (p_y1 p) in let k := List.length grid in
    forward_sampling_Otto E p kern grid (zeros3 dim (p_N p) k) s = (Ok Z, s') -> 0 < k ->
    sh Z dim (p_N p) k /\ (p_brown p = true -> dim <= List.length (p_y2 p)) /\
    slice Z 0 = mk dim (p_N p) (fun a _ => if p_brown p && (k =? 1) then nth a (p_y2 p) nzero else nth a (p_y1 p) nzero) /\
    exists sg, sg 0 = s /\ sg (k - 1) = s' /\
      forall i, 1 <= i < k -> otto_step p kern grid i (slice Z (i-1)) (slice Z i) (sg (i-1)) (sg i).
  Proof.
    intros dim k H Hk. unfold forward_sampling_Otto in H. subst k. destruct grid as [|t0 grid]; [simpl in Hk; lia|].
    rewrite (enumerate_cons _ _ nzero) in H. cbn [mfold] in H.
    apply bind_ok in H. destruct H as (Z0 & s0 & H0 & H).
    set (k := List.length (t0 :: grid)) in *. assert (Ek : List.length grid = k - 1) by (unfold k; simpl; lia).
    pose proof (sh_zeros (T:=T) dim (p_N p) k) as HA.
    assert (I : otto_init (p_brown p) (p_y1 p) (p_y2 p) dim (zeros3 dim (p_N p) k) = Ok Z0 /\ s0 = s).
    { unfold otto_body in H0. cbn [Nat.eqb] in H0. rewrite andb_false_r in H0. apply bind_ok in H0.
      destruct H0 as (? & ? & H1 & H2). apply lift_ok in H1. apply ret_ok in H2. destruct H1 as (H1 & ->).
      destruct H2 as (-> & ->). auto. }
    destruct I as (I & ->). clear H0. apply (otto_init_ok _ _ _ _ _ _ _ _ HA Hk) in I. destruct I as (HZ0 & L1 & L2 & I).
    rewrite Ek in H.
    apply (flow_fold _ _ (fun i => Datatypes.S i) (fun i => i)
             (fun i => otto_step p kern (t0 :: grid) (Datatypes.S i)) dim (p_N p) k) in H; auto.
    - destruct H as (HZ & Hun & sg & Hs0 & Hs1 & Hst). split; [auto|]. split; [auto|]. split.
      + rewrite Hun by (intros; lia). rewrite I by lia. apply mk_ext. intros a b _ _.
        destruct (p_brown p); cbn [andb]; [|reflexivity].
        replace (0 =? k - 1) with (k =? 1); [reflexivity|].
        destruct (Nat.eqb_spec k 1), (Nat.eqb_spec 0 (k-1)); auto; lia.
      + exists sg. split; [auto|]. split; [auto|]. intros i Hi. specialize (Hst (i-1) ltac:(lia)).
        replace (Datatypes.S (i-1)) with i in Hst by lia. exact Hst.
    - intros; lia.
    - intros i B sb B' sb' Hi HB Hbd. apply otto_step_ok with (dim := dim) (N := p_N p) (k := k) in Hbd; auto; try lia.
      replace (Datatypes.S i - 1) with i in Hbd by lia. exact Hbd.
  Qed.

  (** forward_sampling_Otto_true *)
  Lemma otto_true_run p kern (grid : list T) s Z s' : let dim := List.length (p_y1 p) in let k := List.length grid in
    forward_sampling_Otto_true E p kern grid (zeros3 dim (p_N p) k) s = (Ok Z, s') -> 0 < k ->
    sh Z dim (p_N p) k /\
    slice Z 0 = mk dim (p_N p) (fun a _ => nth a (p_y1 p) nzero) /\
    exists sg, sg 0 = s /\ sg (k - 1) = s' /\
      forall i, 1 <= i < k -> plain_step E dt kern (p_M p) (p_g p) (ocall2 (p_f_true p)) i (nth i grid nzero)
                                (slice Z (i-1)) (slice Z i) (sg (i-1)) (sg i).
  Proof.
    intros dim k H Hk. unfold forward_sampling_Otto_true in H. subst k. destruct grid as [|t0 grid]; [simpl in Hk; lia|].
    rewrite (enumerate_cons _ _ nzero) in H. cbn [mfold] in H.
    apply bind_ok in H. destruct H as (Z0 & s0 & H0 & H).
    set (k := List.length (t0 :: grid)) in *. assert (Ek : List.length grid = k - 1) by (unfold k; simpl; lia).
    pose proof (sh_zeros (T:=T) dim (p_N p) k) as HA.
    unfold otto_true_body in H0 at 1. cbn [Nat.eqb] in H0. apply lift_ok in H0. destruct H0 as (H0 & ->).
    apply (pin_ok _ _ _ _ _ _ _ HA) in H0. destruct H0 as (HZ0 & L1 & _ & I & _).
    specialize (I 0 (pyidx_0 _ Hk)).
    rewrite Ek in H.
    apply (flow_fold _ _ (fun i => Datatypes.S i) (fun i => i)
             (fun i => plain_step E dt kern (p_M p) (p_g p) (ocall2 (p_f_true p)) (Datatypes.S i) (nth (Datatypes.S i) (t0 :: grid) nzero)) dim (p_N p) k) in H; auto.
    - destruct H as (HZ & Hun & sg & Hs0 & Hs1 & Hst). split; [auto|]. split.
      + rewrite Hun by (intros; lia). exact I.
      + exists sg. split; [auto|]. split; [auto|]. intros i Hi. specialize (Hst (i-1) ltac:(lia)).
        replace (Datatypes.S (i-1)) with i in Hst by lia. exact Hst.
    - intros; lia.
    - intros i B sb B' sb' Hi HB Hbd. unfold otto_true_body in Hbd. cbn [Nat.eqb] in Hbd.
      apply bind_ok in Hbd. destruct Hbd as (x & s2 & Hx & H1). apply lift_ok in Hx. destruct Hx as (Hx & ->).
      replace (Z.of_nat (Datatypes.S i) - 1)%Z with (Z.of_nat i) in Hx by lia.
      rewrite getsl_nat in Hx by (destruct HB as (_ & _ & _ & ->); lia). injection Hx as <-.
      apply bind_ok in H1. destruct H1 as (y & s3 & Hy & H1). apply lift_ok in H1. destruct H1 as (H1 & ->).
      pose proof (plain_step_ok kern (p_M p) (p_g p) (ocall2 (p_f_true p)) false B B' (Datatypes.S i)
               (nth (Datatypes.S i) (t0 :: grid) nzero) sb s3 dim (p_N p) k y) as PS.
      replace (Datatypes.S i - 1) with i in PS by lia. apply PS; auto; lia.
  Qed.

  (** backward_simulation *)
  Lemma bw_step_ok p kern grid (Zf B B' : arr3) i tt s s' dim N k : 
    dim = List.length (p_y1 p) -> N = p_N p -> k = List.length grid -> sh Zf dim N k -> sh B dim N k ->
    1 <= i -> i + 1 < k ->
    bw_body E p kern grid Zf B (i, tt) s = (Ok B', s') ->
    sh B' dim N k /\
    back_step E ((i =? 1) || negb (p_det p)) dt kern (p_M p) (p_g p) (call2 (p_f p)) (nth (k-i) grid nzero)
       (slice Zf (k-i)) (slice B (k-i)) (slice B' (k-i-1)) s s' /\
    forall t, t <> k - i - 1 -> slice B' t = slice B t.
  Proof.
    intros Hdim HN Hk HZ HB Hi1 Hi H. unfold bw_body in H. rewrite <- Hdim, <- Hk in H.
    destruct (Nat.eqb_spec i 0); [lia|]. cbv zeta in H.
    replace (Z.of_nat k - Z.of_nat i - 1)%Z with (Z.of_nat (k - i - 1)) in H by lia.
    replace (Z.of_nat (k - i - 1) + 1)%Z with (Z.of_nat (k - i)) in H by lia.
    apply bind_ok in H. destruct H as (gro & s1 & Hg & H).
    destruct (density_ok _ _ _ _ _ _ _ _ _ dim N k (k-i) Hdim HN HZ HB ltac:(lia) eq_refl Hg) as (Wg & Rg & Cg & sz & Hsz & Gz).
    apply bind_ok in H. destruct H as (y & s2 & Hy & H). apply lift_ok in H. destruct H as (H & ->).
    apply (assign_fit _ _ _ _ _ _ _ HB) in H. destruct H as (_ & HB' & Fr & Fc & Hgt & Hf).
    assert (F : fits y dim N) by (split; auto).
    assert (KB : a_k B = k) by apply HB.
    destruct (sh_slice _ _ _ _ (k-i) HB ltac:(lia)) as (WB & RB & CB).
    split; [auto|]. split; [|auto].
    replace ((i =? 1) && p_det p || negb (p_det p)) with ((i =? 1) || negb (p_det p)) in Hy
      by (destruct (i =? 1), (p_det p); reflexivity).
    unfold back_step. destruct ((i =? 1) || negb (p_det p)).
    - apply bind_ok in Hy. destruct Hy as (x & s3 & Hx & Hy). apply lift_ok in Hx. destruct Hx as (Hx & ->).
      apply bind_ok in Hy. destruct Hy as (t & s3 & Ht & Hy). apply lift_ok in Ht. destruct Ht as (Ht & ->).
      rewrite getsl_nat in Hx by lia. injection Hx as <-.
      apply (pyget_nat_ok _ _ _ nzero) in Ht. destruct Ht as (_ & ->).
      destruct (bw_stoch_ok _ _ _ _ _ _ _ _ dim N Hdim HN RB CB Rg Cg Hy F) as (Fd & W & HF & HW & Hv).
      exists Fd, W, sz, s1. rewrite RB, CB. split; [auto|]. split; [auto|]. split; [auto|].
      intros d n0 Hd Hn0. rewrite Hgt, Hv by auto. now rewrite Gz.
    - apply bind_ok in Hy. destruct Hy as (gb & s3 & Hgb & Hy).
      destruct (bw_density_ok _ _ _ _ _ _ _ _ _ dim N k (k-i) Hdim HN HZ HB ltac:(lia) eq_refl Hgb) as (Wb & Rb & Cb & sb & Hsb & Gb).
      apply bind_ok in Hy. destruct Hy as (x & s4 & Hx & Hy). apply lift_ok in Hx. destruct Hx as (Hx & ->).
      apply bind_ok in Hy. destruct Hy as (t & s4 & Ht & Hy). apply lift_ok in Ht. destruct Ht as (Ht & ->).
      rewrite getsl_nat in Hx by lia. injection Hx as <-.
      apply (pyget_nat_ok _ _ _ nzero) in Ht. destruct Ht as (_ & ->).
      apply lift_ok in Hy. destruct Hy as (Hy & ->).
      destruct (bw_det_ok _ _ _ _ _ _ dim N RB CB Rg Cg Rb Cb Hy F) as (Fd & HF & Hv).
      exists Fd, sz, sb, s1. rewrite RB, CB. split; [auto|]. split; [auto|]. split; [auto|].
      intros d n0 Hd Hn0. rewrite Hgt, Hv by auto. now rewrite Gz, Gb.
  Qed.

  Lemma bw_run p kern (grid : list T) (Zf : arr3) s B s' : let dim := List.length (p_y1 p) in let k := List.length grid in
    sh Zf dim (p_N p) k ->
    backward_simulation E p kern grid Zf (zeros3 dim (p_N p) k) s = (Ok B, s') -> 
    sh B dim (p_N p) k /\ (0 < k -> slice B 0 = mk dim (p_N p) (fun a _ => nth a (p_y1 p) nzero)) /\ (0 < dim -> 0 < k) /\
    (2 <= k -> slice B (k-1) = mk dim (p_N p) (fun a _ => nth a (p_y2 p) nzero) /\ dim <= List.length (p_y2 p)) /\
    exists sg, sg (k - 1) = s /\ sg 1 = s' /\
      forall j, 1 <= j -> j + 1 < k ->
        back_step E ((j =? k - 2) || negb (p_det p)) dt kern (p_M p) (p_g p) (call2 (p_f p)) (nth (j+1) grid nzero)
          (slice Zf (j+1)) (slice B (j+1)) (slice B j) (sg (j+1)) (sg j).
  Proof.
    intros dim k HZ H. unfold backward_simulation in H. apply bind_ok in H. destruct H as (B1 & s1 & H1 & H).
    apply lift_ok in H. destruct H as (H & ->).
    assert (X : sh B1 dim (p_N p) k /\ (2 <= k -> slice B1 (k-1) = mk dim (p_N p) (fun a _ => nth a (p_y2 p) nzero) /\ dim <= List.length (p_y2 p)) /\
      exists sg, sg (k - 1) = s /\ sg 1 = s1 /\
      forall j, 1 <= j -> j + 1 < k ->
        back_step E ((j =? k - 2) || negb (p_det p)) dt kern (p_M p) (p_g p) (call2 (p_f p)) (nth (j+1) grid nzero)
          (slice Zf (j+1)) (slice B1 (j+1)) (slice B1 j) (sg (j+1)) (sg j)).
    { clear H. pose proof (init_length grid) as Li. fold k in Li.
      destruct (init grid) as [|t0 l] eqn:Eg.
      - cbn in H1. invok. simpl in Li. split; [apply sh_zeros|]. split; [lia|]. exists (fun _ => s1). repeat split; intros; lia.
      - rewrite (enumerate_cons _ _ nzero) in H1. cbn [mfold] in H1. apply bind_ok in H1. destruct H1 as (B0 & s0 & H0 & H1).
        simpl in Li. assert (Hk : 2 <= k) by lia.
        unfold bw_body in H0 at 1. cbn [Nat.eqb] in H0. apply lift_ok in H0. destruct H0 as (H0 & ->).
        apply (pin_ok _ _ _ _ _ _ _ (sh_zeros _ _ _)) in H0. destruct H0 as (HB0 & L2 & _ & I & _).
        specialize (I (k-1) (pyidx_m1 k ltac:(lia))).
        replace (List.length l) with (k-2) in H1 by lia.
        apply (flow_fold _ _ (fun i => k - 2 - i) (fun i => k - 1 - i)
             (fun i => back_step E ((i =? 0) || negb (p_det p)) dt kern (p_M p) (p_g p) (call2 (p_f p)) (nth (k-1-i) grid nzero)
                          (slice Zf (k-1-i))) dim (p_N p) k) in H1; auto; try (intros; lia).
        + destruct H1 as (HB1 & Hun & sg & Hs0 & Hs1 & Hst). split; [auto|]. split.
          * intros _. rewrite Hun by (intros; lia). auto.
          * exists (fun j => sg (k - 1 - j)). split. { now rewrite Nat.sub_diag. } split. { now replace (k-1-1) with (k-2) by lia. }
            intros j Hj1 Hj. specialize (Hst (k - 2 - j) ltac:(lia)). cbv beta in Hst.
            replace (k-1-(k-2-j)) with (j+1) in Hst by lia. replace (k-2-(k-2-j)) with j in Hst by lia.
            replace (k - 1 - (j+1)) with (k-2-j) by lia. replace (k-1-j) with (Datatypes.S (k-2-j)) by lia.
            replace (j =? k-2) with (k-2-j =? 0); auto.
            destruct (Nat.eqb_spec (k-2-j) 0), (Nat.eqb_spec j (k-2)); auto; lia.
        + intros i Bb sb Bb' sb' Hi HBb Hbd.
          apply (bw_step_ok p kern grid Zf Bb Bb' (Datatypes.S i) _ sb sb' dim (p_N p) k) in Hbd; auto; try lia.
          replace (k - Datatypes.S i) with (k-1-i) in Hbd by lia.
          replace (k-1-i-1) with (k-2-i) in Hbd by lia. exact Hbd. }
    destruct X as (HB1 & Hy2 & sg & Sk & S1 & Hst).
    apply (pin_ok _ _ _ _ _ _ _ HB1) in H. destruct H as (HB & L1 & Hex & I & Hun).
    split; [auto|]. split. { intro Hk. apply I. now apply pyidx_0. } split.
    { intro Hd. destruct (Hex Hd) as (j & Hj). apply pyidx_some in Hj. lia. }
    assert (Hne : forall t, 1 <= t -> slice B t = slice B1 t).
    { intros t Ht. apply Hun. intro Q. destruct (Nat.lt_ge_cases 0 k) as [Hk|Hk].
      - rewrite pyidx_0 in Q by auto. injection Q as Q. lia.
      - apply pyidx_some in Q. lia. }
    split.
    - intro Hk. rewrite Hne by lia. auto.
    - exists sg. split; [auto|]. split; [auto|]. intros j Hj1 Hj. rewrite !Hne by lia. auto.
  Qed.

  Lemma bw_run_short p kern (grid : list T) (Zf B0 : arr3) s B s' : List.length grid <= 1 ->
    backward_simulation E p kern grid Zf B0 s = (Ok B, s') -> s' = s.
  Proof.
    intros Hk H. unfold backward_simulation in H. pose proof (init_length grid) as Li.
    destruct (init grid) as [|t0 l]; [|cbn in Li; lia]. cbn in H. unfold bind, lift, ret in H. cbn in H. congruence.
  Qed.
End Run.
