(** C73: the reweighting of the Kuramoto class averages phases as real numbers, so its result depends on where the circle is cut. *)
From Coq Require Import String List ZArith Reals Lia Lra Bool.
From Verif Require Import Base.Num Base.Py Base.Arr Lib.ArrLemmas Model.Ext Model.Cdist Model.Score Model.DPFC Model.Kuramoto.
From Verif Require Import Spec.FlowSpec Spec.TotalSpec Spec.RealSpec Spec.Contracts Spec.KuramotoSpec Spec.OscSpec.
From Verif Require Import Lib.RBase Lib.RSum Lib.FlowLemmas Lib.StepLemmas Lib.StochLemmas Lib.RunLemmas Lib.TotalLemmas Lib.KuramotoLemmas Lib.KuramotoTotal.
From Verif Require Import Props.Kuramoto Props.KuramotoSim Props.Oscillators Props.KuramotoR.
Import ListNotations.
Local Open Scope R_scope.

Section Cut.
  Context {S : Type} (E : Ext R S) (HE : otemd_contract E) (wrap : R -> R) (HW : wraps wrap).

  Lemma sumn2 f : sumn 2 f = f 0%nat + f 1%nat. Proof. cbn. ring. Qed.
  (** two particles, the first one heavier: the second one is moved towards the first *)
  Lemma two_particles e (y x' : mat R) : mc y = 2%nat -> phase_reweighted E wrap e y x' -> e 1%nat < e 0%nat ->
    0 < sumn (mr y) (fun d => (get y d 0 - get y d 1) ^ 2) ->
    let l := (exp (e 0%nat) - exp (e 1%nat)) / (exp (e 0%nat) + exp (e 1%nat)) in
    forall d, (d < mr y)%nat -> get x' d 1 = wrap (l * get y d 0 + (1 - l) * get y d 1).
  Proof.
    intros Hc H He HD l d Hd. unfold phase_reweighted in H. cbv zeta in H. rewrite Hc in H. destruct H as (mx & cost & Hmx & Rc & C1 & C2 & C3 & H).
    set (sqd := fun i j => nsum (map (fun d => nsq (nsub (get y d i) (get y d j))) (seq 0 (mr y)))) in *.
    assert (Hsq : forall i j, sqd i j = sumn (mr y) (fun d => (get y d i - get y d j) ^ 2)).
    { intros i j. unfold sqd. rewrite nsum_seq. apply sumn_ext. intros k Hk. unfold nsq. cbn. ring. }
    assert (D0 : forall i, sqd i i = 0). { intro i. rewrite Hsq. apply sumn_0. intros; ring. }
    assert (Ds : sqd 1%nat 0%nat = sqd 0%nat 1%nat). { rewrite !Hsq. apply sumn_ext. intros; ring. }
    assert (Dp : 0 < sqd 0%nat 1%nat) by now rewrite Hsq.
    change (lmax [sqd 0%nat 0%nat; sqd 0%nat 1%nat; sqd 1%nat 0%nat; sqd 1%nat 1%nat] = Ok mx) in Hmx. cbn [lmax fold_left] in Hmx.
    assert (Hm : mx = sqd 0%nat 1%nat).
    { injection Hmx as <-. rewrite !D0, Ds. cbn [npmax ROps]. unfold Rmax. repeat destruct (Rle_dec _ _); lra. }
    set (a := exp (e 0%nat)) in *. set (b := exp (e 1%nat)) in *. assert (Hab : 0 < b < a) by (split; [apply exp_pos|now apply exp_increasing]).
    specialize (H d 1%nat Hd ltac:(lia)). rewrite H. f_equal. clear H.
    set (w := map (fun v => ndiv v (nsum (map (fun n => nexp (e n)) (seq 0 2)))) (map (fun n => nexp (e n)) (seq 0 2))).
    assert (Hw : w = [a / (a + b); b / (a + b)]). { unfold w. cbn. fold a b. rewrite ?Rplus_0_l, ?Rplus_0_r. reflexivity. }
    assert (Hb : repeat (ndiv none1 (nofnat (T := R) 2)) 2 = [1/2; 1/2]) by (cbn; repeat f_equal; lra).
    rewrite Hw, Hb. set (P := x_otemd E _ _ cost).
    assert (OP : optimal 2 (hist [a / (a + b); b / (a + b)]) (hist [1/2; 1/2]) (get cost) P).
    { assert (0 < a / (a + b)) by (apply Rdiv_lt_0_compat; lra). assert (0 < b / (a + b)) by (apply Rdiv_lt_0_compat; lra).
      apply HE; auto.
      - intros [|[|i]] Hi; cbn; lra || lia.
      - intros [|[|i]] Hi; cbn; lra || lia.
      - rewrite !sumn2. unfold hist. cbn. field. lra.
      - intros i j Hi Hj. rewrite C3 by auto. cbn [ndiv ROps]. apply Rmult_le_pos; [fold (sqd i j); rewrite Hsq; apply sumn_ge0; intros k _; apply pow2_ge_0|left; apply Rinv_0_lt_compat; rewrite Hm; exact Dp]. }
    set (al := a / (a + b)) in *. set (be := b / (a + b)) in *. assert (Hs : al + be = 1) by (unfold al, be; field; lra).
    assert (Hal : 1/2 < al). { unfold al. apply (Rmult_lt_reg_r (a + b)); [lra|]. replace (a / (a + b) * (a + b)) with a by (field; lra). lra. }
    assert (Hbe : 0 < be) by (apply Rdiv_lt_0_compat; lra).
    destruct OP as ((P1 & P2 & P3) & OP).
    pose proof (P2 0%nat ltac:(lia)) as A0. pose proof (P2 1%nat ltac:(lia)) as A1. pose proof (P3 0%nat ltac:(lia)) as B0. pose proof (P3 1%nat ltac:(lia)) as B1.
    rewrite !sumn2 in A0, A1, B0, B1. unfold hist in A0, A1, B0, B1. cbn [nth] in A0, A1, B0, B1.
    set (Q := fun i j : nat => match i, j with O, O => 1/2 | O, _ => al - 1/2 | _, O => 0 | _, _ => be end).
    assert (PQ : plan 2 (hist [al; be]) (hist [1/2; 1/2]) Q).
    { split; [|split].
      - intros [|i] [|j] _ _; cbn; lra.
      - intros [|[|i]] Hi; try lia; rewrite sumn2; unfold hist; cbn; lra.
      - intros [|[|i]] Hi; try lia; rewrite sumn2; unfold hist; cbn; lra. }
    specialize (OP Q PQ). unfold plan_cost in OP. rewrite !sumn2 in OP. rewrite !C3 in OP by lia. fold (sqd 0%nat 0%nat) (sqd 0%nat 1%nat) (sqd 1%nat 0%nat) (sqd 1%nat 1%nat) in OP. rewrite !D0, Ds, Hm in OP. cbn [ndiv ROps Q] in OP.
    assert (D1 : sqd 0%nat 1%nat / sqd 0%nat 1%nat = 1) by (field; lra). assert (D2 : 0 / sqd 0%nat 1%nat = 0) by (field; lra). rewrite !D1, !D2 in OP.
    pose proof (P1 1%nat 0%nat ltac:(lia) ltac:(lia)).
    assert (E10 : P 1%nat 0%nat = 0) by lra. assert (E01 : P 0%nat 1%nat = al - 1/2) by lra. assert (E11 : P 1%nat 1%nat = be) by lra.
    cbn [map seq]. cbn. rewrite E01, E11. replace l with (2 * al - 1). 2:{ unfold l, al. field. lra. } replace be with (1 - al) by lra. field.
  Qed.

  Lemma not_same l : 0 < l < 1 -> ~ exists z, 2 * PI * l = 2 * PI * IZR z.
  Proof.
    intros Hl (z & Hz). pose proof PI_RGT_0. assert (l = IZR z) by (apply (Rmult_eq_reg_l (2 * PI)); lra).
    assert (0 < z)%Z by (apply lt_IZR; lra). assert (z < 1)%Z by (apply lt_IZR; lra). lia.
  Qed.

  (** the same two-particle ensemble of two oscillators, in coordinates rotated by pi/4: the reweighted ensembles are not rotated copies of each
      other.  (One particle is synchronised, the other is in anti-phase, so the constraint U of the script gives them different weights.) *)
  Definition ens (x0 x1 : list R) : mat R := mk 2 2 (fun d m => nth d (match m with O => x0 | _ => x1 end) 0).
  Theorem C73_reweighting_depends_on_origin : forall p, k_N p = 2%nat -> k_U p = kur_U 2 ->
    exists x x' y y', phases x /\ phases x' /\
      (forall d m, (d < 2)%nat -> (m < 2)%nat -> same_phase (get x' d m) (get x d m - PI / 4)) /\
      k_reweight_slice E wrap p x = Ok y /\ k_reweight_slice E wrap p x' = Ok y' /\
      ~ same_phase (get y' 0 1) (get y 0 1 - PI / 4).
  Proof.
    intros p HN HU. pose proof PI_RGT_0 as PP.
    set (x := ens [0; 0] [PI/2; 3*PI/2]). set (x' := ens [7*PI/4; 7*PI/4] [PI/4; 5*PI/4]).
    assert (EX : forall z, mr z = 2%nat -> mc z = 2%nat -> exists y, k_reweight_slice E wrap p z = Ok y).
    { intros z Rz Cz. unfold k_reweight_slice. rewrite HN, HU. cbn [kur_U rbind]. unfold weights_of, mexp, mmap1. cbn [mk mr mc]. rewrite Cz. unfold assign_shape. cbn [mk mr mc Nat.eqb orb andb rbind].
      unfold k_cost, cdist_sq. cbn [mT mk mc mr]. rewrite Rz, Cz. cbn [Nat.eqb rbind mk mr seq flat_map app row map mc lmax]. unfold mmul, smul, mmap1. cbn [mk mr mc]. rewrite Cz. cbn. eauto. }
    destruct (EX x eq_refl eq_refl) as (y & Hy). destruct (EX x' eq_refl eq_refl) as (y' & Hy').
    assert (ord0 : order_parameter 2 (fun i => get x i 0) = 1 /\ order_parameter 2 (fun i => get x' i 0) = 1).
    { split; apply (order_1_iff 2 ltac:(lia)); intros [|[|i]] [|[|j]] Hi Hj; try lia; apply same_phase_refl. }
    assert (ord1 : forall x a b c, x 0%nat = a -> x 1%nat = b -> b = a + PI -> c = 0 -> order_parameter 2 x = c).
    { intros z a b c H0 H1 Hb ->. unfold order_parameter. rewrite !sumn2, H0, H1, Hb, neg_cos, neg_sin. replace ((cos a + - cos a) ^ 2 + (sin a + - sin a) ^ 2) with 0 by ring. rewrite sqrt_0. unfold Rdiv. ring. }
    assert (o1 : order_parameter 2 (fun i => get x i 1) = 0 /\ order_parameter 2 (fun i => get x' i 1) = 0).
    { split.
      - apply (ord1 _ (PI/2) (3*PI/2)); auto; lra.
      - apply (ord1 _ (PI/4) (5*PI/4)); auto; lra. }
    set (q := exp (-1)). assert (Hq : 0 < q < 1). { unfold q. split; [apply exp_pos|]. rewrite <- exp_0. apply exp_increasing. lra. }
    set (l := (1 - q) / (1 + q)).
    assert (Hl : 0 < l < 1). { unfold l. split; [apply Rdiv_lt_0_compat; lra|]. apply (Rmult_lt_reg_r (1 + q)); [lra|]. replace ((1 - q) / (1 + q) * (1 + q)) with (1 - q) by (field; lra). lra. }
    assert (RES : forall z w, wf z -> mr z = 2%nat -> mc z = 2%nat -> k_reweight_slice E wrap p z = Ok w ->
       order_parameter 2 (fun i => get z i 0) = 1 -> order_parameter 2 (fun i => get z i 1) = 0 -> get z 0 0 <> get z 0 1 ->
       get w 0 1 = wrap (l * get z 0 0 + (1 - l) * get z 0 1)).
    { intros z w Wz Rz Cz Hz O0 O1 Hne. 
      assert (PR : exists u, kur_U 2 z = Ok u /\ phase_reweighted E wrap (fun n => elem u 0 n) z w).
      { destruct p as [pt1 pt2 py1 pf pg pN pk pM prw pU pkern pdt]. cbn in HN, HU. subst pN pU.
        pose (p' := {| k_t1 := pt1; k_t2 := pt2; k_y1 := [0; 0]; k_f := pf; k_g := pg; k_N := 2; k_k := pk; k_M := pM; k_reweight := prw; k_U := kur_U 2; k_kern := pkern; k_dt := pdt |}).
        destruct (reweight_ok E wrap p' z w Wz Rz Cz) as (_ & _ & _ & u & Hu & Q); [exact Hz|]. exists u. auto. }
      destruct PR as (u & Hu & PR). destruct (C74_constraint z ltac:(lia)) as (u' & Hu' & _ & _ & CU). rewrite Rz, Hu in Hu'. injection Hu' as <-.
      destruct (CU 0%nat ltac:(lia)) as (U0 & _). destruct (CU 1%nat ltac:(lia)) as (U1 & _). rewrite Rz in U0, U1. rewrite O0 in U0. rewrite O1 in U1. unfold U_at in U0, U1.
      pose proof (two_particles _ z w Cz PR) as TP. cbv beta zeta in TP. rewrite U0, U1 in TP. replace (exp (1 - 1)) with 1 in TP by (rewrite Rminus_diag_eq, exp_0; reflexivity).
      replace (exp (0 - 1)) with q in TP by (unfold q; f_equal; lra). fold l in TP. apply TP; [lra| |lia]. rewrite Rz, sumn2.
      pose proof (pow2_ge_0 (get z 1 0 - get z 1 1)). assert (0 < (get z 0 0 - get z 0 1) ^ 2); [|lra]. assert (get z 0 0 - get z 0 1 <> 0) by lra. rewrite <- Rsqr_pow2. now apply Rsqr_pos_lt. }
    exists x, x', y, y'. split; [|split; [|split; [|split; [exact Hy|split; [exact Hy'|]]]]].
    - intros [|[|d]] [|[|m]] Hd Hm; cbn in Hd, Hm; try lia; unfold x, ens; rewrite get_mk by lia; cbn [nth]; lra.
    - intros [|[|d]] [|[|m]] Hd Hm; cbn in Hd, Hm; try lia; unfold x', ens; rewrite get_mk by lia; cbn [nth]; lra.
    - intros [|[|d]] [|[|m]] Hd Hm; cbn in Hd, Hm; try lia; unfold x, x', ens; rewrite !get_mk by lia; cbn [nth]; [exists 1%Z|exists 0%Z|exists 1%Z|exists 0%Z]; cbn; lra.
    - assert (X0 : get x 0 0 = 0 /\ get x 0 1 = PI/2 /\ get x' 0 0 = 7*PI/4 /\ get x' 0 1 = PI/4) by (unfold x, x', ens; rewrite !get_mk by lia; cbn [nth]; auto).
      destruct X0 as (X0 & X1 & X2 & X3).
      rewrite (RES x y), (RES x' y'); try apply wf_mk; auto; try apply ord0; try apply o1; try (rewrite ?X0, ?X1, ?X2, ?X3; lra).
      rewrite X0, X1, X2, X3. intros (z & Hz). destruct (HW (l * (7 * PI / 4) + (1 - l) * (PI / 4))) as (_ & (z1 & Z1)). destruct (HW (l * 0 + (1 - l) * (PI / 2))) as (_ & (z2 & Z2)).
      apply (not_same l Hl). exists (z - z1 + z2)%Z. rewrite plus_IZR, minus_IZR. lra.
  Qed.
End Cut.
