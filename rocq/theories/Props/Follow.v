(** C86: the stochastic mode in double precision follows the run in exact arithmetic with the same noise. *)
From Coq Require Import String List ZArith Reals Bool Lia Lra Psatz.
From Flocq Require Import Core BinarySingleNaN.
From Verif Require Import Base.Num Base.Py Base.Arr Lib.ArrLemmas Lib.RSum Spec.RealSpec Model.Ext Model.Score Model.DPFC Model.TDPFC Run.Double Spec.DoubleSpec Spec.FlowSpec Spec.RoundSpec Spec.FollowSpec.
From Verif Require Import Lib.DoubleLemmas Lib.FlowLemmas Lib.StepLemmas Lib.RoundLemmas Props.Flows Props.Torch Props.DoubleSteps.
Import ListNotations.
Local Open Scope R_scope.

Section Follow.
  Context (fexp fsin fcos : double -> double) (fsum : list double -> double).
  #[local] Instance FoOps : NumOps double := DoubleOps fexp fsin fcos fsum.
  Context {S : Type} (E : Ext double S) (ER : Ext R S).
  Context (X Phi Om G L delta eps : R).
  Context (HX : 0 <= X <= 100000) (HPhi : 0 <= Phi <= 1000000) (HOm : 0 <= Om <= 1000000) (HG : 0 <= G <= 500) (HL : 0 <= L) (Hdelta : 0 <= delta) (Heps : 0 <= eps).
  Let rho := step_error X Phi Om G delta eps.
  Lemma rho_pos : 0 <= rho.
  Proof. unfold rho, step_error. assert (0 <= G * eps) by (apply Rmult_le_pos; lra). assert (0 <= G * Om) by (apply Rmult_le_pos; lra). lra. Qed.
  (** Euler-Maruyama error after n steps *)
  Definition drifted (n : nat) : R := INR n * rho * exp (L / 1000 * INR n).
  Lemma drifted_step n : (1 + L / 1000) * drifted n + rho <= drifted (Datatypes.S n).
  Proof.
    unfold drifted. rewrite S_INR. set (a := L / 1000). assert (A : 0 <= a) by (unfold a; lra). replace (a * (INR n + 1)) with (a + a * INR n) by ring. rewrite exp_plus. pose proof (pos_INR n) as P. pose proof rho_pos as Q.
    pose proof (exp_ineq1_le a) as E1. set (b := exp (a * INR n)). assert (B : 1 <= b). { unfold b. rewrite <- exp_0. assert (0 <= a * INR n) by (apply Rmult_le_pos; lra). destruct (Req_dec 0 (a * INR n)) as [<-|]; [lra|]. left. apply exp_increasing. lra. }
    assert (C1 : 1 <= exp a * b). { rewrite <- (Rmult_1_l 1). apply Rmult_le_compat; lra. }
    assert (C2 : (1 + a) * (INR n * rho * b) <= exp a * (INR n * rho * b)). { apply Rmult_le_compat_r; [|lra]. apply Rmult_le_pos; [apply Rmult_le_pos; lra|lra]. }
    assert (C3 : rho * 1 <= rho * (exp a * b)) by (apply Rmult_le_compat_l; lra). lra.
  Qed.
  Lemma drifted_le n m : (n <= m)%nat -> 0 <= drifted n <= drifted m.
  Proof.
    intro H. split.
    - unfold drifted. apply Rmult_le_pos; [apply Rmult_le_pos; [apply pos_INR|apply rho_pos]|left; apply exp_pos].
    - induction H as [|m H IH]; [lra|]. eapply Rle_trans; [exact IH|]. eapply Rle_trans; [|apply drifted_step]. pose proof rho_pos.
      assert (0 <= drifted m) by (unfold drifted; apply Rmult_le_pos; [apply Rmult_le_pos; [apply pos_INR|auto]|left; apply exp_pos]). assert (0 <= L / 1000 * drifted m) by (apply Rmult_le_pos; lra). lra.
  Qed.

  (** one coordinate *)
  Lemma entry_follows (x' x f g w : double) (y fr wr e : R) : 0 <= e <= 1 -> noisy_close x' x f g w -> finite x -> Rabs (B2R x - y) <= e -> Rabs y <= X ->
    sized Phi f -> Rabs (B2R f - fr) <= L * e + delta -> sized G g -> sized Om w -> Rabs (B2R w - wr) <= eps ->
    finite x' /\ Rabs (B2R x' - (y + nmilli * fr + B2R g * wr)) <= (1 + L / 1000) * e + rho.
  Proof.
    intros He (_ & H) Fx Ex Hy Hf Ef Hg Hw Ew. pose proof Hf as (Ff & Bf). pose proof Hg as (Fg & Bg). pose proof Hw as (Fw & Bw).
    assert (Bx : Rabs (B2R x) <= X + 1) by (apply Rabs_le_inv in Ex, Hy; apply Rabs_le; split; lra).
    destruct H as (Fx' & Ex'); [split; [auto|lra]|split; [auto|lra]|split; [auto|lra]|split; [auto|lra]|]. split; [exact Fx'|].
    assert (Bgw : Rabs (B2R g * B2R w) <= G * Om) by (rewrite Rabs_mult; apply Rmult_le_compat; auto using Rabs_pos).
    assert (Egw : Rabs (B2R g * (B2R w - wr)) <= G * eps) by (rewrite Rabs_mult; apply Rmult_le_compat; auto using Rabs_pos).
    replace (B2R x' - (y + nmilli * fr + B2R g * wr)) with ((B2R x' - (B2R x + B2R f / 1000 + B2R g * B2R w)) + ((B2R x - y) + (B2R f - fr) / 1000 + B2R g * (B2R w - wr))) by (unfold nmilli; cbn; field).
    unfold rho, step_error. apply Rabs_le_inv in Ex', Ex, Ef, Egw. rewrite Rmult_plus_distr_r, Rmult_1_l. replace (L / 1000 * e) with (L * e / 1000) by field.
    assert (Q : / 1125899906842624 * (Rabs (B2R x) + Rabs (B2R f) / 1000 + Rabs (B2R g * B2R w)) <= / 1125899906842624 * (X + 1 + Phi / 1000 + G * Om)) by (apply Rmult_le_compat_l; lra).
    apply Rabs_le. split; lra.
  Qed.

  Section Obj.
    Context (p : params double) (pR : params R) (s : S) (o : obj double) (oR : obj R) (s' sR' : S) (Hc : construct E p s = (Ok o, s')) (HcR : construct ER pR s = (Ok oR, sR')).
    Context (HN : p_N p = p_N pR) (Hdim : List.length (p_y1 p) = List.length (p_y1 pR)) (Hk : List.length (o_grid o) = List.length (o_grid oR)).
    Context (Hd : p_det p = false) (HdR : p_det pR = false) (Hr : p_reweight p = false) (HrR : p_reweight pR = false).
    Let dim := List.length (p_y1 p).
    Let k := List.length (o_grid o).
    Context (Hy1 : forall d, (d < dim)%nat -> finite (nth d (p_y1 p) nzero) /\ nth d (p_y1 pR) 0 = B2R (nth d (p_y1 p) nzero)).
    Context (Hf : same_drift X Phi L delta (call1 (p_f p)) (call1 (p_f pR))) (Hn : same_noise Om eps E ER) (Hg : same_diffusion G 1 dim (p_g p) (p_g pR)).

    Theorem C86_stochastic_accuracy : (2 <= k)%nat ->
      (forall d n t, (d < dim)%nat -> (n < p_N p)%nat -> (t + 1 < k)%nat -> Rabs (get3 (o_Z oR) d n t) <= X) ->
      INR k * rho * exp (L / 1000 * INR k) <= 1 ->
      forall d n t, (d < dim)%nat -> (n < p_N p)%nat -> (t + 1 < k)%nat ->
        finite (get3 (o_Z o) d n t) /\ Rabs (B2R (get3 (o_Z o) d n t) - get3 (o_Z oR) d n t) <= INR t * rho * exp (L / 1000 * INR t).
    Proof.
      intros K2 HB HE.
      destruct (C56_stochastic_recurrence E p s o s' Hc Hd K2) as (sg & S0 & H). rewrite Hr in H. destruct (C56_stochastic_recurrence ER pR s oR sR' HcR HdR) as (sgR & S0R & H'); [rewrite <- Hk; exact K2|]. rewrite HrR in H'.
      pose proof (Z_sh E p s o s' Hc) as SZ. pose proof (Z_sh ER pR s oR sR' HcR) as SZR. fold dim k in SZ. rewrite <- Hdim, <- HN, <- Hk in SZR. fold dim k in SZR.
      assert (M : forall t, (t + 1 < k)%nat -> sg t = sgR t /\ forall d n, (d < dim)%nat -> (n < p_N p)%nat -> finite (get3 (o_Z o) d n t) /\ Rabs (B2R (get3 (o_Z o) d n t) - get3 (o_Z oR) d n t) <= drifted t).
      2:{ intros d n t A B C. now apply M. }
      induction t as [|t IH]; intro Ht.
      - split; [congruence|]. intros d n Hdd Hnn. destruct (C14_stochastic_start E p s o s' Hc Hd K2) as (D2 & Z0). destruct (C14_stochastic_start ER pR s oR sR' HcR HdR) as (_ & Z0R); [rewrite <- Hk; exact K2|].
        rewrite Z0, Z0R by (rewrite <- ?Hdim, <- ?HN; auto). unfold drifted. cbn [INR]. destruct (d <? 2)%nat.
        + destruct (Hy1 d Hdd) as (F & V). split; [exact F|]. change (nth d (p_y1 pR) nzero) with (nth d (p_y1 pR) 0). rewrite V. replace (_ - _) with 0 by ring. rewrite Rabs_R0. rewrite !Rmult_0_l. lra.
        + destruct dZ0' as (F & V). split; [exact F|]. cbn [nzero FoOps DoubleOps ROps]. rewrite V. replace (0 - 0) with 0 by ring. rewrite Rabs_R0, !Rmult_0_l. lra.
      - destruct (IH ltac:(lia)) as (SG & IHt). specialize (H (Datatypes.S t) ltac:(fold k; lia)). specialize (H' (Datatypes.S t) ltac:(rewrite <- Hk; fold k; lia)). replace (Datatypes.S t - 1)%nat with t in H, H' by lia.
        destruct (sh_slice _ _ _ _ t SZ ltac:(lia)) as (_ & R1 & C1). destruct (sh_slice _ _ _ _ t SZR ltac:(lia)) as (_ & R2 & C2).
        apply (particles_ok fexp fsin fcos fsum) in H. destruct H as (q & Q0 & Q1 & H). destruct H' as (q' & Q0' & Q1' & H').
        assert (Hn' : forall n, (n < p_N p)%nat -> mc (slice (o_Z o) t) = p_N p) by (intros; exact C1).
        pose proof (drifted_le t k ltac:(lia)) as DT. assert (DK : drifted k <= 1) by exact HE.
        assert (ST : forall n, (n <= p_N p)%nat -> q n = q' n).
        { induction n as [|n IHn]; intro Hnn; [congruence|]. specialize (IHn ltac:(lia)). destruct (H n ltac:(rewrite C1; lia)) as (F & W & _ & HW & _). destruct (H' n ltac:(rewrite C2; lia)) as (FR & WR & _ & HWR & _).
          destruct (Hn _ _ _ _ _ HW) as (WR' & HW' & _). rewrite IHn in HW'. rewrite R1 in HW'. rewrite R2 in HWR. rewrite HW' in HWR. now injection HWR. }
        split; [rewrite <- Q1, <- Q1', C1, C2; now apply ST|].
        intros d n Hdd Hnn. destruct (H n ltac:(rewrite C1; lia)) as (F & W & HF & HW & Hx). destruct (H' n ltac:(rewrite C2; lia)) as (FR & WR & HFR & HWR & Hx').
        destruct (Hn _ _ _ _ _ HW) as (WR' & HW' & HWc). rewrite (ST n ltac:(lia)), R1 in HW'. rewrite R2 in HWR. rewrite HW' in HWR. injection HWR as ->.
        specialize (Hx d ltac:(rewrite R1; lia)). specialize (Hx' d ltac:(rewrite R2; lia)). rewrite R1 in HWc. specialize (HWc 0%nat d ltac:(lia) Hdd). destruct HWc as (Wz & We).
        destruct (Hg 0%nat d ltac:(lia) Hdd) as (Gz & Ge).
        assert (FO : follows (drifted t) (vec (col (slice (o_Z o) t) n)) (vec (col (slice (o_Z oR) t) n))).
        { split; [reflexivity|]. split; [cbn; rewrite !col_length; lia|]. intros i j Hi Hj. change (i < 1)%nat in Hi. match type of Hj with (_ < mc (vec ?l))%nat => change (j < List.length l)%nat in Hj end. rewrite col_length in Hj. assert (i = 0%nat) as -> by lia.
          rewrite !get_vec by (rewrite col_length; lia). rewrite !nth_col by lia. apply (IHt j n); lia. }
        destruct (Hf _ _ (drifted t) F FR ltac:(lra) FO) with (i := 0%nat) (j := d) as (Fz & Fe); auto; try (cbn; rewrite ?col_length; lia).
        { intros i j Hi Hj. change (i < 1)%nat in Hi. match type of Hj with (_ < mc (vec ?l))%nat => change (j < List.length l)%nat in Hj end. rewrite col_length in Hj. assert (i = 0%nat) as -> by lia. rewrite get_vec by (rewrite col_length; lia). rewrite nth_col by lia. apply (HB j n t); lia. }
        destruct (IHt d n Hdd Hnn) as (Zf & Ze). unfold get3 in *. rewrite Hx'. rewrite Ge.
        destruct (entry_follows _ _ _ _ _ (get (slice (o_Z oR) t) d n) (elem FR 0 d) (WR 0%nat d) (drifted t) ltac:(lra) Hx Zf Ze (HB d n t Hdd Hnn ltac:(lia)) Fz Fe Gz Wz We) as (Ff & Ee).
        split; [exact Ff|]. eapply Rle_trans; [exact Ee|apply drifted_step].
    Qed.
  End Obj.

  Section TObj.
    Context (b bR : ykind) (p : params double) (pR : params R) (s : S) (o : obj double) (oR : obj R) (s' sR' : S) (Hc : t_construct E b p s = (Ok o, s')) (HcR : t_construct ER bR pR s = (Ok oR, sR')) (Hy : p_y1 p <> []).
    Context (HN : p_N p = p_N pR) (Hdim : List.length (p_y1 p) = List.length (p_y1 pR)) (Hk : List.length (o_grid o) = List.length (o_grid oR)).
    Context (Hd : p_det p = false) (HdR : p_det pR = false) (Hr : p_reweight p = false) (HrR : p_reweight pR = false).
    Let dim := List.length (p_y1 p).
    Let k := List.length (o_grid o).
    Context (Hy1 : forall d, (d < dim)%nat -> finite (nth d (p_y1 p) nzero) /\ nth d (p_y1 pR) 0 = B2R (nth d (p_y1 p) nzero)).
    (** the drift at every time the run uses it *)
    Context (Hf : forall i, (1 <= i < k)%nat -> same_drift X Phi L delta (fun x => call2 (p_f p) x (nsub (nth i (o_grid o) nzero) nmilli)) (fun x => call2 (p_f pR) x (nth i (o_grid oR) 0 - 1 / 1000))).
    Context (Hn : same_noise Om eps E ER) (Hg : same_diffusion G dim (p_N p) (p_g p) (p_g pR)).

    Theorem C86_torch_stochastic_accuracy :
      (forall d n t, (d < dim)%nat -> (n < p_N p)%nat -> (t < k)%nat -> Rabs (get3 (o_Z oR) d n t) <= X) ->
      INR k * rho * exp (L / 1000 * INR k) <= 1 ->
      forall d n t, (d < dim)%nat -> (n < p_N p)%nat -> (t < k)%nat ->
        finite (get3 (o_Z o) d n t) /\ Rabs (B2R (get3 (o_Z o) d n t) - get3 (o_Z oR) d n t) <= INR t * rho * exp (L / 1000 * INR t).
    Proof.
      intros HB HE. assert (HyR : p_y1 pR <> []) by (destruct (p_y1 p), (p_y1 pR); cbn in Hdim; congruence).
      destruct (C59_torch_stochastic_recurrence E b p s o s' Hc Hy Hd) as (sg & S0 & H). rewrite Hr in H. destruct (C59_torch_stochastic_recurrence ER bR pR s oR sR' HcR HyR HdR) as (sgR & S0R & H'). rewrite HrR in H'.
      pose proof (Torch.tZ_sh E b p s o s' Hc) as SZ. pose proof (Torch.tZ_sh ER bR pR s oR sR' HcR) as SZR. fold dim k in SZ. rewrite <- Hdim, <- HN, <- Hk in SZR. fold dim k in SZR.
      assert (M : forall t, (t < k)%nat -> sg t = sgR t /\ forall d n, (d < dim)%nat -> (n < p_N p)%nat -> finite (get3 (o_Z o) d n t) /\ Rabs (B2R (get3 (o_Z o) d n t) - get3 (o_Z oR) d n t) <= drifted t).
      2:{ intros d n t A B C. now apply M. }
      induction t as [|t IH]; intro Ht.
      - split; [congruence|]. intros d n Hdd Hnn. destruct (C49_torch_stochastic_start E b p s o s' Hc Hy Hd) as (D2 & Z0). destruct (C49_torch_stochastic_start ER bR pR s oR sR' HcR HyR HdR) as (_ & Z0R).
        rewrite Z0, Z0R by (rewrite <- ?Hdim, <- ?HN; auto). unfold drifted. cbn [INR]. destruct (d <? 2)%nat.
        + destruct (Hy1 d Hdd) as (F & V). split; [exact F|]. change (nth d (p_y1 pR) nzero) with (nth d (p_y1 pR) 0). rewrite V. replace (_ - _) with 0 by ring. rewrite Rabs_R0. rewrite !Rmult_0_l. lra.
        + destruct dZ0' as (F & V). split; [exact F|]. cbn [nzero FoOps DoubleOps ROps]. rewrite V. replace (0 - 0) with 0 by ring. rewrite Rabs_R0, !Rmult_0_l. lra.
      - destruct (IH ltac:(lia)) as (SG & IHt). specialize (H (Datatypes.S t) ltac:(fold k; lia)). specialize (H' (Datatypes.S t) ltac:(rewrite <- Hk; fold k; lia)). replace (Datatypes.S t - 1)%nat with t in H, H' by lia.
        destruct (sh_slice _ _ _ _ t SZ ltac:(lia)) as (_ & R1 & C1). destruct (sh_slice _ _ _ _ t SZR ltac:(lia)) as (_ & R2 & C2).
        apply (noisy_ok fexp fsin fcos fsum) in H. destruct H as (F & W & HF & HW & Hx). destruct H' as (FR & WR & HFR & HWR & Hx').
        pose proof (drifted_le t k ltac:(lia)) as DT. assert (DK : drifted k <= 1) by exact HE.
        destruct (Hn _ _ _ _ _ HW) as (WR' & HW' & HWc). rewrite SG, R1, C1 in HW'. rewrite R2, C2 in HWR. rewrite HW' in HWR. injection HWR as -> HS. split; [exact HS|].
        intros d n Hdd Hnn. specialize (Hx d n ltac:(rewrite R1; lia) ltac:(rewrite C1; lia)). specialize (Hx' d n ltac:(rewrite R2; lia) ltac:(rewrite C2; lia)). rewrite R1, C1 in HWc. specialize (HWc d n Hdd Hnn). destruct HWc as (Wz & We).
        destruct (Hg d n Hdd Hnn) as (Gz & Ge).
        assert (FO : follows (drifted t) (slice (o_Z o) t) (slice (o_Z oR) t)).
        { split; [congruence|]. split; [congruence|]. intros i j Hi Hj. rewrite R1 in Hi. rewrite C1 in Hj. apply (IHt i j); lia. }
        destruct (Hf (Datatypes.S t) ltac:(lia) _ _ (drifted t) F FR ltac:(lra) FO) with (i := d) (j := n) as (Fz & Fe); auto; try (rewrite ?R1, ?C1; lia).
        { intros i j Hi Hj. rewrite R2 in Hi. rewrite C2 in Hj. apply (HB i j t); lia. }
        destruct (IHt d n Hdd Hnn) as (Zf & Ze). unfold get3 in *. rewrite Hx'. rewrite Ge.
        destruct (entry_follows _ _ _ _ _ (get (slice (o_Z oR) t) d n) (elem FR d n) (WR d n) (drifted t) ltac:(lra) Hx Zf Ze (HB d n t Hdd Hnn ltac:(lia)) Fz Fe Gz Wz We) as (Ff & Ee).
        split; [exact Ff|]. eapply Rle_trans; [exact Ee|apply drifted_step].
    Qed.
  End TObj.
End Follow.
