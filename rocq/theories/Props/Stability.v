(** C63: estimated scores are bounded and Lipschitz, so one deterministic step and the interior control are bounded. *)
From Coq Require Import String List ZArith Reals Lra Lia Bool.
From Verif Require Import Base.Num Base.Py Base.Arr Lib.ArrLemmas Model.Ext Model.Cdist Model.Score Model.DPFC.
From Verif Require Import Spec.FlowSpec Spec.TotalSpec Spec.QuerySpec Spec.RealSpec Spec.Contracts Spec.RangeSpec Spec.KernelSpec Spec.ReweightSpec Spec.ScoreSpec.
From Verif Require Import Lib.FlowLemmas Lib.ScoreLemmas Lib.RBase Lib.RSum Lib.RMat Lib.Gauss Lib.Estimator Lib.Rkhs.
From Verif Require Import Props.Flows Props.Queries Props.QueriesR Props.Kernels Props.Estimators Props.ScoresR.
Import ListNotations.
Local Open Scope R_scope.

(** standard deviation of coordinate d of an ensemble *)
Definition sigma (x : mat R) (d : nat) : R := sqrt (variance (mc x) (get x d)).

Section S.
  Context {S : Type} (E : Ext R S) (HI : inv_contract E).

  Lemma minimiser_bounds N M D l x z d lam a : (forall d, (d < D)%nat -> l d <> 0) -> (d < D)%nat -> 0 < lam -> minimises N M D l x z d lam 0.001 a ->
    let B := 2 * INR N / (lam * Rabs (l d)) in
    (forall p, Rabs (expansion M D l z a p) <= B) /\ forall p q, Rabs (expansion M D l z a p - expansion M D l z a q) <= B * sqrt (2 - 2 * gaussk D l p q).
  Proof. intros Hl Hd Hlam Ha B. apply (matched_bound N M D l x z d lam 0.001); auto; [lra|]. exists a. auto. Qed.

  (** the estimates at the samples *)
  Theorem C63_samples_bounded est D X Zp l C d v : sample_estimator E est -> estimator_args D X Zp l C -> (d < D)%nat ->
    est X Zp C l (Z.of_nat d + 1)%Z = Ok v ->
    forall n, (n < mr X)%nat -> Rabs (nth n v 0) <= 2 * INR (mr X) / ((C + 0.001) * Rabs (scale_of l d)).
  Proof.
    intros He HA Hd H n Hn. destruct (C43_samples E HI est D X Zp l C d He HA Hd) as (a & Ha & Q). rewrite Q in H. injection H as <-. rewrite nth_map_seq by auto.
    destruct HA as (_ & Hl & HC). eapply minimiser_bounds in Ha; auto; [|lra]. apply Ha.
  Qed.
  (** the estimated function, at any points; and how fast it can vary *)
  Theorem C63_function_bounded est D X Zp l C d fn y v : function_estimator E est -> estimator_args D X Zp l C -> (d < D)%nat ->
    est X Zp C l (Z.of_nat d + 1)%Z = Ok fn -> mc y = D -> fn y = Ok v ->
    let B := 2 * INR (mr X) / ((C + 0.001) * Rabs (scale_of l d)) in
    (forall i, (i < mr y)%nat -> Rabs (nth i v 0) <= B) /\
    forall i j, (i < mr y)%nat -> (j < mr y)%nat -> Rabs (nth i v 0 - nth j v 0) <= B * sqrt (2 - 2 * gaussk D (scale_of l) (get y i) (get y j)).
  Proof.
    intros He HA Hd Hf Hy H. destruct (C43_functions E HI est D X Zp l C d He HA Hd) as (a & f' & Ha & Q & V). rewrite Q in Hf. injection Hf as <-.
    rewrite (V y Hy) in H. injection H as <-. destruct HA as (_ & Hl & HC). eapply minimiser_bounds in Ha; auto; [|lra]. cbv zeta. destruct Ha as (A1 & A2). split.
    - intros i Hi. rewrite nth_map_seq by auto. apply A1.
    - intros i j Hi Hj. rewrite !nth_map_seq by auto. apply A2.
  Qed.

  Lemma sigma_pos (x : mat R) d : spread x d -> 0 < sigma x d.
  Proof. intro H. unfold sigma. rewrite <- nstd_sqrt; [now apply nstd_pos|]. destruct H as (m & n & ? & _). lia. Qed.
  Lemma score_bound (x : mat R) N M D z d s : (forall d, (d < D)%nat -> spread x d) -> (d < D)%nat ->
    matched_score N M D (two_sigma x) (particle x) z 0.002 0.001 d s -> forall p, Rabs (s p) <= 500 * INR N / sigma x d.
  Proof.
    intros Hs Hd Hm p. assert (Hp : forall e, (e < D)%nat -> 0 < sigma x e) by (intros; apply sigma_pos; auto).
    assert (Hl : forall e, (e < D)%nat -> two_sigma x e <> 0). { intros e He. unfold two_sigma. fold (sigma x e). pose proof (Hp e He). lra. }
    destruct (matched_bound N M D _ _ _ d 0.002 0.001 Hl Hd ltac:(lra) ltac:(lra) s Hm) as (A & _). eapply Rle_trans; [apply A|]. apply Req_le.
    unfold two_sigma. fold (sigma x d). pose proof (Hp d Hd). rewrite Rabs_right by lra. replace 0.002 with (/ 500) by lra. field. lra.
  Qed.
  Lemma abs_scal c s B : 0 <= c -> Rabs s <= B -> Rabs (c * s) <= c * B.
  Proof. intros Hc H. rewrite Rabs_mult, (Rabs_right c) by lra. now apply Rmult_le_compat_l. Qed.

  Section Run.
    Context (p : params R) (s : S) (o : obj R) (s' : S) (Hc : construct E p s = (Ok o, s')) (HK : o_kern o = "RBF"%string) (HU : uniform_in_range E) (Hdet : p_det p = true).
    Let k := List.length (o_grid o).
    (** besides the drift, one deterministic forward step moves a particle by at most N g^2 / (4 sigma) *)
    Theorem C63_forward_step_bounded : p_reweight p = false -> forall i, (2 <= i < k)%nat -> let x := slice (o_Z o) (i-1) in
      (1 <= mc x)%nat -> (forall d, (d < mr x)%nat -> spread x d) ->
      exists F, call2 (p_f p) x (nth i (o_grid o) 0 - 0.001) = Ok F /\ forall d n, (d < mr x)%nat -> (n < mc x)%nat ->
        Rabs (get3 (o_Z o) d n i - (get x d n + 0.001 * elem F d n)) <= INR (mc x) * elem (p_g p) d n ^ 2 / (4 * sigma x d).
    Proof.
      intros Hr i Hi x Hn Hs. destruct (C06_score_matching E HI p s o s' Hc HK HU Hdet Hr i Hi Hn Hs) as (F & z & HF & _ & Hz). fold x in HF, Hz.
      exists F. split; [exact HF|]. intros d n Hd Hnn. destruct (Hz d Hd) as (sc & Hsc & Hv). rewrite (Hv n Hnn).
      pose proof (score_bound x _ _ _ z d sc Hs Hd Hsc (particle x n)) as B. set (g := elem (p_g p) d n). set (v := sc (particle x n)) in *.
      replace (get x d n + 0.001 * (elem F d n - 1 / 2 * g ^ 2 * v) - (get x d n + 0.001 * elem F d n)) with (- (0.0005 * g ^ 2 * v)) by lra.
      rewrite Rabs_Ropp. pose proof (pow2_ge_0 g). pose proof (sigma_pos x d (Hs d Hd)).
      replace (INR (mc x) * g ^ 2 / (4 * sigma x d)) with (0.0005 * g ^ 2 * (500 * INR (mc x) / sigma x d)) by (replace 0.0005 with (/ 2000) by lra; field; lra). apply abs_scal; [lra|exact B].
    Qed.
    (** the same for the time-reversed flow *)
    Theorem C63_backward_step_bounded : forall j, (1 <= j)%nat -> (j + 2 < k)%nat -> let x := slice (o_Z o) (j+1) in let b := slice (o_B o) (j+1) in
      (1 <= p_N p)%nat -> (forall d, (d < mr b)%nat -> spread x d) -> (forall d, (d < mr b)%nat -> spread b d) ->
      exists F, call2 (p_f p) b (nth (j+1) (o_grid o) 0) = Ok F /\ forall d n, (d < mr b)%nat -> (n < p_N p)%nat ->
        Rabs (get3 (o_B o) d n j - (get b d n - 0.001 * elem F d n)) <= INR (p_N p) * elem (p_g p) d n ^ 2 * (/ (2 * sigma x d) + / (4 * sigma b d)).
    Proof.
      intros j Hj Hjk x b Hn Hx Hb. destruct (C07_score_matching E HI p s o s' Hc HK HU Hdet j Hj Hjk Hn Hx Hb) as (F & z & z' & HF & _ & _ & Hz). fold x b in HF, Hz.
      exists F. split; [exact HF|]. intros d n Hd Hnn. destruct (Hz d Hd) as (sx & sb & Hsx & Hsb & Hv). rewrite (Hv n Hnn).
      pose proof (score_bound x _ _ _ z d sx Hx Hd Hsx (particle b n)) as B1. pose proof (score_bound b _ _ _ z' d sb Hb Hd Hsb (particle b n)) as B2.
      set (g := elem (p_g p) d n). set (v := sx (particle b n)) in *. set (w := sb (particle b n)) in *. pose proof (pow2_ge_0 g).
      replace (get b d n - 0.001 * (elem F d n - g ^ 2 * v + 1 / 2 * g ^ 2 * w) - (get b d n - 0.001 * elem F d n)) with (0.001 * g ^ 2 * v - 0.0005 * g ^ 2 * w) by lra.
      pose proof (sigma_pos x d (Hx d Hd)). pose proof (sigma_pos b d (Hb d Hd)).
      replace (INR (p_N p) * g ^ 2 * (/ (2 * sigma x d) + / (4 * sigma b d))) with (0.001 * g ^ 2 * (500 * INR (p_N p) / sigma x d) + 0.0005 * g ^ 2 * (500 * INR (p_N p) / sigma b d)) by (replace 0.0005 with (/ 2000) by lra; replace 0.001 with (/ 1000) by lra; field; lra).
      eapply Rle_trans; [apply Rabs_triang|]. rewrite Rabs_Ropp. apply Rplus_le_compat; apply abs_scal; auto; lra.
    Qed.
  End Run.
  (** the control at an interior time index is bounded at every point *)
  Theorem C63_control_bounded o dim N k gx ti s u s' : consistent o dim N k -> (1 <= N)%nat -> uniform_in_range E -> o_kern o = "RBF"%string ->
    p_reweight (o_par o) && p_brown (o_par o) = false -> (6 <= ti <= Z.of_nat k - 6)%Z -> mc gx = dim -> calculate_u E o gx ti s = (Ok u, s') ->
    let x := slice (o_Z o) (Z.to_nat ti) in let b := slice (o_B o) (Z.to_nat ti) in
    (forall d, (d < dim)%nat -> spread x d) -> (forall d, (d < dim)%nat -> spread b d) ->
    forall d i, (d < dim)%nat -> (i < mr gx)%nat -> Rabs (get u d i) <= 500 * INR N * (/ sigma x d + / sigma b d).
  Proof.
    intros H1 H2 HU HK Hb Ht Hg Hu x b Hx Hbb d i Hd Hi.
    destruct (C22_score_matching E HI o dim N k gx ti s u s' H1 H2 HU HK Hb Ht Hg Hu Hx Hbb) as (z & _ & Hz). destruct (Hz d Hd) as (sb & sx & Hsb & Hsx & V). rewrite (V i Hi).
    pose proof (score_bound x _ _ _ z d sx Hx Hd Hsx (get gx i)) as B1. pose proof (score_bound b _ _ _ z d sb Hbb Hd Hsb (get gx i)) as B2.
    eapply Rle_trans; [apply Rabs_triang|]. rewrite Rabs_Ropp. unfold Rdiv in B1, B2. lra.
  Qed.
End S.
