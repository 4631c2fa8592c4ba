(** Error bookkeeping for short double-precision expressions (no modelling content). *)
From Coq Require Import String List ZArith Reals Bool Lia Lra Psatz Permutation.
From Flocq Require Import Core BinarySingleNaN Relative.
From Verif Require Import Base.Num Base.Py Base.Arr Lib.ArrLemmas Lib.RSum Spec.RealSpec Model.Ext Model.Score Run.Double Spec.DoubleSpec Spec.RoundSpec.
From Verif Require Import Lib.DoubleLemmas.
Import ListNotations.
Local Open Scope R_scope.

(** x approximates v, |v| <= A, with error k u A + m *)
Definition appr (x : double) (v A k m : R) : Prop := finite x /\ Rabs v <= A /\ Rabs (B2R x - v) <= k * u * A + m.

Lemma plus_fin2 (a b : double) : finite (Bplus mode_NE a b) -> finite a /\ finite b.
Proof. unfold finite. destruct a as [| [|] | |], b as [| [|] | |]; cbn; try discriminate; auto. Qed.
Lemma minus_fin2 (a b : double) : finite (Bminus mode_NE a b) -> finite a /\ finite b.
Proof. unfold finite. destruct a as [| [|] | |], b as [| [|] | |]; cbn; try discriminate; auto. Qed.
Lemma mult_fin2 (a b : double) : finite (Bmult mode_NE a b) -> finite a /\ finite b.
Proof. unfold finite. destruct a as [| [|] | |], b as [| [|] | |]; cbn; try discriminate; auto. Qed.
Lemma tree_fin_all l s : tree_sum l s -> finite s -> forall x, In x l -> finite x.
Proof.
  induction 1 as [|x|l l1 l2 x y P T1 IH1 T2 IH2]; intros F z Hz; [destruct Hz|destruct Hz as [<-|[]]; exact F|].
  apply plus_fin2 in F. apply (Permutation_in _ P) in Hz. apply in_app_or in Hz. destruct Hz; [apply IH1|apply IH2]; tauto.
Qed.

Lemma u_small : 0 < u <= / 1000000000000. Proof. unfold u. lra. Qed.
Lemma eta_small : 0 < eta <= / 100000000000000000000. Proof. unfold eta. lra. Qed.

Lemma ap_exact (x : double) A : finite x -> Rabs (B2R x) <= A -> appr x (B2R x) A 0 0.
Proof. intros F H. split; [exact F|]. split; [exact H|]. replace (B2R x - B2R x) with 0 by ring. rewrite Rabs_R0. lra. Qed.

(** the common core: z is the rounding of t, t within D of v *)
Lemma ap_add z x y v w A B k l m n K M : (is_finite x = true -> is_finite y = true -> Rabs (B2R x + B2R y) <= 1000000000000 -> near z (B2R x + B2R y) (u * Rabs (B2R x + B2R y) + eta)) ->
  appr x v A k m -> appr y w B l n -> 0 <= k <= 100 -> 0 <= l <= 100 -> 0 <= m <= 1 -> 0 <= n <= 1 ->
  A + B <= 500000000000 -> k + 1 + / 100 <= K -> l + 1 + / 100 <= K -> 2 * (m + n) + eta <= M -> appr z (v + w) (A + B) K M.
Proof.
  intros Hz (Fx & Hv & Ex) (Fy & Hw & Ey) Hk Hl Hm Hn HAB K1 K2 HM. pose proof u_small as U. pose proof eta_small as ET.
  assert (PA : 0 <= A) by (eapply Rle_trans; [apply Rabs_pos|exact Hv]). assert (PB : 0 <= B) by (eapply Rle_trans; [apply Rabs_pos|exact Hw]).
  set (a := u * A) in *. set (b := u * B) in *. assert (0 <= a) by (apply Rmult_le_pos; lra). assert (0 <= b) by (apply Rmult_le_pos; lra).
  assert (aB : a + b <= 1). { unfold a, b. rewrite <- Rmult_plus_distr_l. apply Rle_trans with (/ 1000000000000 * 500000000000); [apply Rmult_le_compat; lra|lra]. }
  replace (k * u * A) with (k * a) in Ex by (unfold a; ring). replace (l * u * B) with (l * b) in Ey by (unfold b; ring).
  assert (ka : 0 <= k * a <= 100 * a) by (split; [apply Rmult_le_pos; lra|apply Rmult_le_compat_r; lra]).
  assert (lb : 0 <= l * b <= 100 * b) by (split; [apply Rmult_le_pos; lra|apply Rmult_le_compat_r; lra]).
  apply Rabs_le_inv in Hv, Hw, Ex, Ey. set (t := B2R x + B2R y).
  assert (D : Rabs (t - (v + w)) <= k * a + l * b + m + n) by (unfold t; apply Rabs_le; split; lra).
  assert (T : Rabs t <= A + B + k * a + l * b + m + n) by (unfold t; apply Rabs_le; split; lra).
  destruct (Hz Fx Fy) as (F & N); [fold t; lra|]. fold t in N. split; [exact F|]. split; [apply Rabs_le; split; lra|].
  assert (uT : u * Rabs t <= a + b + u * (k * a + l * b + m + n)). { replace (a + b + u * (k * a + l * b + m + n)) with (u * (A + B + k * a + l * b + m + n)) by (unfold a, b; ring). apply Rmult_le_compat_l; lra. }
  assert (uD : u * (k * a + l * b + m + n) <= / 1000000000000 * (k * a + l * b + m + n)) by (apply Rmult_le_compat_r; lra).
  replace (K * u * (A + B)) with (K * a + K * b) by (unfold a, b; ring).
  assert ((k + 1 + / 100) * a <= K * a) by (apply Rmult_le_compat_r; lra). assert ((l + 1 + / 100) * b <= K * b) by (apply Rmult_le_compat_r; lra).
  apply Rabs_le_inv in N, D. apply Rabs_le. split; lra.
Qed.
Lemma ap_plus x y v w A B k l m n K M : appr x v A k m -> appr y w B l n -> 0 <= k <= 100 -> 0 <= l <= 100 -> 0 <= m <= 1 -> 0 <= n <= 1 ->
  A + B <= 500000000000 -> k + 1 + / 100 <= K -> l + 1 + / 100 <= K -> 2 * (m + n) + eta <= M -> appr (Bplus mode_NE x y) (v + w) (A + B) K M.
Proof. intros X Y. intros. apply (ap_add _ x y v w A B k l m n); auto using plus_near. Qed.
Lemma ap_opp y w B l n : appr y w B l n -> appr (Bopp y) (- w) B l n.
Proof.
  intros (F & H & E). split; [now destruct y|]. split; [now rewrite Rabs_Ropp|]. rewrite B2R_Bopp. replace (- B2R y - - w) with (- (B2R y - w)) by ring. now rewrite Rabs_Ropp.
Qed.
Lemma ap_minus x y v w A B k l m n K M : appr x v A k m -> appr y w B l n -> 0 <= k <= 100 -> 0 <= l <= 100 -> 0 <= m <= 1 -> 0 <= n <= 1 ->
  A + B <= 500000000000 -> k + 1 + / 100 <= K -> l + 1 + / 100 <= K -> 2 * (m + n) + eta <= M -> appr (Bminus mode_NE x y) (v - w) (A + B) K M.
Proof.
  intros X Y. intros. apply (ap_add _ x (Bopp y) v (- w) A B k l m n); auto using ap_opp. rewrite B2R_Bopp, is_finite_Bopp. intros F1 F2 F3.
  replace (B2R x + - B2R y) with (B2R x - B2R y) in * by ring. now apply minus_near.
Qed.
Lemma ap_mult x y v w A B k l m n K M : appr x v A k m -> appr y w B l n -> 0 <= k <= 100 -> 0 <= l <= 100 -> 0 <= m <= / 1000000 -> 0 <= n <= / 1000000 ->
  A * n <= 1 -> B * m <= 1 -> A * B <= 500000000000 -> k + l + 1 + / 100 <= K -> 2 * (A * n + B * m + m * n) + eta <= M -> appr (Bmult mode_NE x y) (v * w) (A * B) K M.
Proof.
  intros (Fx & Hv & Ex) (Fy & Hw & Ey) Hk Hl Hm Hn An Bm HAB K1 HM. pose proof u_small as U. pose proof eta_small as ET.
  assert (PA : 0 <= A) by (eapply Rle_trans; [apply Rabs_pos|exact Hv]). assert (PB : 0 <= B) by (eapply Rle_trans; [apply Rabs_pos|exact Hw]).
  set (q := u * (A * B)). assert (P : 0 <= A * B) by (apply Rmult_le_pos; lra). assert (Q : 0 <= q <= 1). { unfold q. split; [apply Rmult_le_pos; lra|]. apply Rle_trans with (/ 1000000000000 * 500000000000); [apply Rmult_le_compat; lra|lra]. }
  set (ex := k * u * A + m) in *. set (ey := l * u * B + n) in *.
  assert (D : Rabs (B2R x * B2R y - v * w) <= ex * (B + ey) + A * ey).
  { replace (B2R x * B2R y - v * w) with ((B2R x - v) * B2R y + v * (B2R y - w)) by ring. eapply Rle_trans; [apply Rabs_triang|]. rewrite !Rabs_mult.
    assert (Rabs (B2R y) <= B + ey) by (apply Rabs_le_inv in Hw, Ey; apply Rabs_le; split; lra).
    apply Rplus_le_compat; apply Rmult_le_compat; auto using Rabs_pos. }
  assert (ku : 0 <= k * u <= / 1000000000). { split; [apply Rmult_le_pos; lra|]. apply Rle_trans with (100 * / 1000000000000); [apply Rmult_le_compat; lra|lra]. }
  assert (lu : 0 <= l * u <= / 1000000000). { split; [apply Rmult_le_pos; lra|]. apply Rle_trans with (100 * / 1000000000000); [apply Rmult_le_compat; lra|lra]. }
  assert (EQ : ex * (B + ey) + A * ey = k * q + l * q + (l * u) * (k * q) + B * m + A * n + (k * u) * (A * n) + (l * u) * (B * m) + m * n) by (unfold ex, ey, q; ring).
  assert (PAn : 0 <= A * n) by (apply Rmult_le_pos; lra). assert (PBm : 0 <= B * m) by (apply Rmult_le_pos; lra).
  assert (Pmn : 0 <= m * n <= 1). { split; [apply Rmult_le_pos; lra|]. apply Rle_trans with (/ 1000000 * / 1000000); [apply Rmult_le_compat; lra|lra]. }
  assert (kq : 0 <= k * q <= 100 * q) by (split; [apply Rmult_le_pos; lra|apply Rmult_le_compat_r; lra]).
  assert (lq : 0 <= l * q <= 100 * q) by (split; [apply Rmult_le_pos; lra|apply Rmult_le_compat_r; lra]).
  assert (T1 : 0 <= (l * u) * (k * q) <= / 1000000000 * (k * q)) by (split; [apply Rmult_le_pos; lra|apply Rmult_le_compat_r; lra]).
  assert (T2 : 0 <= (k * u) * (A * n) <= / 1000000000 * (A * n)) by (split; [apply Rmult_le_pos; lra|apply Rmult_le_compat_r; lra]).
  assert (T3 : 0 <= (l * u) * (B * m) <= / 1000000000 * (B * m)) by (split; [apply Rmult_le_pos; lra|apply Rmult_le_compat_r; lra]).
  rewrite EQ in D. set (DD := k * q + l * q + l * u * (k * q) + B * m + A * n + k * u * (A * n) + l * u * (B * m) + m * n) in *.
  assert (PD : 0 <= DD <= 300 * q + B * m + A * n + m * n + / 100000000 * q + / 1000000000 * (A * n + B * m)) by (unfold DD; split; lra).
  assert (V : Rabs (v * w) <= A * B) by (rewrite Rabs_mult; apply Rmult_le_compat; auto using Rabs_pos).
  assert (T : Rabs (B2R x * B2R y) <= A * B + DD). { apply Rabs_le_inv in V, D. apply Rabs_le. split; lra. }
  destruct (mult_near x y Fx Fy) as (F & N); [lra|]. split; [exact F|]. split; [exact V|].
  assert (uT : u * Rabs (B2R x * B2R y) <= q + u * DD) by (unfold q; rewrite <- Rmult_plus_distr_l; apply Rmult_le_compat_l; lra).
  assert (uD : u * DD <= / 1000000000000 * DD) by (apply Rmult_le_compat_r; lra).
  replace (K * u * (A * B)) with (K * q) by (unfold q; ring). assert ((k + l + 1 + / 100) * q <= K * q) by (apply Rmult_le_compat_r; lra).
  apply Rabs_le_inv in N, D. unfold DD in *. apply Rabs_le. split; lra.
Qed.
Lemma ap_weaken x v A k m A' K M : appr x v A k m -> 0 <= k -> A <= A' -> k <= K -> m <= M -> appr x v A' K M.
Proof.
  intros (F & H & E) Hk HA HK HM. pose proof u_small. assert (0 <= A) by (eapply Rle_trans; [apply Rabs_pos|exact H]). split; [exact F|]. split; [lra|]. eapply Rle_trans; [exact E|]. apply Rplus_le_compat; [|exact HM].
  rewrite !Rmult_assoc. apply Rmult_le_compat; try lra; [apply Rmult_le_pos; lra|apply Rmult_le_compat_l; lra].
Qed.
Lemma ap_rounded x v A k m : appr x v A k m -> k <= 8 -> m <= / 100000000000000000000 -> rounded x v A.
Proof.
  intros (F & H & E) Hk Hm. pose proof u_small. assert (0 <= A) by (eapply Rle_trans; [apply Rabs_pos|exact H]). split; [exact F|]. eapply Rle_trans; [exact E|]. apply Rplus_le_compat; [|exact Hm].
  apply Rmult_le_compat_r; [lra|]. apply Rle_trans with (8 * u); [apply Rmult_le_compat_r; lra|unfold u; lra].
Qed.

Section R.
  Context (fexp fsin fcos : double -> double) (fsum : list double -> double).
  #[local] Instance RndOps : NumOps double := DoubleOps fexp fsin fcos fsum.

  Lemma ap_milli : appr nmilli (/ 1000) (/ 1000) 1 0.
  Proof.
    unfold nmilli. cbn [nlit RndOps DoubleOps]. assert (Q : B2SF (Bdiv mode_NE (dZ 1) (dZ 1000)) = SpecFloat.S754_finite false 4611686018427388 (-62)) by (vm_compute; reflexivity).
    split; [unfold finite; rewrite <- is_finite_SF_B2SF, Q; reflexivity|]. rewrite Rabs_pos_eq by lra. split; [lra|]. rewrite <- SF2R_B2SF, Q. cbn [SF2R]. unfold F2R. cbn. unfold u. apply Rabs_le. split; lra.
  Qed.
  Lemma ap_half : appr nhalf (/ 2) (/ 2) 0 0.
  Proof.
    unfold nhalf. cbn [nlit RndOps DoubleOps]. assert (Q : B2SF (Bdiv mode_NE (dZ 1) (dZ 2)) = SpecFloat.S754_finite false 4503599627370496 (-53)) by (vm_compute; reflexivity).
    split; [unfold finite; rewrite <- is_finite_SF_B2SF, Q; reflexivity|]. rewrite Rabs_pos_eq by lra. split; [lra|]. rewrite <- SF2R_B2SF, Q. cbn [SF2R]. unfold F2R. cbn. apply Rabs_le. split; lra.
  Qed.

  Lemma noisy_close_ok (x f g w : double) : noisy_close (nadd (nadd x (nmul nmilli f)) (nmul g w)) x f g w.
  Proof.
    split; cbn [nadd nmul RndOps DoubleOps].
    - intro H. apply plus_fin2 in H. destruct H as (H & H1). apply plus_fin2 in H. destruct H as (H2 & H3). apply mult_fin2 in H1, H3. tauto.
    - intros (Fx & Bx) (Ff & Bf) (Fg & Bg) (Fw & Bw). pose proof eta_small as ET.
      pose proof (ap_exact x _ Fx (Rle_refl _)) as X. pose proof (ap_exact f _ Ff (Rle_refl _)) as F. pose proof (ap_exact g _ Fg (Rle_refl _)) as G. pose proof (ap_exact w _ Fw (Rle_refl _)) as W.
      pose proof (Rabs_pos (B2R x)). pose proof (Rabs_pos (B2R f)). assert (0 <= Rabs (B2R g) * Rabs (B2R w) <= 500 * 1000000) by (split; [apply Rmult_le_pos; apply Rabs_pos|apply Rmult_le_compat; auto using Rabs_pos]).
      pose proof (ap_mult _ _ _ _ _ _ _ _ _ _ (2 + / 100) eta ap_milli F ltac:(lra) ltac:(lra) ltac:(lra) ltac:(lra) ltac:(lra) ltac:(lra) ltac:(lra) ltac:(lra) ltac:(lra)) as HF.
      pose proof (ap_mult _ _ _ _ _ _ _ _ _ _ (1 + / 100) eta G W ltac:(lra) ltac:(lra) ltac:(lra) ltac:(lra) ltac:(lra) ltac:(lra) ltac:(lra) ltac:(lra) ltac:(lra)) as GW.
      pose proof (ap_plus _ _ _ _ _ _ _ _ _ _ (3 + / 50) (3 * eta) X HF ltac:(lra) ltac:(lra) ltac:(lra) ltac:(lra) ltac:(lra) ltac:(lra) ltac:(lra) ltac:(lra)) as Y.
      pose proof (ap_plus _ _ _ _ _ _ _ _ _ _ (4 + / 20) (9 * eta) Y GW ltac:(lra) ltac:(lra) ltac:(lra) ltac:(lra) ltac:(lra) ltac:(lra) ltac:(lra) ltac:(lra)) as Z.
      rewrite Rabs_mult. unfold eta in *. replace (B2R f / 1000) with (/ 1000 * B2R f) by field. replace (Rabs (B2R f) / 1000) with (/ 1000 * Rabs (B2R f)) by field. apply (ap_rounded _ _ _ _ _ Z); lra.
  Qed.
  (** (1/2) g^2 and g^2 times a score *)
  Lemma gs_ok (g s : double) : sized 500 g -> sized 1000000 s -> appr (nmul (nsq g) s) (B2R g ^ 2 * B2R s) (B2R g ^ 2 * Rabs (B2R s)) (2 + / 20) (3000000 * eta) /\ 0 <= B2R g ^ 2 * Rabs (B2R s) <= 250000000000.
  Proof.
    intros (Fg & Bg) (Fs & Bs). pose proof eta_small as ET. pose proof (ap_exact g _ Fg (Rle_refl _)) as G. pose proof (ap_exact s _ Fs (Rle_refl _)) as SS. pose proof (Rabs_pos (B2R s)).
    assert (Q : Rabs (B2R g) * Rabs (B2R g) = B2R g ^ 2) by (rewrite <- Rabs_mult; rewrite Rabs_pos_eq; [ring|]; nra). assert (P : 0 <= B2R g ^ 2 <= 250000) by (rewrite <- Q; split; [apply Rmult_le_pos; apply Rabs_pos|apply Rle_trans with (500 * 500); [apply Rmult_le_compat; auto using Rabs_pos|lra]]).
    assert (R : 0 <= B2R g ^ 2 * Rabs (B2R s) <= 250000 * 1000000) by (split; [apply Rmult_le_pos; lra|apply Rmult_le_compat; lra]).
    pose proof (ap_mult _ _ _ _ _ _ _ _ _ _ (1 + / 100) eta G G ltac:(lra) ltac:(lra) ltac:(lra) ltac:(lra) ltac:(lra) ltac:(lra) ltac:(rewrite Q; lra) ltac:(lra) ltac:(lra)) as GG.
    rewrite Q in GG. pose proof (ap_mult _ _ _ _ _ _ _ _ _ _ (2 + / 20) (3000000 * eta) GG SS ltac:(lra) ltac:(lra) ltac:(unfold eta in *; lra) ltac:(lra) ltac:(lra) ltac:(unfold eta in *; lra) ltac:(lra) ltac:(lra)) as GS.
    unfold nsq. cbn [nmul RndOps DoubleOps]. replace (B2R g ^ 2 * B2R s) with (B2R g * B2R g * B2R s) by ring. split; [|lra]. apply GS. assert (eta * Rabs (B2R s) <= eta * 1000000) by (apply Rmult_le_compat_l; lra). lra.
  Qed.
  Lemma hgs_ok (g s : double) : sized 500 g -> sized 1000000 s -> appr (nmul (nmul nhalf (nsq g)) s) (B2R g ^ 2 * B2R s / 2) (B2R g ^ 2 * Rabs (B2R s) / 2) (3 + / 20) (5000000 * eta) /\ 0 <= B2R g ^ 2 * Rabs (B2R s) <= 250000000000.
  Proof.
    intros (Fg & Bg) (Fs & Bs). pose proof eta_small as ET. pose proof (ap_exact g _ Fg (Rle_refl _)) as G. pose proof (ap_exact s _ Fs (Rle_refl _)) as SS. pose proof (Rabs_pos (B2R s)).
    assert (Q : Rabs (B2R g) * Rabs (B2R g) = B2R g ^ 2) by (rewrite <- Rabs_mult; rewrite Rabs_pos_eq; [ring|]; nra). assert (P : 0 <= B2R g ^ 2 <= 250000) by (rewrite <- Q; split; [apply Rmult_le_pos; apply Rabs_pos|apply Rle_trans with (500 * 500); [apply Rmult_le_compat; auto using Rabs_pos|lra]]).
    assert (R : 0 <= B2R g ^ 2 * Rabs (B2R s) <= 250000 * 1000000) by (split; [apply Rmult_le_pos; lra|apply Rmult_le_compat; lra]).
    pose proof (ap_mult _ _ _ _ _ _ _ _ _ _ (1 + / 100) eta G G ltac:(lra) ltac:(lra) ltac:(lra) ltac:(lra) ltac:(lra) ltac:(lra) ltac:(rewrite Q; lra) ltac:(lra) ltac:(lra)) as GG. rewrite Q in GG.
    pose proof (ap_mult _ _ _ _ _ _ _ _ _ _ (2 + / 50) (2 * eta) ap_half GG ltac:(lra) ltac:(lra) ltac:(lra) ltac:(lra) ltac:(lra) ltac:(lra) ltac:(lra) ltac:(lra) ltac:(lra)) as HG.
    pose proof (ap_mult _ _ _ _ _ _ _ _ _ _ (3 + / 20) (5000000 * eta) HG SS ltac:(lra) ltac:(lra) ltac:(unfold eta in *; lra) ltac:(lra) ltac:(lra) ltac:(unfold eta in *; lra) ltac:(lra) ltac:(lra)) as GS.
    unfold nsq. cbn [nmul RndOps DoubleOps]. replace (B2R g ^ 2 * B2R s / 2) with (/ 2 * (B2R g * B2R g) * B2R s) by field. replace (B2R g ^ 2 * Rabs (B2R s) / 2) with (/ 2 * B2R g ^ 2 * Rabs (B2R s)) by field.
    split; [|lra]. apply GS. assert (eta * Rabs (B2R s) <= eta * 1000000) by (apply Rmult_le_compat_l; lra). lra.
  Qed.
  Lemma flow_close_ok (x f g s : double) : flow_close (nadd x (nmul nmilli (nsub f (nmul (nmul nhalf (nsq g)) s)))) x f g s.
  Proof.
    split; cbn [nadd nsub nmul RndOps DoubleOps].
    - intro H. apply plus_fin2 in H. destruct H as (H & H1). apply mult_fin2 in H1. destruct H1 as (_ & H1). apply minus_fin2 in H1. destruct H1 as (H1 & H2). apply mult_fin2 in H2. destruct H2 as (H2 & H3). apply mult_fin2 in H2. destruct H2 as (_ & H2). apply mult_fin2 in H2. tauto.
    - intros (Fx & Bx) (Ff & Bf) Hg Hs. pose proof eta_small as ET. destruct (hgs_ok g s Hg Hs) as (GS & P). unfold nsq in GS. cbn [nmul RndOps DoubleOps] in GS.
      pose proof (ap_exact x _ Fx (Rle_refl _)) as X. pose proof (ap_exact f _ Ff (Rle_refl _)) as F. pose proof (Rabs_pos (B2R x)). pose proof (Rabs_pos (B2R f)).
      pose proof (ap_minus _ _ _ _ _ _ _ _ _ _ (4 + / 10) (11000000 * eta) F GS ltac:(lra) ltac:(lra) ltac:(lra) ltac:(unfold eta in *; lra) ltac:(lra) ltac:(lra) ltac:(lra) ltac:(lra)) as D.
      pose proof (ap_mult _ _ _ _ _ _ _ _ _ _ (6 + / 4) (30000 * eta) ap_milli D ltac:(lra) ltac:(lra) ltac:(lra) ltac:(unfold eta in *; lra) ltac:(unfold eta in *; lra) ltac:(lra) ltac:(lra) ltac:(lra) ltac:(lra)) as HD.
      pose proof (ap_plus _ _ _ _ _ _ _ _ _ _ (7 + / 3) (70000 * eta) X HD ltac:(lra) ltac:(lra) ltac:(lra) ltac:(unfold eta in *; lra) ltac:(lra) ltac:(lra) ltac:(lra) ltac:(lra)) as Z.
      unfold eta in *. unfold Rdiv. rewrite (Rmult_comm _ (/ 1000)), (Rmult_comm (_ + _) (/ 1000)). apply (ap_rounded _ _ _ _ _ Z); lra.
  Qed.
  Lemma back_noisy_close_ok (x f g s w : double) : back_noisy_close (nadd (nadd (nsub x (nmul f nmilli)) (nmul (nmul nmilli (nsq g)) s)) (nmul g w)) x f g s w.
  Proof.
    split; unfold nsq; cbn [nadd nsub nmul RndOps DoubleOps].
    - intro H. apply plus_fin2 in H. destruct H as (H & H1). apply plus_fin2 in H. destruct H as (H2 & H3). apply minus_fin2 in H2. destruct H2 as (H2 & H4). apply mult_fin2 in H1, H3, H4. tauto.
    - intros (Fx & Bx) (Ff & Bf) (Fg & Bg) (Fs & Bs) (Fw & Bw). pose proof eta_small as ET.
      pose proof (ap_exact x _ Fx (Rle_refl _)) as X. pose proof (ap_exact f _ Ff (Rle_refl _)) as F. pose proof (ap_exact g _ Fg (Rle_refl _)) as G. pose proof (ap_exact w _ Fw (Rle_refl _)) as W. pose proof (ap_exact s _ Fs (Rle_refl _)) as SS.
      pose proof (Rabs_pos (B2R x)). pose proof (Rabs_pos (B2R f)). pose proof (Rabs_pos (B2R s)). assert (0 <= Rabs (B2R g) * Rabs (B2R w) <= 500 * 1000000) by (split; [apply Rmult_le_pos; apply Rabs_pos|apply Rmult_le_compat; auto using Rabs_pos]).
      assert (Q : Rabs (B2R g) * Rabs (B2R g) = B2R g ^ 2) by (rewrite <- Rabs_mult; rewrite Rabs_pos_eq; [ring|]; nra). assert (P : 0 <= B2R g ^ 2 <= 250000) by (rewrite <- Q; split; [apply Rmult_le_pos; apply Rabs_pos|apply Rle_trans with (500 * 500); [apply Rmult_le_compat; auto using Rabs_pos|lra]]).
      assert (R : 0 <= B2R g ^ 2 * Rabs (B2R s) <= 250000 * 1000000) by (split; [apply Rmult_le_pos; lra|apply Rmult_le_compat; lra]).
      pose proof (ap_mult _ _ _ _ _ _ _ _ _ _ (2 + / 100) eta F ap_milli ltac:(lra) ltac:(lra) ltac:(lra) ltac:(lra) ltac:(lra) ltac:(lra) ltac:(lra) ltac:(lra) ltac:(lra)) as HF.
      pose proof (ap_mult _ _ _ _ _ _ _ _ _ _ (1 + / 100) eta G W ltac:(lra) ltac:(lra) ltac:(lra) ltac:(lra) ltac:(lra) ltac:(lra) ltac:(lra) ltac:(lra) ltac:(lra)) as GW.
      pose proof (ap_mult _ _ _ _ _ _ _ _ _ _ (1 + / 100) eta G G ltac:(lra) ltac:(lra) ltac:(lra) ltac:(lra) ltac:(lra) ltac:(lra) ltac:(rewrite Q; lra) ltac:(lra) ltac:(lra)) as GG. rewrite Q in GG.
      pose proof (ap_mult _ _ _ _ _ _ _ _ _ _ (3 + / 20) (2 * eta) ap_milli GG ltac:(lra) ltac:(lra) ltac:(lra) ltac:(lra) ltac:(lra) ltac:(lra) ltac:(lra) ltac:(lra) ltac:(lra)) as HG.
      assert (eta * Rabs (B2R s) <= eta * 1000000) by (apply Rmult_le_compat_l; lra).
      pose proof (ap_mult _ _ _ _ _ _ _ _ _ _ (4 + / 5) (5000000 * eta) HG SS ltac:(lra) ltac:(lra) ltac:(unfold eta in *; lra) ltac:(lra) ltac:(lra) ltac:(unfold eta in *; lra) ltac:(lra) ltac:(lra) ltac:(lra)) as GS.
      pose proof (ap_minus _ _ _ _ _ _ _ _ _ _ (4 + / 5) (5000000 * eta) X HF ltac:(lra) ltac:(lra) ltac:(lra) ltac:(unfold eta in *; lra) ltac:(lra) ltac:(lra) ltac:(lra) ltac:(lra)) as Y1.
      pose proof (ap_plus _ _ _ _ _ _ _ _ _ _ 6 (21000000 * eta) Y1 GS ltac:(lra) ltac:(lra) ltac:(unfold eta in *; lra) ltac:(unfold eta in *; lra) ltac:(lra) ltac:(lra) ltac:(lra) ltac:(lra)) as Y2.
      pose proof (ap_plus _ _ _ _ _ _ _ _ _ _ 8 (50000000 * eta) Y2 GW ltac:(lra) ltac:(lra) ltac:(unfold eta in *; lra) ltac:(unfold eta in *; lra) ltac:(lra) ltac:(lra) ltac:(lra) ltac:(lra)) as Z.
      rewrite Rabs_mult. unfold eta in *.
      replace (B2R x - B2R f / 1000 + B2R g ^ 2 * B2R s / 1000 + B2R g * B2R w) with (B2R x - B2R f * / 1000 + / 1000 * (B2R g * B2R g) * B2R s + B2R g * B2R w) by field.
      replace (Rabs (B2R x) + (Rabs (B2R f) + B2R g ^ 2 * Rabs (B2R s)) / 1000 + Rabs (B2R g) * Rabs (B2R w)) with (Rabs (B2R x) + Rabs (B2R f) * / 1000 + / 1000 * B2R g ^ 2 * Rabs (B2R s) + Rabs (B2R g) * Rabs (B2R w)) by field.
      apply (ap_rounded _ _ _ _ _ Z); lra.
  Qed.
  Lemma back_flow_close_ok (x f g sz sb : double) : back_flow_close (nsub x (nmul (nadd (nsub f (nmul (nsq g) sz)) (nmul (nmul nhalf (nsq g)) sb)) nmilli)) x f g sz sb.
  Proof.
    split; unfold nsq; cbn [nadd nsub nmul RndOps DoubleOps].
    - intro H. apply minus_fin2 in H. destruct H as (H & H1). apply mult_fin2 in H1. destruct H1 as (H1 & _). apply plus_fin2 in H1. destruct H1 as (H1 & H2). apply minus_fin2 in H1. destruct H1 as (H1 & H3). apply mult_fin2 in H2, H3.
      destruct H2 as (H2 & H4). apply mult_fin2 in H2. destruct H2 as (_ & H2). apply mult_fin2 in H2. tauto.
    - intros (Fx & Bx) (Ff & Bf) Hg Hz Hb. pose proof eta_small as ET. destruct (hgs_ok g sb Hg Hb) as (GB & P1). destruct (gs_ok g sz Hg Hz) as (GZ & P2). unfold nsq in GB, GZ. cbn [nmul RndOps DoubleOps] in GB, GZ.
      pose proof (ap_exact x _ Fx (Rle_refl _)) as X. pose proof (ap_exact f _ Ff (Rle_refl _)) as F. pose proof (Rabs_pos (B2R x)). pose proof (Rabs_pos (B2R f)).
      pose proof (ap_minus _ _ _ _ _ _ _ _ _ _ (3 + / 10) (11000000 * eta) F GZ ltac:(lra) ltac:(lra) ltac:(lra) ltac:(unfold eta in *; lra) ltac:(lra) ltac:(lra) ltac:(lra) ltac:(lra)) as D1.
      pose proof (ap_plus _ _ _ _ _ _ _ _ _ _ (4 + / 3) (40000000 * eta) D1 GB ltac:(lra) ltac:(lra) ltac:(unfold eta in *; lra) ltac:(unfold eta in *; lra) ltac:(lra) ltac:(lra) ltac:(lra) ltac:(lra)) as D.
      pose proof (ap_mult _ _ _ _ _ _ _ _ _ _ (6 + / 2) (100000 * eta) D ap_milli ltac:(lra) ltac:(lra) ltac:(unfold eta in *; lra) ltac:(lra) ltac:(lra) ltac:(unfold eta in *; lra) ltac:(lra) ltac:(lra) ltac:(lra)) as HD.
      pose proof (ap_minus _ _ _ _ _ _ _ _ _ _ 8 (300000 * eta) X HD ltac:(lra) ltac:(lra) ltac:(lra) ltac:(unfold eta in *; lra) ltac:(lra) ltac:(lra) ltac:(lra) ltac:(lra)) as Z.
      unfold eta in *. unfold Rdiv in *. apply (ap_rounded _ _ _ _ _ Z); lra.
  Qed.

  (** sums of approximations *)
  Lemma sum_appr (N : nat) (f : nat -> double) (V A : nat -> R) (n : nat) (M : R) : (n <= N)%nat -> (forall m, (m < N)%nat -> appr (f m) (V m) (A m) (3 + / 10) M) ->
    Rabs (sumn n (fun m => B2R (f m)) - sumn n V) <= (3 + / 10) * u * sumn n A + INR n * M.
  Proof.
    intros Hn H. induction n as [|n IH]; [cbn; rewrite Rminus_0_r, Rabs_R0; lra|]. specialize (IH ltac:(lia)). destruct (H n ltac:(lia)) as (_ & _ & E). cbn [sumn]. rewrite S_INR.
    apply Rabs_le_inv in IH, E. apply Rabs_le. split; lra.
  Qed.
End R.
