(** C72, continued: the analytic score of script_1.py, and boundedness of the simulated path. *)
From Coq Require Import String List ZArith Reals Lia Lra Psatz.
From Coquelicot Require Import Coquelicot.
From Verif Require Import Base.Num Base.Py Base.Arr Lib.ArrLemmas Model.Ext Model.DPFC Model.LimitCycle Spec.LimitCycleSpec Props.LimitCycle Run.RealExt Props.Witnesses.
Import ListNotations.
Local Open Scope R_scope.

Lemma glnfss_R x y sigma : glnfss (T := R) [x; y] sigma = Ok [- x * (x ^ 2 + y ^ 2 - 1) / (1/2 * sigma ^ 2); - y * (x ^ 2 + y ^ 2 - 1) / (1/2 * sigma ^ 2)].
Proof.
  unfold glnfss. change 0%Z with (Z.of_nat 0). change 1%Z with (Z.of_nat 1). rewrite (pyget_nat [x; y] 0 0), (pyget_nat [x; y] 1 0) by (cbn; lia).
  cbn [rbind nth]. unfold nsq, nhalf. cbn [nmul nadd nsub ndiv nopp none1 nlit ROps]. repeat f_equal; ring.
Qed.

(** ** glnfss is the gradient of the logarithm of the ridge density *)
Theorem C72_score x y sigma : sigma <> 0 -> exists a b, glnfss [x; y] sigma = Ok [a; b] /\
  pdx (fun a b => ln (ridge sigma a b)) x y a /\ pdy (fun a b => ln (ridge sigma a b)) x y b.
Proof.
  intro H. do 2 eexists. split; [apply glnfss_R|]. unfold pdx, pdy, ridge. split.
  - apply is_derive_Reals. eapply is_derive_ext; [intro t; symmetry; apply ln_exp|]. auto_derive; [auto|]. field. auto.
  - apply is_derive_Reals. eapply is_derive_ext; [intro t; symmetry; apply ln_exp|]. auto_derive; [auto|]. field. auto.
Qed.

Lemma ridge_dx sigma x y : sigma <> 0 -> is_derive (fun a => ridge sigma a y) x (ridge sigma x y * (-2 * x * (x ^ 2 + y ^ 2 - 1) / sigma ^ 2)).
Proof.
  intro H. unfold ridge. eapply is_derive_ext; [intro t; reflexivity|]. evar_last.
  - apply (is_derive_comp exp (fun a => - (a ^ 2 + y ^ 2 - 1) ^ 2 / (2 * sigma ^ 2)) x); [apply is_derive_Reals, derivable_pt_lim_exp|].
    auto_derive; [auto|reflexivity].
  - unfold scal; cbn -[pow]; unfold mult; cbn -[pow]. field. auto.
Qed.
Lemma ridge_dy sigma x y : sigma <> 0 -> is_derive (fun b => ridge sigma x b) y (ridge sigma x y * (-2 * y * (x ^ 2 + y ^ 2 - 1) / sigma ^ 2)).
Proof.
  intro H. unfold ridge. evar_last.
  - apply (is_derive_comp exp (fun b => - (x ^ 2 + b ^ 2 - 1) ^ 2 / (2 * sigma ^ 2)) y); [apply is_derive_Reals, derivable_pt_lim_exp|].
    auto_derive; [auto|reflexivity].
  - unfold scal; cbn -[pow]; unfold mult; cbn -[pow]. field. auto.
Qed.

Lemma Dx_ridge sigma x y : sigma <> 0 -> Derive (fun a : R => ridge sigma a y) x = ridge sigma x y * (-2 * x * (x ^ 2 + y ^ 2 - 1) / sigma ^ 2).
Proof. intro H. apply is_derive_unique, ridge_dx, H. Qed.
Lemma Dy_ridge sigma x y : sigma <> 0 -> Derive (fun b : R => ridge sigma x b) y = ridge sigma x y * (-2 * y * (x ^ 2 + y ^ 2 - 1) / sigma ^ 2).
Proof. intro H. apply is_derive_unique, ridge_dy, H. Qed.

(** ** that density is invariant under the noisy limit cycle *)
Theorem C72_stationary sigma : sigma <> 0 -> stationary sigma (ridge sigma).
Proof.
  intro H. set (w := fun x y => x ^ 2 + y ^ 2 - 1). set (p := ridge sigma).
  exists (fun x y => p x y * (-2 * x * w x y / sigma ^ 2)), (fun x y => p x y * (-2 * y * w x y / sigma ^ 2)).
  exists (fun x y => p x y * ((-2 * x * w x y / sigma ^ 2) ^ 2 - 2 * (w x y + 2 * x ^ 2) / sigma ^ 2)),
         (fun x y => p x y * ((-2 * y * w x y / sigma ^ 2) ^ 2 - 2 * (w x y + 2 * y ^ 2) / sigma ^ 2)).
  exists (fun x y => p x y * (- w x y - 2 * x ^ 2 + fx x y * (-2 * x * w x y / sigma ^ 2))),
         (fun x y => p x y * (- w x y - 2 * y ^ 2 + fy x y * (-2 * y * w x y / sigma ^ 2))).
  split; [|split].
  - intros x y. unfold pdx, pdy. unfold w. repeat split; apply is_derive_Reals; try apply (ridge_dx sigma x y H); try apply (ridge_dy sigma x y H).
    + unfold p. auto_derive; [repeat split; auto; eexists; apply (ridge_dx sigma x y H)|]. rewrite (Dx_ridge sigma x y H). field. auto.
    + unfold p. auto_derive; [repeat split; auto; eexists; apply (ridge_dy sigma x y H)|]. rewrite (Dy_ridge sigma x y H). field. auto.
  - intros x y. unfold pdx, pdy, p, w, fx, fy. split; apply is_derive_Reals.
    + auto_derive; [repeat split; auto; eexists; apply (ridge_dx sigma x y H)|]. rewrite (Dx_ridge sigma x y H). field. auto.
    + auto_derive; [repeat split; auto; eexists; apply (ridge_dy sigma x y H)|]. rewrite (Dy_ridge sigma x y H). field. auto.
  - intros x y. unfold w, fx, fy. field. auto.
Qed.

(** ** hence with the exact score the deterministic particles of the flow only rotate: the velocity f - sigma^2/2 * score is (-y, x) *)
Theorem C72_flow_rotates x y sigma : sigma <> 0 -> exists a b, glnfss [x; y] sigma = Ok [a; b] /\
  fx x y - 1/2 * sigma ^ 2 * a = - y /\ fy x y - 1/2 * sigma ^ 2 * b = x.
Proof. intro H. do 2 eexists. split; [apply glnfss_R|]. unfold fx, fy. split; field; auto. Qed.

(** ** bounded noise gives a bounded path, of any length: the explicit Euler scheme does not blow up *)
Definition nrm (a b : R) : R := sqrt (a ^ 2 + b ^ 2).
Lemma nrm_pos a b : 0 <= nrm a b.
Proof. apply sqrt_pos. Qed.
Lemma nrm_sq a b : nrm a b ^ 2 = a ^ 2 + b ^ 2.
Proof. unfold nrm. apply pow2_sqrt. pose proof (pow2_ge_0 a). pose proof (pow2_ge_0 b). lra. Qed.
Lemma nrm_tri a b c d : nrm (a + c) (b + d) <= nrm a b + nrm c d.
Proof.
  pose proof (nrm_pos a b) as P1. pose proof (nrm_pos c d) as P2. pose proof (nrm_pos (a+c) (b+d)) as P3.
  pose proof (nrm_sq a b) as S1. pose proof (nrm_sq c d) as S2. pose proof (nrm_sq (a+c) (b+d)) as S3.
  assert (C : a * c + b * d <= nrm a b * nrm c d).
  { apply Rnot_lt_le. intro Q. assert (0 <= nrm a b * nrm c d) by nra.
    assert ((nrm a b * nrm c d) ^ 2 < (a * c + b * d) ^ 2) by nra. rewrite Rpow_mult_distr, S1, S2 in H0.
    pose proof (pow2_ge_0 (a * d - b * c)). nra. }
  apply Rnot_lt_le. intro Q. assert ((nrm a b + nrm c d) ^ 2 < nrm (a+c) (b+d) ^ 2) by nra. nra.
Qed.
Lemma nrm_scale k a b : 0 <= k -> nrm (k * a) (k * b) = k * nrm a b.
Proof. intro H. unfold nrm. replace ((k * a) ^ 2 + (k * b) ^ 2) with (k ^ 2 * (a ^ 2 + b ^ 2)) by ring. rewrite sqrt_mult by (pose proof (pow2_ge_0 k); pose proof (pow2_ge_0 a); pose proof (pow2_ge_0 b); lra). now rewrite sqrt_pow2. Qed.

Lemma em_bound b x y u v : 0 < b -> 2 <= b ^ 2 -> 3 * b ^ 2 <= 1000 -> nrm x y <= b -> nrm u v <= 1/1000 * b * (b ^ 2 - 2) ->
  nrm (x + 1/1000 * fx x y + u) (y + 1/1000 * fy x y + v) <= b.
Proof.
  intros Hb H2 H3 Hr Hn. set (r := nrm x y) in *. pose proof (nrm_pos x y) as Pr. fold r in Pr. pose proof (nrm_sq x y) as Sr. fold r in Sr.
  assert (r ^ 2 <= b ^ 2) by nra. set (k := 1 + 1/1000 * (1 - r ^ 2)). assert (Hk : 0 <= k) by (unfold k; nra).
  replace (x + 1/1000 * fx x y + u) with ((k * x + (1/1000) * (- y)) + u) by (unfold k, fx; rewrite Sr; ring).
  replace (y + 1/1000 * fy x y + v) with ((k * y + (1/1000) * x) + v) by (unfold k, fy; rewrite Sr; ring).
  pose proof (nrm_tri (k * x + 1/1000 * - y) (k * y + 1/1000 * x) u v) as T1.
  pose proof (nrm_tri (k * x) (k * y) (1/1000 * - y) (1/1000 * x)) as T2.
  rewrite (nrm_scale k x y Hk) in T2. rewrite (nrm_scale (1/1000) (- y) x) in T2 by lra.
  replace (nrm (- y) x) with r in T2 by (unfold r, nrm; f_equal; ring). fold r in T2.
  assert (T3 : k * r <= b + 1/1000 * b * (1 - b ^ 2)).
  { unfold k. assert (0 <= (b - r) * (1 + 1/1000 - 1/1000 * (b ^ 2 + b * r + r ^ 2))).
    { apply Rmult_le_pos; [lra|]. assert (b * r <= b ^ 2) by nra. nra. }
    nra. }
  nra.
Qed.

Theorem C72_bounded {S : Type} (E : Ext R S) s F b : em_path E s F -> 0 < b -> 2 <= b ^ 2 -> 3 * b ^ 2 <= 1000 ->
  (forall t, (t + 1 < List.length F)%nat -> norm2 (noise_of E (em_state E s t)) <= 1/1000 * b * (b ^ 2 - 2)) ->
  forall t, (t < List.length F)%nat -> norm2 (nth t F []) <= b.
Proof.
  intros (F0 & Fs) Hb H2 H3 Hn t. induction t as [|t IH]; intro Ht.
  - rewrite F0. unfold norm2. cbn [nth]. replace (0 ^ 2 + (-1) ^ 2) with 1 by ring. rewrite sqrt_1. nra.
  - replace (Datatypes.S t) with (t + 1)%nat by lia. rewrite Fs by lia. unfold em_next, norm2 at 1. cbn [nth].
    apply em_bound; auto; [apply IH; lia|apply Hn; lia].
Qed.

(** the path simulated by the examples (half a million steps), driven by the displacements of RealExt, stays within distance 3 of the origin *)
Example W72_bounded : exists F s', lc_simulate RealExt (np_arange 0 500 dt) 0%nat = (Ok F, s') /\ List.length F = Z.to_nat 500000 /\ forall t, (t < Z.to_nat 500000)%nat -> norm2 (nth t F []) <= 3.
Proof.
  assert (Hn : INR (Z.to_nat 500000) - 1 < 1000 * 500 <= INR (Z.to_nat 500000)) by (rewrite INR_IZR_INZ, Z2Nat.id by lia; lra).
  destruct (arange_R 500 _ Hn) as (L & _).
  destruct (lc_simulate_total RealExt (np_arange 0 500 dt) 0%nat) as (F & H & LF & _ & P); [rewrite L; lia|].
  exists F. eexists. split; [exact H|]. rewrite LF, L. split; [reflexivity|]. intros t Ht.
  apply (C72_bounded RealExt 0%nat F 3 P); [lra|lra|lra| |rewrite LF, L; exact Ht].
  intros i _. unfold noise_of, norm2. cbn [x_normal RealExt fst nth Nat.add INR].
  replace ((1/10 * (sqrt (1/1000) * 0)) ^ 2 + (1/10 * (sqrt (1/1000) * 1)) ^ 2) with (1/100 * sqrt (1/1000) ^ 2) by field.
  rewrite pow2_sqrt by lra. apply Rle_trans with (sqrt ((4/1000) ^ 2)); [apply sqrt_le_1_alt; lra|]. rewrite sqrt_pow2; lra.
Qed.
(** the score and the stationary density of script_1.py: noise amplitude 1/10, at the point (0, -2) *)
Example W72_score : glnfss [0; -2] (1/10) = Ok [0; 1200].
Proof. rewrite glnfss_R. repeat f_equal; field. Qed.
